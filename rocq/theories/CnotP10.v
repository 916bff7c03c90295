(** The repeated CNOT experiment on two layouts with known generators. *)
From Coq Require Import QArith Qcanon.
From Verif Require Import Base Lib StimM SetupM NoiseM SpecNoise NoiseP LayoutM SpecLayout LayoutP LayoutP2 SetupP MatM MatP DetM SpecDet DetP DetCountP DetLinP DetDetP
  SpecGen GeomP BlockM LogM SpecLog ExpM SpecTrack SpecExp TrackP LiftP ExpDetP ExpP ExpP2 ExpP3 ExpP4 ExpP5 ExpP8 ExpP9 ExpP13 ActP RoundP RoundTopP RepP RepP2 RepP3 RepP4 RepP5 RepP6 RepP7
  LogP4 LogP8 LogP10 MergeM SpecMerge MergeP MergeP2 MergeP3 MergeP4 MergeP5 MergeP6 MergeP7 CnotP CnotP2 CnotP3 CnotP4 CnotP5 CnotP6 CnotP7 CnotP8 CnotP9.
Open Scope Z_scope.

(* a CNOT that multiplies the generators [t] by their mates *)
Record gate_fine (st : stabilizers) (ancs : list string) (okp : bool -> pauli string -> Prop) (mate : string -> string) (t : string -> bool) (l1 l2 : layout) : Prop := {
  gf_data : exists gt nc nt, cnot_label l1 l2 = Ok gt /\ new_stab_dict l1 gt = Ok nc /\ new_stab_dict l2 gt = Ok nt /\
    forall a x, dmat (dupdate nc nt) a x = shear mate t a x;
  gf_t : forall a, t a = true -> mate a <> a /\ t (mate a) = false;
  gf_run : forall ord ordp, (forall n s, Permutation (ord n s) s) -> (forall n s, Permutation (ordp n s) s) ->
    ok_blocks (trans_cnot_blocks ord ordp l1 l2) /\ acts_as st ancs (lg_blocks (trans_cnot_blocks ord ordp l1 l2)) (shear mate t) /\
    forall rot p, okp rot p -> exists p', okp rot p' /\ forall sel, bk (lg_blocks (trans_cnot_blocks ord ordp l1 l2)) sel p p' }.

Lemma trans_cnot_quiet ord ordp lc lt : num_meas (lg_blocks (trans_cnot_blocks ord ordp lc lt)) = 0%nat.
Proof.
  rewrite <- mlab_len. cut (Forall quiet (trans_cnot_blocks ord ordp lc lt)); [intros Q; now rewrite (proj2 (quiet_blocks _ Q))|].
  unfold trans_cnot_blocks. repeat match goal with |- context[if ?b then _ else _] => destruct b; [repeat constructor|] end.
  destruct (get_role lc "data"); [|repeat constructor]. cbn [bind]. destruct (get_role lt "data"); [|repeat constructor]. cbn [bind].
  destruct (cnot_label lc lt); [|repeat constructor]. cbn [bind]. destruct (mapM _ _); [|repeat constructor]. cbn [bind generator]. unfold tick_block. repeat constructor.
Qed.

Section Exp.
  Context (lc : layout) (ac dc xc zc lxc lzc : list string) (lt : layout) (at_ dt xt zt lxt lzt : list string).
  Hypothesis Fc : css_facts lc ac dc xc zc lxc lzc.
  Hypothesis Ft : css_facts lt at_ dt xt zt lxt lzt.
  Hypothesis Dis : forall q, In q (dkeys (l_nodes lc)) -> In q (dkeys (l_nodes lt)) -> False.
  Notation st := (jst lc lt).
  Notation ancs := (jancs ac at_).
  Notation data := (jdata dc dt).
  Notation okp := (jok lc ac dc lt at_ dt).
  Let Na := jNa lc ac dc xc zc lxc lzc lt at_ dt xt zt lxt lzt Fc Ft Dis.
  Let Nd := jNd lc ac dc xc zc lxc lzc lt at_ dt xt zt lxt lzt Fc Ft Dis.
  Let Hda := jHda lc ac dc xc zc lxc lzc lt at_ dt xt zt lxt lzt Fc Ft Dis.
  Let Hst := jHst lc ac dc xc zc lxc lzc lt at_ dt xt zt lxt lzt Fc Ft Dis.
  Let Hcom := jHcom lc ac dc xc zc lxc lzc lt at_ dt xt zt lxt lzt Fc Ft Dis.
  Let Hsn := jst_nodup lc ac dc xc zc lxc lzc lt at_ dt xt zt lxt lzt Fc Ft Dis.
  Lemma fine_intro l1 l2 gt nc nt f b mate t d1 d2 : cnot_label l1 l2 = Ok gt -> new_stab_dict l1 gt = Ok nc -> new_stab_dict l2 gt = Ok nt ->
    label_act (fun ord ordp => trans_cnot_blocks ord ordp l1 l2) st ancs (cnot_op d1 d2 f b) (dupdate nc nt) -> good_op data (cnot_op d1 d2 f b) ->
    (forall a x, dmat (dupdate nc nt) a x = shear mate t a x) -> (forall a, t a = true -> mate a <> a /\ t (mate a) = false) ->
    gate_fine st ancs okp mate t l1 l2.
  Proof.
    intros El Ec Et A G D T. constructor; [exists gt, nc, nt; auto|exact T|].
    intros ord ordp Ho Hpp. destruct (la_bk _ _ _ _ _ A ord ordp Ho Hpp) as [O B]. split; [exact O|]. split.
    - eapply acts_as_meq; [|apply (act_acts st ancs data (cnot_op d1 d2 f b) (dupdate nc nt) (fun ord ordp => trans_cnot_blocks ord ordp l1 l2)); auto; apply trans_cnot_quiet].
      intros a x _ _. apply D.
    - intros rot p (P1 & P2 & P3). exists (cnot_op d1 d2 f b p). split; [|intros sel; apply B]. split; [|split].
      + intros q Hq. destruct (go_out _ _ G p q Hq) as [-> ->]. now apply P1.
      + eapply (op_commutes st ancs data (cnot_op d1 d2 f b) (dupdate nc nt)); eauto.
      + destruct (cnot_op_keeps d1 d2 f b p) as [K1 K2]. destruct rot; auto.
  Qed.

  Context (fuse : bool) (show : arg -> arg) (ordt : nat -> nat -> list string -> list string) (ordp : nat -> nat -> list (string * string) -> list (string * string)).
  Hypothesis Hp : forall t n s, Permutation (ordt t n s) s.
  Hypothesis Hpp : forall t n s, Permutation (ordp t n s) s.
  Context (code : string).
  Hypothesis Hrc : forall t, exists g, round_of lc (css lc) (css_round (ordt t) code lc) ac g.
  Hypothesis Hrt : forall t, exists g, round_of lt (css lt) (css_round (ordt t) code lt) at_ g.
  Hypothesis Hoc : forall t reset b q, In (Ok b) (css_round (ordt t) code lc reset) -> In q (operands b) -> In q (dkeys (l_nodes lc)).
  Hypothesis Hot : forall t reset b q, In (Ok b) (css_round (ordt t) code lt reset) -> In q (operands b) -> In q (dkeys (l_nodes lt)).
  Context (mate : string -> string).
  Hypothesis Hmi : forall a, mate (mate a) = a.
  Hypothesis Hma : forall a, In a ancs -> In (mate a) ancs.
  Hypothesis Hmo : forall a, ~ In a ancs -> mate a = a.
  Hypothesis Hmt : forall rot a, jbt xc zc xt zt rot a -> jbt xc zc xt zt rot (mate a).
  Context (t0 : string -> bool).
  Hypothesis G0 : gate_fine st ancs okp mate t0 lc lt.

  Lemma ops_in bl Q : (forall b q, In (Ok b) bl -> In q (operands b) -> In q Q) -> incl (ops bl) Q.
  Proof. intros K q Hq. unfold ops in Hq. apply in_flat_map in Hq as ([b|] & Hb & Hq); [eauto|destruct Hq]. Qed.
  Definition L (sw : bool) := if sw then lt else lc.
  Definition M (sw : bool) := if sw then lc else lt.
  Lemma none_oks ls : oks ls mate (fun _ => false).
  Proof. intros a _ E. discriminate. Qed.

  Lemma cnot_css n R di ori rot reset dets w w' c :
    SpecNoise.wf_inds (inds (fst w)) -> uniform (stp (fst w)) -> NoDup (labels (snd w)) -> dfr (snd w) <> GateIndep ->
    (ori = "constant" \/ exists t1, gate_fine st ancs okp mate t1 lt lc) ->
    repeated_cnot_with fuse show ordt ordp (fun ord => css_round ord code) lc lt n R di ori rot reset dets false w = (w', Ok c) -> all_deterministic c.
  Proof.
    intros W Un Nl Fr Hori H. unfold repeated_cnot_with in H. destruct (R <? 0) eqn:ER; [discriminate|]. destruct (n <? 0) eqn:EN; [discriminate|].
    apply sbind_ok in H as (w0 & ds & H0 & H). unfold slift in H0. injection H0 as <- _. destruct (negb _) eqn:Eo; [discriminate|].
    apply sbind_ok in H as (w0' & dic & Hx0 & H). unfold slift in Hx0. apply (f_equal fst) in Hx0 as Hw0; apply (f_equal snd) in Hx0 as Hic; cbn [fst snd] in Hw0, Hic; subst w0'.
    apply sbind_ok in H as (w0'' & dit & Hx1 & H). unfold slift in Hx1. apply (f_equal fst) in Hx1 as Hw1; apply (f_equal snd) in Hx1 as Hit; cbn [fst snd] in Hw1, Hit; subst w0''.
    apply sbind_ok in H as (w1 & c0 & H1 & H). apply start_ok in H1 as (-> & A0 & B0 & T0); [|exact W].
    apply sbind_ok in H as (w2 & ic & H2 & H). apply sbind_ok in H as (w3 & it_ & H3 & H).
    apply sbind_ok in H as (w4 & c1 & H4 & H). unfold slift in H4. injection H4 as <- H4.
    destruct (jinit lc ac dc xc zc lxc lzc lt at_ dt xt zt lxt lzt Fc Ft Dis show _ _ _ _ _ _ _ (snd w) (new_circuit (fst w), det_new (snd w)) _ _ _ _ _ _ (Hp 1%nat) (Hp 2%nat) Hic Hit Nl eq_refl T0 A0 H2 H3 H4)
      as (I & T1 & HI & MI & HIs & B1 & Sm & D2 & Ip & Ic).
    apply sbind_ok in H as (w4' & ds0 & H5 & H). unfold slift in H5. injection H5 as <- H5. cbv iota in H5.
    apply sbind_ok in H as (w5 & c2 & H6 & H). apply sbind_ok in H as (w6 & [[c3 l1'] l2'] & H7 & H). apply sbind_ok in H as (w7 & c4 & H8 & H). injection H as <- <-.
    assert (Ka : incl ancs (labels (snd w))) by (rewrite <- (proj1 (d2_same _ _ _ _ _ _ D2)); apply D2).
    assert (Hm : forall a, In a (labels (snd w)) -> In (mate a) (labels (snd w)) /\ mate (mate a) = a).
    { intros a Ha. split; [|apply Hmi]. destruct (in_dec string_dec a ancs) as [Hi|Hi]; [apply Ka; auto|now rewrite (Hmo a Hi)]. }
    set (bt := jbt xc zc xt zt rot). pose proof (jHbt lc ac dc xc zc lxc lzc lt at_ dt xt zt lxt lzt Fc Ft Dis rot) as Hbt.
    pose proof (hset_incl data rot) as Hh.
    pose proof (jok0 lc ac dc xc zc lxc lzc lt at_ dt xt zt lxt lzt Fc Ft Dis rot) as ok0.
    pose proof (jokc lc ac dc lt at_ dt rot) as okc.
    pose proof (joki lc ac dc lt at_ dt rot) as oki.
    set (IV := inv3 (snd w) (inds (fst w)) st ancs data (jh dc dt rot) mate reset I (okp rot) (c0 ++ c1)).
    assert (Hi0 : IV [] (fun _ => false) [] [] w3).
    { apply inv3_start; auto; [|eapply dst3_of; eauto]. destruct Sm as (_ & <- & _). exact Un. }
    (* rounds *)
    assert (Rnd : forall sw j h s Gp c x ds c' x', IV h s Gp c x -> (h = [] -> forall a, In a ds -> In a ancs -> bt a) ->
      merge_qec_rounds fuse (fun p => css_round (ordt (3 + 2 * j + p)%nat) code) [L sw; M sw] reset (Some ds) x = (x', Ok c') ->
      exists r, IV (r :: h) (fun _ => false) [] (c ++ c') x' /\ r_mat r = shear mate s).
    { intros sw j h s Gp c x ds' c' x' Hi Hb E.
      assert (Lk : lockstep [css_round (ordt (3 + 2 * j + 0)%nat) code (L sw) reset; css_round (ordt (3 + 2 * j + 1)%nat) code (M sw) reset]).
      { refine (lock_round fuse (fun p => css_round (ordt (3 + 2 * j + p)%nat) code) [L sw; M sw] reset _ _ _ _ _ E). intros; left; eauto. }
      assert (X : exists g, acts st ancs g /\ still (round_g ancs g reset) /\
        teq (round_g ancs g reset) (lg_blocks (css_round (ordt (3 + 2 * j + 0)%nat) code (L sw) reset) ++ lg_blocks (css_round (ordt (3 + 2 * j + 1)%nat) code (M sw) reset)) /\
        (forall q, In q (ops (css_round (ordt (3 + 2 * j + 0)%nat) code (L sw) reset)) -> In q (ops (css_round (ordt (3 + 2 * j + 1)%nat) code (M sw) reset)) -> False) /\
        ok_blocks (css_round (ordt (3 + 2 * j + 0)%nat) code (L sw) reset) /\ ok_blocks (css_round (ordt (3 + 2 * j + 1)%nat) code (M sw) reset)).
      { generalize (3 + 2 * j + 0)%nat (3 + 2 * j + 1)%nat. intros u v. destruct sw; cbn [L M].
        - destruct (Hrc v) as [gc Rc], (Hrt u) as [gt Rt].
          destruct (jround lc ac dc xc zc lxc lzc lt at_ dt xt zt lxt lzt Fc Ft Dis _ _ gc gt reset Rc Rt (Hoc v true) (Hot u true)) as (A & B & _ & C).
          exists (gc ++ gt). split; [exact A|]. split; [exact B|]. split; [exact C|]. split; [|split; [apply Rt|apply Rc]].
          intros q Q1 Q2. apply (Dis q); [exact (ops_in _ _ (Hoc v reset) q Q2)|exact (ops_in _ _ (Hot u reset) q Q1)].
        - destruct (Hrc u) as [gc Rc], (Hrt v) as [gt Rt].
          destruct (jround lc ac dc xc zc lxc lzc lt at_ dt xt zt lxt lzt Fc Ft Dis _ _ gc gt reset Rc Rt (Hoc u true) (Hot v true)) as (A & B & C & _).
          exists (gc ++ gt). split; [exact A|]. split; [exact B|]. split; [exact C|]. split; [|split; [apply Rc|apply Rt]].
          intros q Q1 Q2. apply (Dis q); [exact (ops_in _ _ (Hoc u reset) q Q1)|exact (ops_in _ _ (Hot v reset) q Q2)]. }
      destruct X as (g & X1 & X2 & X3 & X4 & X5 & X6).
      exact (inv3_round fuse (snd w) (inds (fst w)) st ancs data (jh dc dt rot) mate reset Na Hda Hst Hcom Hh Fr Nl Ka Hm Hma I bt HI MI HIs Hbt (okp rot) ok0 okc
        (c0 ++ c1) h s Gp c x (fun p => css_round (ordt (3 + 2 * j + p)%nat) code) (L sw) (M sw) ds' c' x' g Hi X1 X3 X2 Lk X4 X5 X6 Hb E). }
    (* gates *)
    assert (Gate : forall sw t, gate_fine st ancs okp mate t (L sw) (M sw) -> forall k h s s' Gp c x c' x', IV h s Gp c x -> h <> [] ->
      next (labels (snd w)) mate s t s' -> log_trans_cnot (ordt k) (ordp k) (L sw) (M sw) x = (x', Ok c') -> exists Gp', IV h s' Gp' (c ++ c') x').
    { intros sw t [(gt & nc & nt & E1 & E2 & E3 & E4) _ Gr] k h s s' Gp c x c' x' Hi Hn Nx E.
      destruct (Gr (ordt k) (ordp k) (Hp k) (Hpp k)) as (O & A & K).
      exact (inv3_gate (snd w) (inds (fst w)) st ancs data (jh dc dt rot) mate reset Na Nl Ka Hm Hma I (okp rot) (c0 ++ c1) h s t s' Gp c x (ordt k) (ordp k) (L sw) (M sw) gt nc nt c' x'
        Hi Hn Nx E1 E2 E3 (fun a x _ _ => E4 a x) O A (K rot) E). }
    assert (Oks : forall sw t, gate_fine st ancs okp mate t (L sw) (M sw) -> oks (labels (snd w)) mate t) by (intros sw t [_ T _] a _; apply T).
    (* the first round *)
    assert (Hb0 : @nil rnd = [] -> forall a, In a ds0 -> In a ancs -> bt a).
    { intros _ a Hd _. unfold bt, jbt. rewrite (stabs_c lc ac dc xc zc lxc lzc Fc), (stabs_t lt at_ dt xt zt lxt lzt Ft) in H5. cbn [bind] in H5. injection H5 as <-.
      eapply Permutation_in in Hd; [|apply Hp]. unfold inter in Hd. apply filter_In in Hd as [_ Hd]. apply mem_In in Hd. now apply in_app_or in Hd. }
    destruct (Rnd false 0%nat _ _ _ _ _ _ _ _ Hi0 Hb0 H6) as (r1 & Hi1 & Er1). cbn [app] in Hi1.
    (* the final measurement *)
    assert (Side : forall sw x x' c4, merge_log_meas fuse (fun _ => log_meas_blocks) [L sw; M sw] [rot; rot] reset (Some ds) x = (x', Ok c4) ->
      exists bts sup, all_stabs [(L sw, rot); (M sw, rot)] = Ok (bts, sup) /\ (forall a, In a bts -> bt a) /\
        (forall a s, In a bts -> dget a sup = Some s -> NoDup s /\ forall q, In q s <-> In q (jsup lc ac lt a)) /\
        lockstep [log_meas_blocks (L sw) rot; log_meas_blocks (M sw) rot] /\
        (forall q, In q (ops (log_meas_blocks (L sw) rot)) -> In q (ops (log_meas_blocks (M sw) rot)) -> False) /\
        ok_blocks (log_meas_blocks (L sw) rot) /\ ok_blocks (log_meas_blocks (M sw) rot)).
    { intros sw x x' c4' H9. destruct (meas_stabs _ _ _ _ _ _ _ _ _ H9) as (bts & sup & Eb). cbn [combine] in Eb.
      destruct (jstabs lc ac dc xc zc lxc lzc lt at_ dt xt zt lxt lzt Fc Ft Dis sw rot bts sup Eb) as [J1 J2]. exists bts, sup.
      split; [exact Eb|]. split; [auto|]. split; [exact J2|]. split; [exact (lock_meas _ _ _ 2 _ _ _ _ _ H9)|]. split; [|split].
      - intros q Q1 Q2. assert (K : forall l, incl (ops (log_meas_blocks l rot)) (dkeys (l_nodes l))) by (intros l; apply ops_in; intros b y; apply meas_operands).
        apply K in Q1, Q2. destruct sw; cbn [L M] in *; eapply Dis; eauto.
      - destruct sw; cbn [L]; [destruct (only_ok _ _ (log_measures lt rot dt (css_data _ _ _ _ _ _ _ Ft))) as [Om _]|destruct (only_ok _ _ (log_measures lc rot dc (css_data _ _ _ _ _ _ _ Fc))) as [Om _]]; exact Om.
      - destruct sw; cbn [M]; [destruct (only_ok _ _ (log_measures lc rot dc (css_data _ _ _ _ _ _ _ Fc))) as [Om _]|destruct (only_ok _ _ (log_measures lt rot dt (css_data _ _ _ _ _ _ _ Ft))) as [Om _]]; exact Om. }
    destruct (Nat.eq_dec (Z.to_nat R) 0) as [R0|R0].
    { (* no rounds after the first *)
      rewrite R0 in H7. set (alt := eqb ori "alternating") in *.
      set (IW := inv4 (snd w) (inds (fst w)) st ancs data (jh dc dt rot) mate reset I (okp rot) (c0 ++ c1) r1).
      assert (Hw1 : IW (shear mate (fun _ => false)) [] c2 w5).
      { apply (inv4_start (snd w) (inds (fst w)) st ancs data (jh dc dt rot) mate reset Nl Hm I (okp rot)); [exact Hi1|]. intros a b _ _. rewrite Er1. unfold shear. cbn [andb]. apply orb_false_r. }
      assert (Ea : alt = true -> exists t1, gate_fine st ancs okp mate t1 lt lc) by (intros E; destruct Hori as [->|Ht]; [discriminate|exact Ht]).
      assert (Loop : forall count k sw A Gp c x x' acc cl a b, IW A Gp c x -> (alt = false -> sw = false) ->
        cnot_loop ordt ordp (fun j lc lt => merge_qec_rounds fuse (fun p => css_round (ordt (3 + 2 * j + p)%nat) code) [lc; lt] reset (Some ds)) alt 0 count k (L sw) (M sw) acc x = (x', Ok (cl, a, b)) ->
        exists sw' A' Gp' c', cl = acc ++ c' /\ a = L sw' /\ b = M sw' /\ IW A' Gp' (c ++ c') x').
      { induction count as [|count IH]; intros k sw A Gp c x x' acc cl a b Hi Hs E; cbn [cnot_loop] in E.
        - injection E as <- <- <- <-. exists sw, A, Gp, []. rewrite !app_nil_r. auto.
        - assert (Esw : exists sw', (if alt && Nat.odd k then (M sw, L sw) else (L sw, M sw)) = (L sw', M sw') /\ (alt = false -> sw' = false)).
          { destruct alt; [|exists sw; cbn [andb]; tauto]. cbn [andb]. destruct (Nat.odd k); [exists (negb sw)|exists sw]; (split; [now destruct sw|discriminate]). }
          destruct Esw as (sw' & Esw & Hsw). rewrite Esw in E. clear Esw Hs.
          apply sbind_ok in E as (x1 & cg & E1 & E). cbn [seq sfold] in E. apply sbind_ok in E as (x2 & cd & E2 & E). injection E2 as <- <-. rewrite app_nil_r in E.
          assert (K : exists t, gate_fine st ancs okp mate t (L sw') (M sw')).
          { destruct sw'; [|exists t0; exact G0]. destruct alt; [|now specialize (Hsw eq_refl)]. exact (Ea eq_refl). }
          destruct K as (t & Gt). pose proof (Oks sw' t Gt) as Ot. destruct Gt as [(gt & nc & nt & K1 & K2 & K3 & K4) _ Gr].
          destruct (Gr (ordt (3 + 2 * (1 + k * 1))%nat) (ordp (3 + 2 * (1 + k * 1))%nat) (Hp _) (Hpp _)) as (O & Ac & Kp).
          destruct (inv4_gate (snd w) (inds (fst w)) st ancs data (jh dc dt rot) mate reset Na Nl Ka Hm Hma I (okp rot) (c0 ++ c1) r1 A Gp c x _ _ (L sw') (M sw') gt nc nt t cg x1
            Hi Ot K1 K2 K3 (fun a x _ _ => K4 a x) O Ac (Kp rot) E1) as (A' & Gp' & Hi').
          apply (IH _ sw' A' Gp' (c ++ cg)) in E; [|exact Hi'|exact Hsw].
          destruct E as (sw3 & A3 & Gp3 & c' & -> & -> & -> & Hi3). exists sw3, A3, Gp3, (cg ++ c'). rewrite <- !app_assoc in *. auto 10. }
      destruct (Loop _ _ false _ _ _ _ _ _ _ _ _ Hw1 (fun _ => eq_refl) H7) as (sw & A & Gp & c' & -> & -> & -> & Hv).
      cbn [app] in *. clear Loop.
      replace (c0 ++ c1 ++ c2 ++ c' ++ c4) with ((c0 ++ c1) ++ (c2 ++ c') ++ c4) by now rewrite <- !app_assoc.
      apply good_all. apply good_app; [apply good_none; apply Forall_app; split; assumption|]. cbn [app].
      destruct (Side _ _ _ _ H8) as (bts & sup & Eb & J1 & J2 & S1 & S2 & S3 & S4).
      refine (inv4_meas fuse (snd w) (inds (fst w)) st ancs data (jh dc dt rot) mate reset Na Nd Hda Hst Hcom Hh Fr Nl Ka Hm Hma I bt HI MI HIs Hbt (okp rot) ok0 okc
        (jh dc dt rot) (jmeas dc dt rot) (jmeas_bk lc ac dc xc zc lxc lzc lt at_ dt xt zt lxt lzt Fc Ft Dis rot) (jmeas_lab dc dt rot) (jmeas_still lc ac dc xc zc lxc lzc lt at_ dt xt zt lxt lzt Fc Ft Dis rot)
        (Hmt rot) (c0 ++ c1) r1 A Gp _ _ (fun _ => log_meas_blocks) (L sw) (M sw) rot bts sup (jsup lc ac lt) ds _ _ Hv
        (jmeas_teq lc ac dc xc zc lxc lzc lt at_ dt xt zt lxt lzt Fc Ft Dis sw rot) S1 S2 S3 S4 Eb J1 _ J2 _ H8).
      - intros a Ha. apply (jbasis lc ac dc xc zc lxc lzc lt at_ dt xt zt lxt lzt Fc Ft Dis rot a). exact (J1 a Ha).
      - intros m os E o Ho. exact (jobs lc ac dc xc zc lxc lzc lt at_ dt xt zt lxt lzt Fc Ft Dis sw rot m os E o Ho). }
    (* the loop *)
    set (alt := eqb ori "alternating") in *.
    set (n0 := fun _ : string => false) in *.
    set (St := fun (sw : bool) (s : string -> bool) => if alt then s = n0 else sw = false /\ (s = n0 \/ s = t0)).
    assert (Ea : alt = true -> (1 <= Z.to_nat R)%nat /\ exists t1, gate_fine st ancs okp mate t1 lt lc).
    { intros E. destruct Hori as [->|Ht]; [discriminate|]. split; [lia|exact Ht]. }
    assert (Step : forall sw k h s Gp c x x1 cg, IV h s Gp c x -> h <> [] -> St sw s -> (alt = false -> sw = false) ->
      log_trans_cnot (ordt k) (ordp k) (L sw) (M sw) x = (x1, Ok cg) -> exists s' Gp', IV h s' Gp' (c ++ cg) x1 /\ (alt = false -> s' = n0 \/ s' = t0)).
    { intros sw k h s Gp c x x1 cg Hi Hn HS Hsw E. unfold St in HS.
      assert (K : exists t, gate_fine st ancs okp mate t (L sw) (M sw) /\ (alt = false -> t = t0)).
      { destruct sw; [|exists t0; split; [exact G0|reflexivity]]. destruct alt eqn:Ealt; [|now specialize (Hsw eq_refl)].
        destruct (Ea eq_refl) as (_ & t1 & G1). exists t1. split; [exact G1|discriminate]. }
      destruct K as (t & Gt & Et). pose proof (Oks sw t Gt) as Ot.
      assert (Hs : s = n0 \/ s = t) by (destruct alt; [now left|destruct HS as [_ [HS|HS]]; [now left|right; rewrite HS; symmetry; now apply Et]]).
      destruct Hs as [-> | ->].
      - destruct (Gate sw t Gt k h n0 t Gp c x cg x1 Hi Hn (next_first _ _ t Ot) E) as [Gp' Hi']. exists t, Gp'. split; [exact Hi'|]. intros Ef. right. auto.
      - destruct (Gate sw t Gt k h t n0 Gp c x cg x1 Hi Hn (next_again _ _ t Ot) E) as [Gp' Hi']. exists n0, Gp'. split; [exact Hi'|]. now left. }
    assert (Rnds : forall sw j m h s Gp c x x' cd, IV h s Gp c x -> h <> [] ->
      sfold (fun acc r => sdo c <- merge_qec_rounds fuse (fun p => css_round (ordt (3 + 2 * (j + r) + p)%nat) code) [L sw; M sw] reset (Some ds); sret (acc ++ c)) (seq 0 m) [] x = (x', Ok cd) ->
      exists h' s' Gp', IV h' s' Gp' (c ++ cd) x' /\ h' <> [] /\ (s' = n0 \/ (m = 0%nat /\ s' = s))).
    { intros sw j m h s Gp c x x' cd Hi Hn E.
      apply (sfold_seq _ (fun i acc x => exists h' s' Gp', IV h' s' Gp' (c ++ acc) x /\ h' <> [] /\ (s' = n0 \/ (i = 0%nat /\ s' = s)))) in E; [exact E| |].
      - intros i b y y' b' _ (h2 & s2 & Gp2 & Hv & Hn2 & _) E2. apply sbind_ok in E2 as (y1 & c5 & E3 & E2). injection E2 as <- <-.
        destruct (Rnd _ _ _ _ _ _ _ _ _ _ Hv (fun e => False_ind _ (Hn2 e)) E3) as (r & Hv3 & _). exists (r :: h2), n0, []. rewrite app_assoc. split; [exact Hv3|].
        split; [discriminate|now left].
      - exists h, s, Gp. rewrite app_nil_r. auto. }
    assert (Loop : forall count k sw h s Gp c x x' acc cl a b, IV h s Gp c x -> h <> [] -> St sw s ->
      cnot_loop ordt ordp (fun j lc lt => merge_qec_rounds fuse (fun p => css_round (ordt (3 + 2 * j + p)%nat) code) [lc; lt] reset (Some ds)) alt (Z.to_nat R) count k (L sw) (M sw) acc x = (x', Ok (cl, a, b)) ->
      exists sw' h' s' Gp' c', cl = acc ++ c' /\ a = L sw' /\ b = M sw' /\ IV h' s' Gp' (c ++ c') x' /\ h' <> []).
    { induction count as [|count IH]; intros k sw h s Gp c x x' acc cl a b Hi Hn HS E; cbn [cnot_loop] in E.
      - injection E as <- <- <- <-. exists sw, h, s, Gp, []. rewrite !app_nil_r. auto.
      - assert (Esw : exists sw', (if alt && Nat.odd k then (M sw, L sw) else (L sw, M sw)) = (L sw', M sw') /\ St sw' s /\ (alt = false -> sw' = false)).
        { unfold St in *. destruct alt; [|exists sw; cbn [andb]; tauto]. cbn [andb]. destruct (Nat.odd k); [exists (negb sw)|exists sw]; (split; [now destruct sw|split; [exact HS|discriminate]]). }
        destruct Esw as (sw' & Esw & HS' & Hsw). rewrite Esw in E. clear Esw HS.
        apply sbind_ok in E as (x1 & cg & E1 & E). apply sbind_ok in E as (x2 & cd & E2 & E).
        destruct (Step _ _ _ _ _ _ _ _ _ Hi Hn HS' Hsw E1) as (s1 & Gp1 & Hi' & Hs1).
        destruct (Rnds _ _ _ _ _ _ _ _ _ _ Hi' Hn E2) as (h2 & s2 & Gp2 & Hi2 & Hn2 & Hs2).
        apply (IH _ sw' h2 s2 Gp2 ((c ++ cg) ++ cd)) in E; [|exact Hi2|exact Hn2|].
        + destruct E as (sw3 & h3 & s3 & Gp3 & c' & -> & -> & -> & Hi3 & Hn3). exists sw3, h3, s3, Gp3, (cg ++ cd ++ c'). rewrite <- !app_assoc in *. auto 10.
        + unfold St. destruct alt.
          * destruct Hs2 as [Hs2|[Hm0 _]]; [exact Hs2|]. destruct (Ea eq_refl) as [HR _]. lia.
          * split; [auto|]. destruct Hs2 as [Hs2|[_ ->]]; [now left|auto]. }
    assert (HS0 : St false n0) by (unfold St; destruct alt; auto).
    destruct (Loop _ _ false [r1] n0 [] _ _ _ _ _ _ _ Hi1 ltac:(discriminate) HS0 H7) as (sw & h & s & Gp & c' & -> & -> & -> & Hv & Hn).
    cbn [app] in *. clear Loop Rnds Step.
    replace (c0 ++ c1 ++ c2 ++ c' ++ c4) with ((c0 ++ c1) ++ (c2 ++ c') ++ c4) by now rewrite <- !app_assoc.
    apply good_all. apply good_app; [apply good_none; apply Forall_app; split; assumption|]. cbn [app].
    destruct (Side _ _ _ _ H8) as (bts & sup & Eb & J1 & J2 & S1 & S2 & S3 & S4).
    refine (inv3_meas fuse (snd w) (inds (fst w)) st ancs data (jh dc dt rot) mate reset Na Nd Hda Hst Hcom Hh Fr Nl Ka Hm Hma I bt HI MI HIs Hbt (okp rot) ok0 okc
      (jh dc dt rot) (jmeas dc dt rot) (jmeas_bk lc ac dc xc zc lxc lzc lt at_ dt xt zt lxt lzt Fc Ft Dis rot) (jmeas_lab dc dt rot) (jmeas_still lc ac dc xc zc lxc lzc lt at_ dt xt zt lxt lzt Fc Ft Dis rot)
      (c0 ++ c1) h s Gp _ _ (fun _ => log_meas_blocks) (L sw) (M sw) rot bts sup (jsup lc ac lt) ds _ _ Hv Hn
      (jmeas_teq lc ac dc xc zc lxc lzc lt at_ dt xt zt lxt lzt Fc Ft Dis sw rot) S1 S2 S3 S4 Eb _ J2 _ H8).
    - intros a Ha. apply (jbasis lc ac dc xc zc lxc lzc lt at_ dt xt zt lxt lzt Fc Ft Dis rot a). exact (J1 a Ha).
    - intros m os E o Ho. exact (jobs lc ac dc xc zc lxc lzc lt at_ dt xt zt lxt lzt Fc Ft Dis sw rot m os E o Ho).
  Qed.
End Exp.
