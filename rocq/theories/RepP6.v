(** Experiments with repeated transversal gates on CSS codes. *)
From Coq Require Import QArith Qcanon.
From Verif Require Import Base Lib StimM SetupM NoiseM SpecNoise NoiseP LayoutM SpecLayout LayoutP LayoutP2 MatM MatP DetM SpecDet DetP DetCountP DetLinP DetDetP
  SpecGen GeomP BlockM LogM ExpM SpecTrack SpecExp TrackP LiftP ExpDetP ExpP ExpP2 ExpP3 ExpP4 ExpP5 ExpP8 ExpP9 ActP RoundTopP
  RepP RepP2 RepP3 RepP4 RepP5 LogP2 LogP4.
Open Scope Z_scope.

Lemma sfold_seq {S B} (f : B -> nat -> ST S B) (J : nat -> B -> S -> Prop) n s :
  (forall i b w w' b', (i < n)%nat -> J i b w -> f b (s + i)%nat w = (w', Ok b') -> J (Datatypes.S i) b' w') ->
  forall b w w' r, J 0%nat b w -> sfold f (seq s n) b w = (w', Ok r) -> J n r w'.
Proof.
  intros Step b w w' r J0. revert w' r. induction n as [|n IH]; intros w' r H.
  - cbn in H. injection H as <- <-. exact J0.
  - rewrite seq_S in H. apply sfold_app in H as (w1 & b1 & H1 & H). cbn [sfold] in H. apply sbind_ok in H as (w2 & b2 & H2 & H). injection H as <- <-.
    eapply Step; [|eapply IH; [|exact H1]|exact H2]; [lia|]. intros i b0 w0 w0' b0' Hi. apply Step. lia.
Qed.

Lemma mod_odd k : Z.of_nat k mod 2 = if Nat.odd k then 1 else 0.
Proof.
  induction k as [|k IH]; [reflexivity|]. rewrite Nat.odd_succ, <- Nat.negb_odd. destruct (Nat.odd k); cbn [negb]; lia.
Qed.

(** * The two bases of a CSS code *)
Section Basis.
  Context (l : layout) (ancs data xs zs lx lz : list string).
  Hypothesis F : css_facts l ancs data xs zs lx lz.
  Definition hset_of (rot : bool) : list string := if rot then data else [].
  Definition log_of (rot : bool) : list string := if rot then lx else lz.
  Definition log_op (rot : bool) : pauli string :=
    Pauli (fun q => hs (hset_of rot) q && mem q (log_of rot)) (fun q => negb (hs (hset_of rot) q) && mem q (log_of rot)).
  Lemma hset_incl rot : incl (hset_of rot) data.
  Proof. unfold hset_of. destruct rot; [apply incl_refl|intros q []]. Qed.
  Lemma basis_sup (rot : bool) a : In a (if rot then xs else zs) -> In a ancs /\ NoDup (support l a) /\ incl (support l a) data /\
     forall q, on (fst (css l a)) q = hs (hset_of rot) q && mem q (support l a) /\ on (snd (css l a)) q = negb (hs (hset_of rot) q) && mem q (support l a).
  Proof.
    pose proof (css_types _ _ _ _ _ _ _ F) as Ty. pose proof (css_sup _ _ _ _ _ _ _ F) as Sp.
    intros Ha. assert (Ha' : In a ancs) by (apply Ty; destruct rot; auto). split; [exact Ha'|].
    assert (Hs : NoDup (support l a) /\ incl (support l a) data) by (apply Sp; destruct rot; auto). split; [apply Hs|]. split; [apply Hs|].
    intros q. unfold hset_of, hs. destruct rot; [rewrite (css_st_x _ _ _ _ _ _ _ F a Ha)|rewrite (css_st_z _ _ _ _ _ _ _ F a Ha)]; cbn [fst snd on].
    + unfold on. destruct (mem q (support l a)) eqn:M; [|now rewrite !andb_false_r].
      assert (M' : mem q data = true) by (apply mem_In, (proj2 Hs), mem_In, M). now rewrite M'.
    + unfold on. auto.
  Qed.
  Lemma log_of_ok rot : NoDup (log_of rot) /\ incl (log_of rot) data.
  Proof.
    destruct (cf_code _ _ _ _ _ _ _ F) as [lg cc]. destruct (cc_nodup _ _ _ _ _ _ _ cc) as (_ & Nx & Nz). destruct (cc_log _ _ _ _ _ _ _ cc) as [Ix Iz].
    destruct rot; auto.
  Qed.
  Lemma log_op_com rot a : In a ancs -> anti (css l) (px (log_op rot)) (pz (log_op rot)) a = false.
  Proof.
    pose proof (css_types _ _ _ _ _ _ _ F) as Ty. pose proof (css_sup _ _ _ _ _ _ _ F) as Sp.
    destruct (cf_code _ _ _ _ _ _ _ F) as [lg cc]. cbn [log_op px pz]. unfold log_of, hset_of, hs.
    intros Ha. apply Ty in Ha as [Ha|Ha].
    + unfold anti. rewrite (css_st_x _ _ _ _ _ _ _ F a Ha). cbn [fst snd map]. change (xorl []) with false. rewrite xorb_false_r. destruct rot.
      * apply xorl_false. intros b Hb. apply in_map_iff in Hb as (q & <- & Hq). assert (In q data) by (eapply Sp; eauto).
        now rewrite (proj2 (mem_In q data)).
      * apply commutes_xor. exact (cc_lzx _ _ _ _ _ _ _ cc a Ha).
    + unfold anti. rewrite (css_st_z _ _ _ _ _ _ _ F a Ha). cbn [fst snd map]. change (xorl []) with false. rewrite xorb_false_l. destruct rot.
      * pose proof (cc_lxz _ _ _ _ _ _ _ cc a Ha) as K. apply commutes_xor in K. rewrite <- K. f_equal. apply map_ext_in.
        intros q Hq. assert (In q data) by (eapply Sp; eauto). now rewrite (proj2 (mem_In q data)).
      * apply xorl_false. intros b Hb. apply in_map_iff in Hb as (q & <- & Hq). reflexivity.
  Qed.
  Lemma log_op_out rot q : ~ In q data -> px (log_op rot) q = false /\ pz (log_op rot) q = false.
  Proof. intros Hq. cbn [log_op px pz]. rewrite (mem_not q (log_of rot)) by (intros H; apply Hq, (log_of_ok rot), H). now rewrite !andb_false_r. Qed.
  Lemma log_op_iok rot : Iok ancs data (hset_of rot) (log_op rot).
  Proof.
    split.
    - intros q. unfold had, log_op. cbn [px pz]. destruct (hs (hset_of rot) q); reflexivity.
    - intros q Hq _. now apply log_op_out.
  Qed.
End Basis.

Section Css.
  Context (ordt : nat -> nat -> list string -> list string) (ordp : nat -> nat -> list (string * string) -> list (string * string)).
  Hypothesis Hp : forall t n s, Permutation (ordt t n s) s.
  Hypothesis Hpp : forall t n s, Permutation (ordp t n s) s.
  Context (l : layout) (ancs data xs zs lx lz : list string).
  Hypothesis F : css_facts l ancs data xs zs lx lz.
  Context (it : (nat -> list string -> list string) -> layout -> bool -> blocks).
  Hypothesis Hr : forall t, exists g, round_of l (css l) (it (ordt t) l) ancs g.
  Context (bl : (nat -> list string -> list string) -> (nat -> list (string * string) -> list (string * string)) -> layout -> blocks).
  Context (prefix lq : string) (nd : dict string (list string)) (op : pauli string -> pauli string) (swaps : bool).
  Hypothesis El : first_log l = Ok lq.
  Hypothesis End : new_stab_dict l (prefix ++ lq) = Ok nd.
  Hypothesis A : label_act (fun ord ordp => bl ord ordp l) (css l) ancs op nd.
  Hypothesis G : good_op data op.
  Hypothesis Hq : forall ord ordp, num_meas (lg_blocks (bl ord ordp l)) = 0%nat.
  Hypothesis Hsw : swaps = true -> forall p, (forall q, ~ In q data -> px p q = false /\ pz p q = false) ->
    ((forall q, px p q = false) -> forall q, pz (op p) q = false) /\ ((forall q, pz p q = false) -> forall q, px (op p) q = false).

  Let Na := cf_nodup _ _ _ _ _ _ _ F.
  Let Nd := css_ndata _ _ _ _ _ _ _ F.
  Let Hda := cf_disj _ _ _ _ _ _ _ F.
  Let Ea := cf_anc _ _ _ _ _ _ _ F.
  Let Ed := css_data _ _ _ _ _ _ _ F.
  Lemma rep_st a : In a ancs -> NoDup (fst (css l a)) /\ NoDup (snd (css l a)) /\ incl (fst (css l a)) data /\ incl (snd (css l a)) data.
  Proof.
    intros Ha. assert (I : forall q, In q (fst (css l a)) \/ In q (snd (css l a)) -> In q data) by (intros q; eapply css_in; eauto).
    apply (css_types _ _ _ _ _ _ _ F) in Ha. pose proof (css_sup _ _ _ _ _ _ _ F a Ha) as [N _].
    destruct Ha as [Ha|Ha]; [rewrite (css_st_x _ _ _ _ _ _ _ F a Ha) in *|rewrite (css_st_z _ _ _ _ _ _ _ F a Ha) in *]; cbn [fst snd] in *;
      repeat split; auto; try constructor; intros q Hi; auto.
  Qed.
  Lemma rep_css n R di rot reset dets w w' c : SpecNoise.wf_inds (inds (fst w)) -> NoDup (labels (snd w)) -> dfr (snd w) <> GateIndep ->
    repeated_with ordt it (fun t => log_trans prefix (bl (ordt t) (ordp t))) swaps l n R di rot reset dets false w = (w', Ok c) -> all_deterministic c.
  Proof.
    intros W N Fr H. unfold repeated_with in H. destruct (R <? 0); [discriminate|].
    destruct ((n <? 0) || (negb swaps && (n mod 2 =? 1))) eqn:Ev; [discriminate|]. apply orb_false_iff in Ev as [En Ev]. apply Z.ltb_ge in En.
    apply sbind_ok in H as (w0 & ds & H0 & H). unfold slift in H0. injection H0 as <- H0.
    apply sbind_ok in H as (w1 & c0 & H1 & H). apply start_ok in H1 as (-> & _ & B0 & T0); [|exact W].
    apply sbind_ok in H as (w2 & c1 & H2 & H). unfold init_qubits, init_with in H2. apply sbind_ok in H2 as (w3 & anc' & H3 & H2). unfold slift in H3. injection H3 as <- H3.
    rewrite Ea in H3. injection H3 as <-. apply sbind_ok in H2 as (w3 & u & H3 & H2). apply ond_ok in H3 as (d3 & H3 & ->). apply onm_ok in H2 as (m2 & H2 & ->).
    cbn [fst snd] in *. destruct u.
    destruct (quiet_blocks _ (init_measures (ordt 1%nat) l di rot)) as [OI MI].
    destruct (tracked_blocks _ _ _ _ _ _ _ T0 H2 OI) as [T1 B1]. cbn [app] in T1.
    apply sbind_ok in H as (w4 & ds0 & H4 & H). unfold slift in H4. injection H4 as <- H4. cbn [negb] in H4.
    apply sbind_ok in H as (w5 & c2 & H5 & H). apply sbind_ok in H as (w6 & c3 & H6 & H). apply sbind_ok in H as (w7 & c4 & H7 & H). injection H as <- <-.
    set (I := lg_blocks (init_blocks (ordt 1%nat) l di rot)) in *.
    set (odd := Nat.odd (Z.to_nat n)).
    set (rot' := if swaps && negb (n mod 2 =? 0) then negb rot else rot) in *.
    assert (Em : n mod 2 = if odd then 1 else 0) by (unfold odd; rewrite <- (Z2Nat.id n) at 1 by lia; apply mod_odd).
    assert (Er : (odd = false /\ rot' = rot) \/ (odd = true /\ swaps = true /\ rot' = negb rot)).
    { unfold rot'. rewrite Em in *. destruct odd, swaps; cbn in Ev |- *; try discriminate; auto. }
    assert (Eodd : Nat.odd (Z.to_nat n) = odd) by reflexivity. clearbody rot' odd.
    set (pe := log_op data lx lz rot').
    set (PL := fun b : bool => if eqb b odd then pe else op pe).
    assert (PLf : PL odd = pe) by (unfold PL; now rewrite eqb_refl).
    assert (PLn : PL (negb odd) = op pe) by (unfold PL; destruct odd; reflexivity).
    assert (Pcase : forall b, PL b = pe \/ PL b = op pe) by (intros b; unfold PL; destruct (eqb b odd); auto).
    assert (Za : forall q, In q ancs -> ~ In q data) by (intros q H X; now apply (Hda q X)).
    assert (PL0 : forall b q, In q ancs -> px (PL b) q = false /\ pz (PL b) q = false).
    { intros b q Hi. destruct (Pcase b) as [->| ->]; [now apply (log_op_out _ _ _ _ _ _ _ F), Za|].
      destruct (go_out _ _ G pe q (Za q Hi)) as [-> ->]. now apply (log_op_out _ _ _ _ _ _ _ F), Za. }
    assert (PLc : forall b a, In a ancs -> anti (css l) (px (PL b)) (pz (PL b)) a = false).
    { intros b a Hi. destruct (Pcase b) as [->| ->]; [now apply (log_op_com _ _ _ _ _ _ _ F)|].
      eapply (op_commutes (css l) ancs data op nd); eauto using rep_st. intros a' Ha'. now apply (log_op_com _ _ _ _ _ _ _ F). }
    assert (PLi : Iok ancs data (hset_of data rot) (PL false)).
    { destruct Er as [[Eo Er]|(Eo & Es & Er)].
      - rewrite <- Eo, PLf. unfold pe. rewrite Er. apply (log_op_iok _ _ _ _ _ _ _ F).
      - replace false with (negb odd) by now rewrite Eo. rewrite PLn.
        destruct (Hsw Es pe) as [S1 S2]; [intros q Hi; now apply (log_op_out _ _ _ _ _ _ _ F)|].
        assert (Out : forall q, ~ In q data -> px (op pe) q = false /\ pz (op pe) q = false).
        { intros q Hi. destruct (go_out _ _ G pe q Hi) as [-> ->]. now apply (log_op_out _ _ _ _ _ _ _ F). }
        split; [|intros q Hi _; now apply Out]. intros q. unfold had. cbn [px]. unfold hs. destruct (mem q (hset_of data rot)) eqn:M.
        + destruct rot; [|discriminate]. apply S1. intros x. unfold pe. rewrite Er. reflexivity.
        + destruct rot.
          * apply Out. intros Hi. apply mem_In in Hi. cbn [hset_of] in M. congruence.
          * apply S2. intros x. unfold pe. rewrite Er. cbn [negb log_op hset_of log_of pz]. unfold hs. destruct (mem x data) eqn:Mx; [reflexivity|].
            destruct (log_of_ok _ _ _ _ _ _ _ F true) as [_ Il]. cbn [log_of] in Il. cbn [negb andb].
            apply mem_not. intros Hi. apply Il, mem_In in Hi. congruence. }
    assert (D3 : dst2 (snd w) ancs (dmat nd) 0 0 d3) by (eapply dst2_start; eauto).
    assert (Ka : incl ancs (labels (snd w))) by (rewrite <- (proj1 (d2_same _ _ _ _ _ _ D3)); apply D3).
    assert (V : invol (labels (snd w)) (dmat nd)).
    { apply shape_invol; [exact N|apply A|]. intros a Ha. apply Ka. now apply (la_dom _ _ _ _ _ A). }
    assert (Dcl : forall a x, In a ancs -> In x (labels (snd w)) -> dmat nd a x = true -> In x ancs).
    { intros a x Ha _ E. apply (la_dom _ _ _ _ _ A). eapply shape_closed; [apply A|apply (la_dom _ _ _ _ _ A); exact Ha|exact E]. }
    assert (Hst : forall a q, In a ancs -> In q (fst (css l a)) \/ In q (snd (css l a)) -> In q data) by (intros a q; eapply css_in; eauto).
    assert (Hcom : forall a b, In a ancs -> In b ancs -> anti (css l) (on (fst (css l a))) (on (snd (css l a))) b = false) by (intros a b; eapply css_com; eauto).
    assert (HI : forall sel p, Iok ancs data (hset_of data rot) p -> bk I sel p identity_op).
    { intros sel p Ip. unfold I. destruct (init_gates (ordt 1%nat) l di rot ancs data Ea Ed) as [exc ->]. eapply init_bk; [| |apply hset_incl|intros q|exact Ip].
      - destruct rot; [exact Nd|constructor].
      - intros q. reflexivity.
      - rewrite <- in_app_iff, <- (dedup_In (data ++ ancs) q). split; apply Permutation_in; [apply Hp|symmetry; apply Hp]. }
    assert (HIs : still I) by apply still_blocks.
    set (bt := fun a => In a (if rot then xs else zs)).
    assert (Hbt : forall a, bt a -> In a ancs /\ forall q, (hs (hset_of data rot) q = false -> on (fst (css l a)) q = false) /\ (hs (hset_of data rot) q = true -> on (snd (css l a)) q = false)).
    { intros a Ha. destruct (basis_sup _ _ _ _ _ _ _ F rot a Ha) as (Hi & _ & _ & K). split; [exact Hi|]. intros q. destruct (K q) as [-> ->].
      split; intros ->; reflexivity. }
    assert (HD : forall a x, In a (labels (snd w)) -> In x (labels (snd w)) -> dmat nd a x = dmat nd a x) by reflexivity.
    set (IV := inv (snd w) (inds (fst w)) (css l) ancs data (hset_of data rot) (dmat nd) reset I PL (c0 ++ c1)).
    assert (Rnd : forall t h k K Gp c x ds c' x', IV h k K Gp c x -> (h = [] -> forall a, In a ds -> In a ancs -> bt a) ->
       qec_round (it (ordt t)) l reset (Some ds) x = (x', Ok c') -> exists r, IV (r :: h) 0%nat (K + k)%nat [] (c ++ c') x').
    { intros t h k K Gp c x ds' c' x' Hi Hb E. destruct (Hr t) as [g Hg].
      exact (inv_round ordt (snd w) (inds (fst w)) (css l) ancs data (hset_of data rot) (dmat nd) reset Na Hda Hst Hcom (hset_incl data rot) Fr V Dcl
        I bt HI MI HIs Hbt PL PL0 PLc l prefix lq nd HD _ _ _ _ _ _ _ _ _ _ _ _ Hi Hg Hb E). }
    assert (Gate : forall t h k K Gp c x c' x', IV h k K Gp c x -> h <> [] ->
       log_trans prefix (bl (ordt t) (ordp t)) l x = (x', Ok c') -> exists Gp', IV h (S k) K Gp' (c ++ c') x').
    { intros t h k K Gp c x c' x' Hi Hn E. destruct (la_bk _ _ _ _ _ A (ordt t) (ordp t) (Hp t) (Hpp t)) as [O B].
      refine (inv_gate (snd w) (inds (fst w)) (css l) ancs data (hset_of data rot) (dmat nd) reset Na V Dcl I PL l prefix lq nd El End HD
        _ _ _ _ _ _ _ _ _ _ Hi Hn O _ _ E).
      - apply (act_acts (css l) ancs data op nd (fun ord ordp => bl ord ordp l)); auto.
      - intros b sel. eapply bk_eq; [apply B|apply peq_refl|].
        destruct (Bool.bool_dec b odd) as [->|Nb].
        + rewrite PLf, PLn. apply go_two with (data := data). exact G.
        + replace b with (negb odd) by (clear -Nb; destruct b, odd; try reflexivity; now contradiction Nb). rewrite Bool.negb_involutive, PLf, PLn. apply peq_refl. }
    assert (Hi0 : IV [] 0%nat 0%nat [] [] (m2, d3)).
    { apply inv_start; auto. }
    assert (Hb0 : @nil rnd = [] -> forall a, In a ds0 -> In a ancs -> bt a).
    { intros _ a Hd Ha. unfold bt. unfold first_dets in H4. apply bind_ok in H4 as (s & Es & H4). injection H4 as <-.
      eapply Permutation_in in Hd; [|apply Hp]. unfold inter in Hd. apply filter_In in Hd as [_ Hd]. apply mem_In in Hd.
      assert (E : get_stabs l (basis_type rot) = Ok (if rot then xs else zs)) by (destruct rot; [apply (css_x _ _ _ _ _ _ _ F)|apply (css_z _ _ _ _ _ _ _ F)]).
      rewrite E in Es. injection Es as <-. exact Hd. }
    destruct (Rnd 3%nat _ _ _ _ _ _ _ _ _ Hi0 Hb0 H5) as [r1 Hi1].
    set (J := fun (g : nat) c x => exists h k K Gp, IV h k K Gp c x /\ h <> [] /\ (K + k)%nat = g).
    assert (J1 : J 0%nat c2 w5) by (exists [r1], 0%nat, 0%nat, []; split; [exact Hi1|split; [discriminate|reflexivity]]).
    apply (sfold_seq _ (fun i acc x => J i (c2 ++ acc) x)) in H6.
    3:{ now rewrite app_nil_r. }
    2:{ intros i b x x' b' Hi (h & k & K & Gp & Hv & Hn & Hk) E. cbv zeta in E.
        apply sbind_ok in E as (x1 & cg & E1 & E). apply sbind_ok in E as (x2 & d & E2 & E). injection E as <- <-.
        destruct (Gate _ _ _ _ _ _ _ _ _ Hv Hn E1) as [Gp' Hv'].
        apply (sfold_seq _ (fun _ acc x => J (S i) (((c2 ++ b) ++ cg) ++ acc) x)) in E2.
        - now rewrite !app_assoc in *.
        - intros j b2 y y' b2' _ (h2 & k2 & K2 & Gp2 & Hv2 & Hn2 & Hk2) E. apply sbind_ok in E as (y1 & c5 & E3 & E). injection E as <- <-.
          destruct (Rnd _ _ _ _ _ _ _ _ _ _ Hv2 (fun e => False_ind _ (Hn2 e)) E3) as [r Hv3].
          exists (r :: h2), 0%nat, (K2 + k2)%nat, []. rewrite app_assoc. split; [exact Hv3|]. split; [discriminate|lia].
        - rewrite app_nil_r. exists h, (S k), K, Gp'. split; [exact Hv'|]. split; [exact Hn|lia]. }
    destruct H6 as (h & k & K & Gp & Hv & Hn & Hk).
    rewrite !app_assoc. rewrite <- app_assoc. rewrite <- (app_assoc (c0 ++ c1)). rewrite (app_assoc c2).
    apply good_all. apply good_app; [apply good_none; apply Forall_app; split; assumption|]. cbn [app].
    destruct (cf_code _ _ _ _ _ _ _ F) as [lg cc].
    destruct (log_of_ok _ _ _ _ _ _ _ F rot') as [Nlo Ilo].
    destruct (only_ok _ _ (log_measures l rot' data Ed)) as [Om _].
    refine (inv_meas ordt (snd w) (inds (fst w)) (css l) ancs data (hset_of data rot) (dmat nd) reset Na Nd Hda Hst Hcom (hset_incl data rot) Fr V Dcl
        I bt HI MI HIs Hbt PL PL0 PLc l prefix lq nd HD rot' (hset_of data rot') (lg_blocks (log_meas_blocks l rot')) (if rot' then xs else zs) (log_of lx lz rot') lg
        (cf_wf _ _ _ _ _ _ _ F) _ _ _ _ _ _ _ Nlo Ilo _ _ _ _ _ _ _ log_meas_blocks ds c4 w7 Hv Hn Om eq_refl _ H7).
    - intros sel. rewrite (log_meas_gates l rot' data Ed ancs Ea). apply meas_bk; [exact Nd|destruct rot'; [exact Nd|constructor]|reflexivity].
    - rewrite (log_meas_gates l rot' data Ed ancs Ea), mlab_app, !mlab_map. reflexivity.
    - apply still_blocks.
    - destruct rot'; [apply (css_x _ _ _ _ _ _ _ F)|apply (css_z _ _ _ _ _ _ _ F)].
    - apply (basis_sup _ _ _ _ _ _ _ F).
    - apply cc.
    - destruct rot'; apply cc.
    - rewrite Hk, Eodd, PLf. apply peq_refl.
  Qed.
End Css.
