(** Experiments on two layouts: rounds, gates and final measurements keep the checks deterministic. *)
From Coq Require Import QArith Qcanon.
From Verif Require Import Base Lib StimM SetupM NoiseM SpecNoise NoiseP LayoutM SpecLayout LayoutP LayoutP2 MatM MatP DetM SpecDet DetP DetCountP DetLinP DetDetP
  SpecGen GeomP BlockM LogM SpecLog ExpM SpecTrack SpecExp TrackP LiftP ExpDetP ExpP ExpP2 ExpP3 ExpP4 ExpP5 ExpP8 ExpP13 ActP RoundP RoundTopP RepP RepP2 RepP3 RepP4 RepP5
  LogP4 LogP10 MergeM SpecMerge MergeP MergeP2 MergeP3 MergeP4 MergeP5 MergeP6 MergeP7 CnotP CnotP2 CnotP3 CnotP4.
Open Scope Z_scope.

Lemma append_det c i : nm i = DETECTOR -> append c i = c ++ [i].
Proof. intros E. destruct (append_app c i) as [->|(c'&j&->&H2&H3&H4&->)]; [reflexivity|]. rewrite E in H4. discriminate. Qed.
Lemma cat_dets fuse c d : Forall (fun i => nm i = DETECTOR) d -> cat fuse c d = c ++ d.
Proof.
  intros F. unfold cat. destruct fuse; [|reflexivity]. revert c. induction F as [|i d Hi F IH]; intros c; [now rewrite app_nil_r|].
  unfold appends in *. cbn [fold_left]. rewrite append_det, IH, <- app_assoc by exact Hi. reflexivity.
Qed.
Lemma names_of_dets {A} (P : A -> instr -> Prop) d a0 r0 ls cd : Forall2 (fun a i => det_of d (a0 a) (r0 a) i /\ P a i) ls cd -> Forall (fun i => nm i = DETECTOR) cd.
Proof. induction 1 as [|a i ls cd ((xs & _ & E & _) & _) _ IH]; constructor; auto. Qed.
Lemma dets_ann cd : Forall (fun i => nm i = DETECTOR) cd -> annotations cd.
Proof. intros F. eapply Forall_impl; [|exact F]. intros i ->. reflexivity. Qed.
Lemma empty_det3 qi m L L0 c i : tracked qi m L0 c -> teq L L0 -> still L -> tg i = [] -> deterministic c i.
Proof.
  intros T E S Z. apply (tracks_det qi m L L0 c i (fun _ _ => false) T E).
  - rewrite Z. constructor.
  - intros k Hk. unfold lists. rewrite Z. cbn. symmetry. now apply selT_false.
  - eapply bk_ext; [exact S|]. intros k Hk. unfold nosel. symmetry. now apply selT_false.
Qed.

Section Two.
  Context (fuse : bool) (d0 : detectors) (qi : dict string Z) (st : stabilizers) (ancs data hset : list string) (mate : string -> string) (reset : bool).
  Hypothesis Na : NoDup ancs.
  Hypothesis Nd : NoDup data.
  Hypothesis Hda : forall q, In q data -> ~ In q ancs.
  Hypothesis Hst : forall a q, In a ancs -> In q (fst (st a)) \/ In q (snd (st a)) -> In q data.
  Hypothesis Hcom : forall a b, In a ancs -> In b ancs -> anti st (on (fst (st a))) (on (snd (st a))) b = false.
  Hypothesis Hh : incl hset data.
  Hypothesis Fr : dfr d0 <> GateIndep.
  Hypothesis Nl : NoDup (labels d0).
  Hypothesis Kn : incl ancs (labels d0).
  Hypothesis Hm : forall a, In a (labels d0) -> In (mate a) (labels d0) /\ mate (mate a) = a.
  Hypothesis Hma : forall a, In a ancs -> In (mate a) ancs.
  (* initialization *)
  Context (I : list (gate string)) (bt : string -> Prop).
  Hypothesis HI : forall sel p, Iok ancs data hset p -> bk I sel p identity_op.
  Hypothesis HIm : mlab I = [].
  Hypothesis HIs : still I.
  Hypothesis Hbt : forall a, bt a -> In a ancs /\ forall q, (hs hset q = false -> on (fst (st a)) q = false) /\ (hs hset q = true -> on (snd (st a)) q = false).
  (* the operators that all gates keep: logical operators *)
  Context (okp : pauli string -> Prop).
  Hypothesis okp0 : forall p q, okp p -> In q ancs -> px p q = false /\ pz p q = false.
  Hypothesis okpc : forall p a, okp p -> In a ancs -> anti st (px p) (pz p) a = false.
  Hypothesis okpi : forall p, okp p -> Iok ancs data hset p.

  Record inv3 (pre : circuit) (h : list rnd) (s : string -> bool) (Gp : list (gate string)) (c : circuit) (w : world) : Prop := {
    i3_tr : tracks qi (fst w) (I ++ gates_of ancs reset h ++ Gp) (pre ++ c);
    i3_uni : uniform (stp (fst w));
    i3_dst : dst3 d0 ancs mate (length h) s (snd w);
    i3_oks : oks (labels d0) mate s;
    i3_rnd : Forall (rnd_ok st ancs) h;
    i3_acts : acts_as st ancs Gp (shear mate s);
    i3_sh : still (gates_of ancs reset h);
    i3_sg : still Gp;
    i3_good : good pre c;
    i3_first : h = [] -> forall a, s a = false;
    i3_fix : forall p, okp p -> fixed_op st ancs data hset h p;
    i3_pl : forall p, okp p -> exists p', okp p' /\ forall sel, bk Gp sel p p' }.
  Lemma oks_ancs s : oks (labels d0) mate s -> oks ancs mate s.
  Proof using Kn. clear -Kn. intros O a Ha. apply O. auto. Qed.
  Lemma Hm_ancs a : In a ancs -> In (mate a) ancs /\ mate (mate a) = a.
  Proof using Hma Hm Kn. clear -Hma Hm Kn. intros Ha. split; [auto|]. apply Hm. auto. Qed.
  Lemma shear_none a x : shear mate (fun _ => false) a x = eqb a x.
  Proof. unfold shear. cbn [andb]. apply orb_false_r. Qed.
  Lemma shear_out s a x : In a ancs -> ~ In x ancs -> shear mate s a x = false.
  Proof using Hma.
    clear -Hma. intros Ha Nx. unfold shear. rewrite (proj2 (eqb_neq a x)) by (intros ->; contradiction).
    rewrite (proj2 (eqb_neq (mate a) x)) by (intros E; apply Nx; rewrite <- E; auto). apply andb_false_r.
  Qed.
  Lemma rmul_mmul u M b : rmul ancs u M b = xorl (map (fun a => u a && M a b) ancs).
  Proof. reflexivity. Qed.
  Lemma near_far3 s a b : oks (labels d0) mate s -> In a ancs -> In b ancs ->
    rmul ancs (near (dfr d0) (shear mate s) a) (shear mate s) b = far (dfr d0) (shear mate s) a b.
  Proof using Na Fr Hma Hm Kn.
    clear -Na Fr Hma Hm Kn. intros O Ha Hb. unfold near, far. destruct (dfr d0) eqn:E; [|now rewrite (rmul_one ancs Na)|congruence].
    exact (shear_two ancs mate Na Hm_ancs s a b (oks_ancs s O) Ha).
  Qed.
  Lemma cnt3 h q : Forall (rnd_ok st ancs) h -> In q ancs -> count q (mlab (I ++ gates_of ancs reset h)) = length h.
  Proof using HIm Na.
    clear -HIm Na. intros F Hq. rewrite mlab_app, HIm. cbn [app].
    induction F as [|r h O F IH]; [reflexivity|]. cbn [gates_of]. rewrite mlab_app, count_app, (mlab_rnd st ancs reset r O), IH.
    rewrite count_nodup by exact Na. rewrite (proj2 (mem_In q ancs) Hq). cbn [length]. lia.
  Qed.
  Lemma inv3_start pre w : tracks qi (fst w) I pre -> uniform (stp (fst w)) -> dst3 d0 ancs mate 0 (fun _ => false) (snd w) -> inv3 pre [] (fun _ => false) [] [] w.
  Proof using Na okpi.
    clear -Na okpi. intros T U X. constructor; cbn [gates_of length app]; rewrite ?app_nil_r; auto.
    - apply oks_none.
    - eapply acts_as_meq; [|apply acts_as_nil; exact Na]. intros a b _ _. symmetry. apply shear_none.
    - apply bk_nil.
    - apply bk_nil.
    - apply good_none. constructor.
    - intros p Hp. constructor. auto.
    - intros p Hp. exists p. split; [exact Hp|]. intros sel. apply bk_nil.
  Qed.
  (* a gate *)
  Lemma inv3_gate pre h s t s' Gp c w ord ordp l1 l2 gt nc nt c' w' : inv3 pre h s Gp c w -> h <> [] ->
    next (labels d0) mate s t s' ->
    cnot_label l1 l2 = Ok gt -> new_stab_dict l1 gt = Ok nc -> new_stab_dict l2 gt = Ok nt ->
    (forall a x, In a (labels d0) -> In x (labels d0) -> dmat (dupdate nc nt) a x = shear mate t a x) ->
    ok_blocks (trans_cnot_blocks ord ordp l1 l2) -> acts_as st ancs (lg_blocks (trans_cnot_blocks ord ordp l1 l2)) (shear mate t) ->
    (forall p, okp p -> exists p', okp p' /\ forall sel, bk (lg_blocks (trans_cnot_blocks ord ordp l1 l2)) sel p p') ->
    log_trans_cnot ord ordp l1 l2 w = (w', Ok c') -> exists Gp', inv3 pre h s' Gp' (c ++ c') w'.
  Proof using Na Nl Kn Hm Hma.
    clear -Na Nl Kn Hm Hma. intros X Hn Nx Eg Enc Ent HD O A B H. apply log_cnot_ok in H as (g & nc' & nt' & Eg' & Enc' & Ent' & R & U).
    rewrite Eg in Eg'. injection Eg' as <-. rewrite Enc in Enc'. injection Enc' as <-. rewrite Ent in Ent'. injection Ent' as <-.
    exists (Gp ++ lg_blocks (trans_cnot_blocks ord ordp l1 l2)). destruct X as [T Un Ds Ok_ F Ac Sh Sg Gd _ Fx Pl].
    destruct (tracks_blocks _ _ _ _ _ _ _ T R O) as [T1 N1]. pose proof (blocks_gates _ _ _ _ R O) as [(_ & Ss & _) _].
    constructor; auto.
    - now rewrite <- !app_assoc in T1.
    - now rewrite Ss.
    - eapply dst3_gate; eauto.
    - apply Nx.
    - assert (Nx' : next ancs mate s t s').
      { destruct Nx as (O1 & O2 & O3 & E). split; [|split; [|split]]; try now apply oks_ancs. intros a Ha. apply E. auto. }
      eapply acts_as_meq; [|apply acts_as_app; [exact Ac|exact A]]. intros a b Ha Hb. exact (next_shear ancs mate Na Hm_ancs s t s' a b Nx' Ha).
    - apply still_app; [exact Sg|apply still_blocks].
    - apply good_app; [exact Gd|now apply good_none].
    - intros E. contradiction.
    - intros p Hp. destruct (B p Hp) as (p1 & Hp1 & B1). destruct (Pl p1 Hp1) as (p2 & Hp2 & B2). exists p2. split; [exact Hp2|]. intros sel. eapply bk_app; [apply B1|apply B2].
  Qed.
  (* a merged round *)
  Lemma inv3_round pre h s Gp c w it l1 l2 ds c' w' g : inv3 pre h s Gp c w ->
    acts st ancs g -> teq (round_g ancs g reset) (lg_blocks (it 0%nat l1 reset) ++ lg_blocks (it 1%nat l2 reset)) -> still (round_g ancs g reset) ->
    lockstep [it 0%nat l1 reset; it 1%nat l2 reset] -> (forall q, In q (ops (it 0%nat l1 reset)) -> In q (ops (it 1%nat l2 reset)) -> False) ->
    ok_blocks (it 0%nat l1 reset) -> ok_blocks (it 1%nat l2 reset) ->
    (h = [] -> forall a, In a ds -> In a ancs -> bt a) ->
    merge_qec_rounds fuse it [l1; l2] reset (Some ds) w = (w', Ok c') -> exists r, inv3 pre (r :: h) (fun _ => false) [] (c ++ c') w' /\ r_mat r = shear mate s.
  Proof.
    intros X Ag Tg Sg Lk Dj O1 O2 B H. exists (Rnd Gp (shear mate s) g). split; [|reflexivity].
    unfold merge_qec_rounds in H. apply sbind_ok in H as (w1 & ok & H1 & H). unfold slift in H1. injection H1 as <- _. destruct (negb ok); [discriminate|].
    apply sbind_ok in H as (w2 & cb & H1 & H). apply onm_ok in H1 as (m1 & H1 & ->). apply sbind_ok in H as (w3 & cd & H3 & H).
    apply ond_ok in H3 as (d3 & H3 & ->). apply sret_ok in H as [-> <-]. cbn [fst snd] in *.
    change (map (fun kl => it (fst kl) (snd kl) reset) (enumerate [l1; l2])) with [it 0%nat l1 reset; it 1%nat l2 reset] in H1.
    pose proof X as [T Un Ds Ok_ F Ac Sh Sgp Gd Ef Fx Pl].
    assert (W : SpecNoise.wf_inds (inds (fst w))). { destruct T as (L0 & T & _). rewrite (tk_qi _ _ _ _ T). apply (tk_wf _ _ _ _ T). }
    destruct (tracks_merged fuse qi _ _ _ _ _ _ _ T Un Lk Dj O1 O2 H1) as [T1 B1].
    destruct (merged_inv _ _ _ _ _ Un Lk W H1) as [(_ & Ss & _) _].
    assert (T2 : tracks qi m1 (I ++ gates_of ancs reset (Rnd Gp (shear mate s) g :: h)) ((pre ++ c) ++ cb)).
    { eapply tracks_eq; [exact T1|]. cbn [gates_of]. unfold rnd_gates. cbn [r_gap r_g].
      replace (I ++ gates_of ancs reset h ++ Gp ++ round_g ancs g reset) with ((I ++ gates_of ancs reset h ++ Gp) ++ round_g ancs g reset) by now rewrite <- !app_assoc.
      apply teq_app; [apply teq_refl|exact Tg]. }
    clear T1. pose proof (dst3_linked d0 ancs mate Nl Hm _ _ _ Ok_ Ds) as Lkd.
    destruct (anc_content2 _ _ _ _ _ _ _ (d3_wf _ _ _ _ _ _ Ds) Lkd ltac:(rewrite (proj1 (proj2 (d3_same _ _ _ _ _ _ Ds))); exact Fr) H3) as (_ & ls & P & F2).
    pose proof (names_of_dets _ (snd w) (fun a => a) (fun _ => _) _ _ F2) as Nm. pose proof (dets_ann _ Nm) as A2. rewrite (cat_dets fuse cb cd Nm).
    assert (Ro : rnd_ok st ancs (Rnd Gp (shear mate s) g)) by (split; [exact Ag|exact Ac]).
    assert (Stl : still (gates_of ancs reset (Rnd Gp (shear mate s) g :: h))).
    { cbn [gates_of]. apply still_app; [exact Sh|]. unfold rnd_gates. cbn [r_gap r_g]. apply still_app; [exact Sgp|exact Sg]. }
    pose proof (dst3_round d0 ancs mate Nl Hm _ _ _ _ _ _ _ _ Ok_ Fr Ds H3) as D2.
    constructor; auto.
    - rewrite app_nil_r. replace (pre ++ c ++ cb ++ cd) with (((pre ++ c) ++ cb) ++ cd) by now rewrite <- !app_assoc. now apply tracks_ann.
    - cbn [fst]. now rewrite <- Ss.
    - apply oks_none.
    - eapply acts_as_meq; [|apply acts_as_nil; exact Na]. intros a b _ _. symmetry. apply shear_none.
    - apply bk_nil.
    - apply good_app; [exact Gd|]. apply good_app; [now apply good_none|]. apply good_checks; [exact A2|].
      destruct T2 as (L0 & T2 & E2). set (L := I ++ gates_of ancs reset (Rnd Gp (shear mate s) g :: h)) in *.
      assert (Cn : forall q, In q ancs -> count q (mlab L0) = S (length h)).
      { intros q Hq. rewrite <- (teq_count _ _ q E2). exact (cnt3 (Rnd Gp (shear mate s) g :: h) q (Forall_cons _ Ro F) Hq). }
      assert (Sl : still L) by (apply still_app; [exact HIs|exact Stl]).
      clear Nm A2 P H3 D2. induction F2 as [|a i ls cd (_ & F3 & F4 & F5) _ IH]; constructor; [|exact IH]. intros _. clear IH. rewrite <- !app_assoc in *.
      destruct F4 as [[Hd Ha]|E]; [|eapply empty_det3; [exact T2|exact E2|exact Sl|exact E]]. cbn [wanted] in Hd. pose proof (proj1 (d3_act _ _ _ _ _ _ Ds a) Ha) as Ha'.
      set (u := near (dfr d0) (shear mate s) a) in *. set (v := far (dfr d0) (shear mate s) a) in *.
      apply (tracks_det qi m1 L L0 _ i (Tround2 ancs reset u v) T2 E2 F3).
      + intros j Hj. rewrite lists_parity. rewrite (F5 Hd Ha (Z.of_nat (length h)) _ (refers m1 j) (d3_num _ _ _ _ _ _ Ds a Ha') (refers_reads m1 j)).
        replace (Z.of_nat (length h) + 1) with (Z.of_nat (S (length h))) by lia.
        rewrite (proj1 (proj2 (d3_same _ _ _ _ _ _ Ds))), (proj1 (d3_same _ _ _ _ _ _ Ds)). fold u v.
        rewrite (round_form2_sel qi m1 L0 _ T2) by (auto; lia). apply form_round2_sel; auto; [lia|]. intros q Hq Nq. unfold u, v, near, far.
        rewrite (shear_out s a q Ha' Nq), (proj2 (eqb_neq a q)) by (intros ->; contradiction). destruct (dfr d0); auto.
      + eapply (round_det2 st ancs data Na Hda Hst Hcom reset hset I Hh HI bt Hbt); auto.
        * intros b Hb. cbn [r_mat]. unfold u, v. now apply near_far3.
        * intros Eh b Hb Ev. assert (Eb : eqb a b = true).
          { unfold v, far, shear in Ev. rewrite (Ef Eh a) in Ev. cbn [andb] in Ev. rewrite orb_false_r in Ev. destruct (dfr d0); exact Ev. }
          destruct (eqb_spec a b) as [<-|]; [|discriminate]. auto.
    - intros p Hp. destruct (Pl p Hp) as (p' & Hp' & Bp). apply (fo_cons _ _ _ _ _ _ _ p'); auto.
    - intros p Hp. exists p. split; [exact Hp|]. intros sel. apply bk_nil.
  Qed.
  (* the final measurement *)
  Context (hset' : list string) (Dg : list (gate string)).
  Hypothesis HM : forall sel, bk Dg sel identity_op
    (Pauli (fun q => hs hset' q && msel data sel q) (fun q => negb (hs hset' q) && msel data sel q)).
  Hypothesis HMm : mlab Dg = data.
  Hypothesis HMs : still Dg.
  Lemma meas_good pre h Gp c w itm l1 l2 rot bts sup sf dets c' w' (M Mg : string -> string -> bool) :
    tracks qi (fst w) (I ++ gates_of ancs reset h ++ Gp) (pre ++ c) -> uniform (stp (fst w)) -> Forall (rnd_ok st ancs) h -> acts_as st ancs Gp Mg ->
    still (gates_of ancs reset h) -> still Gp -> good pre c ->
    (forall p, okp p -> fixed_op st ancs data hset h p) -> (forall p, okp p -> exists p', okp p' /\ forall sel, bk Gp sel p p') ->
    wf_det (snd w) -> same d0 (snd w) -> (forall a, dget a (active (snd w)) = Some true <-> In a ancs) -> (forall a, In a ancs -> dget a (num_rounds (snd w)) = Some (Z.of_nat (length h))) ->
    (exists N, change_of_basis (labels (snd w)) (curr_gen (snd w)) (prev_gen (snd w)) N /\ forall a k, In a (labels (snd w)) -> In k (labels (snd w)) -> nz (N a k) = M a k) ->
    (forall a q, In a ancs -> In q (labels d0) -> ~ In q ancs -> M a q = false) ->
    (forall a, In a bts -> bk (I ++ gates_of ancs reset h ++ Gp ++ Dg) (selT (mlab (I ++ gates_of ancs reset h ++ Gp ++ Dg)) (Tdata2 ancs reset (sf a) (M a))) identity_op identity_op) ->
    h <> [] ->
    teq Dg (lg_blocks (itm 0%nat l1 rot) ++ lg_blocks (itm 1%nat l2 rot)) ->
    lockstep [itm 0%nat l1 rot; itm 1%nat l2 rot] -> (forall q, In q (ops (itm 0%nat l1 rot)) -> In q (ops (itm 1%nat l2 rot)) -> False) ->
    ok_blocks (itm 0%nat l1 rot) -> ok_blocks (itm 1%nat l2 rot) ->
    all_stabs [(l1, rot); (l2, rot)] = Ok (bts, sup) ->
    (forall a, In a bts -> In a ancs /\ NoDup (sf a) /\ incl (sf a) data) ->
    (forall a s, In a bts -> dget a sup = Some s -> NoDup s /\ forall q, In q s <-> In q (sf a)) ->
    (forall m os, all_observables [(l1, rot); (l2, rot)] m = Ok os -> forall o, In o os -> exists lo, nm o = OBSERVABLE_INCLUDE /\
       mapM (fun q => meas_target m q (-1)) lo = Ok (tg o) /\ NoDup lo /\ incl lo data /\ okp (Pauli (fun q => hs hset' q && mem q lo) (fun q => negb (hs hset' q) && mem q lo))) ->
    merge_log_meas fuse itm [l1; l2] [rot; rot] reset (Some dets) w = (w', Ok c') -> good pre (c ++ c').
  Proof.
    intros T Un F Ac Sh Sgp Gd Fx Pl Dw Dsm Dac Dnu Lkd Mo Hdet Hn Tg Lk Dj O1 O2 Eb Hbts Hsup Hobs H. unfold merge_log_meas in H. cbn [length Nat.eqb negb] in H.
    apply sbind_ok in H as (w1 & ok & H1 & H). unfold slift in H1. injection H1 as <- _. destruct (negb ok); [discriminate|].
    apply sbind_ok in H as (w2 & cb & H1 & H). apply onm_ok in H1 as (m1 & H1 & ->).
    apply sbind_ok in H as (w4 & [st' su] & H3 & H). unfold slift in H3. injection H3 as <- H3. cbn [combine] in H3. rewrite Eb in H3. injection H3 as <- <-.
    apply sbind_ok in H as (w3 & cd & H2 & H). apply ond_ok in H2 as (d3 & H2 & ->).
    apply sbind_ok in H as (w5 & os & H4 & H). apply onm_ok in H4 as (m5 & H4 & ->). apply sread_ok in H4 as [-> H4].
    apply sret_ok in H as [-> <-]. cbn [fst snd] in *.
    change (map (fun klr => itm (fst klr) (fst (snd klr)) (snd (snd klr))) (enumerate (combine [l1; l2] [rot; rot]))) with [itm 0%nat l1 rot; itm 1%nat l2 rot] in H1.
    destruct (tracks_merged fuse qi _ _ _ _ _ _ _ T Un Lk Dj O1 O2 H1) as [T1 B1].
    assert (T2 : tracks qi m1 (I ++ gates_of ancs reset h ++ Gp ++ Dg) ((pre ++ c) ++ cb)).
    { eapply tracks_eq; [exact T1|]. replace (I ++ gates_of ancs reset h ++ Gp ++ Dg) with ((I ++ gates_of ancs reset h ++ Gp) ++ Dg) by now rewrite <- !app_assoc.
      apply teq_app; [apply teq_refl|exact Tg]. }
    clear T1.
    destruct (data_content1 _ _ _ _ _ _ _ _ M Dw Lkd ltac:(rewrite (proj1 (proj2 Dsm)); exact Fr) H2) as (ls & P & F2).
    pose proof (names_of_dets _ (snd w) (fun a => a) (fun _ => _) _ _ F2) as Nm. pose proof (dets_ann _ Nm) as A2. rewrite (cat_dets fuse cb cd Nm).
    specialize (Hobs m1 os H4).
    assert (No : Forall (fun i => nm i = OBSERVABLE_INCLUDE) os) by (apply Forall_forall; intros o Ho; destruct (Hobs o Ho) as (lo & E & _); exact E).
    assert (Ao : annotations os) by (eapply Forall_impl; [|exact No]; intros i ->; reflexivity).
    rewrite (appends_obs os _ No). rewrite <- app_assoc. apply good_app; [exact Gd|]. apply good_app; [now apply good_none|].
    apply good_checks; [now apply Forall_app|].
    destruct T2 as (L0 & T2 & E2). set (L := I ++ gates_of ancs reset h ++ Gp ++ Dg) in *.
    assert (Sl : still L) by (repeat (apply still_app; [assumption|]); exact HMs).
    assert (Cn : forall q, In q ancs -> count q (mlab L0) = length h).
    { intros q Hq. rewrite <- (teq_count _ _ q E2). unfold L. rewrite app_assoc, (mlab_app (I ++ _)), count_app, (cnt3 h q F Hq), mlab_app, HMm.
      rewrite (mlab_nil Gp) by apply Ac. cbn [app]. rewrite (count_none data) by (intros Hi; now apply (Hda q)). lia. }
    apply Forall_app. split.
    - assert (Hin : forall a, In a ls -> In a bts).
      { intros a Ha. eapply Permutation_in in Ha; [|exact P]. apply filter_In in Ha as [_ Ha]. now apply mem_In. }
      clear Nm A2 P H2. induction F2 as [|a i ls cd (_ & F3 & F4 & F5) _ IH]; constructor; [|apply IH; intros; apply Hin; now right]. intros _. clear IH.
      rewrite <- !app_assoc in *. destruct F4 as [[Hd Ha]|E]; [|eapply empty_det3; [exact T2|exact E2|exact Sl|exact E]].
      cbn [wanted] in Hd. pose proof (proj1 (Dac a) Ha) as Ha'. destruct (F5 Hd Ha) as (qs & Hs & F6).
      pose proof (Hin a (or_introl eq_refl)) as Hab. destruct (Hsup a qs Hab Hs) as [N0 H0]. destruct (Hbts a Hab) as (_ & Ns & Is).
      apply (tracks_det qi m1 L L0 _ i (Tdata2 ancs reset (sf a) (M a)) T2 E2 F3).
      + intros j Hj. rewrite lists_parity. rewrite (F6 (Z.of_nat (length h)) _ (refers m1 j) (Dnu a Ha') (refers_reads m1 j)).
        rewrite (proj1 Dsm). rewrite (data_form2_sel qi m1 L0 _ T2) by (auto; lia). apply form_data2_sel; auto; lia.
      + apply Hdet. exact Hab.
    - apply Forall_forall. intros o Ho _. destruct (Hobs o Ho) as (lo & Eo & Em & Nlo & Ilo & Plo). rewrite <- !app_assoc in *.
      apply mapM_Forall2 in Em. apply (tracks_det qi m1 L L0 _ o (Tobs lo) T2 E2).
      + clear -Em. induction Em; constructor; eauto.
      + intros j Hj. etransitivity; [|apply (form_obs_sel lo (mlab L0) j ltac:(lia) Nlo)]. rewrite lists_parity, <- (xorl_jth _ _ _ _ T2) by lia. unfold parity. clear -Em.
        induction Em as [|q t qs ts E _ IH]; [reflexivity|]. unfold xorl in *. cbn [map fold_right]. rewrite IH. f_equal. unfold refers. now rewrite E.
      + destruct (Pl _ Plo) as (p' & Hp' & Bp). eapply (obs_det2 st ancs data Na Nd Hda Hst Hcom reset hset I HI hset' Gp Dg Mg Ac); auto.
  Qed.
  Lemma inv3_meas pre h s Gp c w itm l1 l2 rot bts sup sf dets c' w' : inv3 pre h s Gp c w -> h <> [] ->
    teq Dg (lg_blocks (itm 0%nat l1 rot) ++ lg_blocks (itm 1%nat l2 rot)) ->
    lockstep [itm 0%nat l1 rot; itm 1%nat l2 rot] -> (forall q, In q (ops (itm 0%nat l1 rot)) -> In q (ops (itm 1%nat l2 rot)) -> False) ->
    ok_blocks (itm 0%nat l1 rot) -> ok_blocks (itm 1%nat l2 rot) ->
    all_stabs [(l1, rot); (l2, rot)] = Ok (bts, sup) ->
    (forall a, In a bts -> In a ancs /\ NoDup (sf a) /\ incl (sf a) data /\
       forall q, on (fst (st a)) q = hs hset' q && mem q (sf a) /\ on (snd (st a)) q = negb (hs hset' q) && mem q (sf a)) ->
    (forall a s, In a bts -> dget a sup = Some s -> NoDup s /\ forall q, In q s <-> In q (sf a)) ->
    (forall m os, all_observables [(l1, rot); (l2, rot)] m = Ok os -> forall o, In o os -> exists lo, nm o = OBSERVABLE_INCLUDE /\
       mapM (fun q => meas_target m q (-1)) lo = Ok (tg o) /\ NoDup lo /\ incl lo data /\ okp (Pauli (fun q => hs hset' q && mem q lo) (fun q => negb (hs hset' q) && mem q lo))) ->
    merge_log_meas fuse itm [l1; l2] [rot; rot] reset (Some dets) w = (w', Ok c') -> good pre (c ++ c').
  Proof.
    intros X Hn Tg Lk Dj O1 O2 Eb Hbts Hsup Hobs H. pose proof X as [T Un Ds Ok_ F Ac Sh Sgp Gd Ef Fx Pl].
    pose proof (dst3_linked d0 ancs mate Nl Hm _ _ _ Ok_ Ds) as Lkd.
    apply (meas_good pre h Gp c w itm l1 l2 rot bts sup sf dets c' w' (shear mate s) (shear mate s) T Un F Ac Sh Sgp Gd Fx Pl (d3_wf _ _ _ _ _ _ Ds) (d3_same _ _ _ _ _ _ Ds)
      (d3_act _ _ _ _ _ _ Ds) (d3_num _ _ _ _ _ _ Ds) (proj1 Lkd)); try assumption.
    - intros a q Ha _ Nq. now apply shear_out.
    - intros a Ha. destruct (Hbts a Ha) as (Ha' & Ns & Is & Bs).
      eapply (data_det2 st ancs data Na Nd Hda Hst Hcom reset hset I Hh HI bt Hbt hset' Gp Dg (shear mate s) Ac) with (a := a); auto.
    - intros a Ha. destruct (Hbts a Ha) as (K1 & K2 & K3 & _). auto.
  Qed.

  (** Gates after the only round: all outcomes that the detectors of the final measurement list are fixed by the initialization. *)
  Hypothesis Hmt : forall a, bt a -> bt (mate a).
  Record inv4 (pre : circuit) (r : rnd) (A : string -> string -> bool) (Gp : list (gate string)) (c : circuit) (w : world) : Prop := {
    i4_tr : tracks qi (fst w) (I ++ gates_of ancs reset [r] ++ Gp) (pre ++ c);
    i4_uni : uniform (stp (fst w));
    i4_wf : wf_det (snd w);
    i4_same : same d0 (snd w);
    i4_gens : exists B C, fam (labels d0) mate B /\ fam (labels d0) mate C /\ isgen (labels (snd w)) (prev_gen (snd w)) B /\ isgen (labels (snd w)) (curr_gen (snd w)) C;
    i4_act : forall a, dget a (active (snd w)) = Some true <-> In a ancs;
    i4_num : forall a, In a ancs -> dget a (num_rounds (snd w)) = Some (Z.of_nat (length [r]));
    i4_rnd : rnd_ok st ancs r;
    i4_mat : forall a b, In a ancs -> In b ancs -> r_mat r a b = eqb a b;
    i4_fam : fam (labels d0) mate A;
    i4_acts : acts_as st ancs Gp A;
    i4_sh : still (gates_of ancs reset [r]);
    i4_sg : still Gp;
    i4_good : good pre c;
    i4_fix : forall p, okp p -> fixed_op st ancs data hset [r] p;
    i4_pl : forall p, okp p -> exists p', okp p' /\ forall sel, bk Gp sel p p' }.
  Lemma inv4_start pre r s Gp c w : inv3 pre [r] s Gp c w -> (forall a b, In a ancs -> In b ancs -> r_mat r a b = eqb a b) -> inv4 pre r (shear mate s) Gp c w.
  Proof using Nl Hm.
    clear -Nl Hm. intros [T Un Ds Ok_ F Ac Sh Sg Gd _ Fx Pl] Hr. pose proof (Forall_inv F) as Fr1. destruct Ds as [D1 D2 (A & FA & G1 & G2) D4 D5 D6 D7 D8].
    constructor; auto.
    - exists A, (mmul (labels d0) (shear mate s) A). split; [exact FA|]. split; [now apply fam_shear|]. auto.
    - constructor.
      + intros a x _ _ E. unfold shear in E. apply orb_prop in E as [E|E]; [left|right; apply andb_prop in E as [_ E]]; symmetry; [destruct (eqb_spec a x)|destruct (eqb_spec (mate a) x)]; congruence.
      + intros a _. left. unfold shear. now rewrite eqb_refl.
      + intros a Ha Ne. destruct (Hm a Ha) as [Hi Hb]. unfold shear. rewrite !eqb_refl, Hb, (proj2 (eqb_neq a (mate a)) (not_eq_sym Ne)), (proj2 (eqb_neq (mate a) a) Ne), eqb_refl.
        destruct (s a) eqn:E1; [|right; cbn; discriminate]. destruct (Ok_ a Ha E1) as [_ ->]. left. cbn. discriminate.
  Qed.
  Lemma inv4_gate pre r A Gp c w ord ordp l1 l2 gt nc nt t c' w' : inv4 pre r A Gp c w -> oks (labels d0) mate t ->
    cnot_label l1 l2 = Ok gt -> new_stab_dict l1 gt = Ok nc -> new_stab_dict l2 gt = Ok nt ->
    (forall a x, In a (labels d0) -> In x (labels d0) -> dmat (dupdate nc nt) a x = shear mate t a x) ->
    ok_blocks (trans_cnot_blocks ord ordp l1 l2) -> acts_as st ancs (lg_blocks (trans_cnot_blocks ord ordp l1 l2)) (shear mate t) ->
    (forall p, okp p -> exists p', okp p' /\ forall sel, bk (lg_blocks (trans_cnot_blocks ord ordp l1 l2)) sel p p') ->
    log_trans_cnot ord ordp l1 l2 w = (w', Ok c') -> exists A' Gp', inv4 pre r A' Gp' (c ++ c') w'.
  Proof using Na Nl Kn Hm Hma.
    clear -Na Nl Kn Hm Hma. intros X Ot Eg Enc Ent HD O A1 B H. apply log_cnot_ok in H as (g & nc' & nt' & Eg' & Enc' & Ent' & R & U).
    rewrite Eg in Eg'. injection Eg' as <-. rewrite Enc in Enc'. injection Enc' as <-. rewrite Ent in Ent'. injection Ent' as <-.
    exists (mmul (labels d0) (shear mate t) A), (Gp ++ lg_blocks (trans_cnot_blocks ord ordp l1 l2)).
    destruct X as [T Un W S0 (B0 & C0 & FB & FC & G1 & G2) Da Dn Hr Hrm FA Ac Sh Sg Gd Fx Pl].
    destruct (tracks_blocks _ _ _ _ _ _ _ T R O) as [T1 N1]. pose proof (blocks_gates _ _ _ _ R O) as [(_ & Ss & _) _].
    pose proof (keeps_update_from_dict _ _ _ _ U W) as [W' S'].
    pose proof (update_from_dict_ok _ _ _ U) as Kn2. destruct (C11_ok_lemma _ _ _ W Kn2 U) as (Ep & Ea & En & Et & _).
    pose proof (proj1 S0) as EL. pose proof (proj1 S') as EL'.
    constructor; auto.
    - now rewrite <- !app_assoc in T1.
    - now rewrite Ss.
    - eapply ExpP3.same_trans; eauto.
    - exists B0, (mmul (labels d0) (shear mate t) C0). split; [exact FB|]. split; [now apply fam_shear|]. rewrite Ep, EL'. split; [exact G1|].
      eapply isgen_ext; [|eapply isgen_update; [exact W|exact U|exact G2]]. intros a x Ha Hx. rewrite EL in *. unfold mmul. apply DetP.xorl_ext. intros b Hb. now rewrite HD.
    - now rewrite Ea.
    - now rewrite En.
    - now apply fam_shear.
    - eapply acts_as_meq; [|apply acts_as_app; [exact Ac|exact A1]]. intros a b Ha Hb. rewrite (mmul_shear (labels d0) mate Nl Hm) by auto.
      change (rmul ancs (shear mate t a) A b = xorb (A a b) (t a && A (mate a) b)). 
      rewrite <- (mmul_shear ancs mate Na Hm_ancs t A a b (oks_ancs t Ot) Ha). reflexivity.
    - apply still_app; [exact Sg|apply still_blocks].
    - apply good_app; [exact Gd|now apply good_none].
    - intros p Hp. destruct (B p Hp) as (p1 & Hp1 & B1). destruct (Pl p1 Hp1) as (p2 & Hp2 & B2). exists p2. split; [exact Hp2|]. intros sel. eapply bk_app; [apply B1|apply B2].
  Qed.
  (* the inverse of generators that mix only partners mixes only partners *)
  Definition fdet (C : string -> string -> bool) (a : string) : Qc := (q_of_bool (C a a) * q_of_bool (C (mate a) (mate a)) - q_of_bool (C a (mate a)) * q_of_bool (C (mate a) a))%Qc.
  Definition finv (C : string -> string -> bool) (a k : string) : Qc :=
    (if eqb (mate a) a then q_of_bool (eqb a k) else
      fdet C a * (q_of_bool (C (mate a) (mate a)) * q_of_bool (eqb a k) - q_of_bool (C a (mate a)) * q_of_bool (eqb (mate a) k)))%Qc.
  Lemma finv_ok C : fam (labels d0) mate C -> forall a x, In a (labels d0) -> In x (labels d0) ->
    qsum (map (fun k => finv C a k * q_of_bool (C k x))%Qc (labels d0)) = q_of_bool (eqb a x).
  Proof using Nl Hm.
    clear -Nl Hm. intros F a x Ha Hx. destruct (Hm a Ha) as [Hi Hb]. unfold finv. destruct (eqb_spec (mate a) a) as [E|Ne].
    - rewrite (qsum_eye (labels d0) a (fun k => q_of_bool (C k x))) by assumption. f_equal. destruct (C a x) eqn:Ec.
      + apply (fm_in _ _ _ F a x Ha Hx) in Ec as [->| ->]; rewrite ?E; symmetry; apply eqb_refl.
      + destruct (eqb_spec a x) as [<-|]; [|reflexivity]. destruct (fm_row _ _ _ F a Ha) as [K|K]; [|rewrite E in K]; congruence.
    - set (m := mate a) in *. set (d := fdet C a).
      rewrite (qsum_ext _ (fun k => q_of_bool (eqb a k) * (d * q_of_bool (C m m) * q_of_bool (C k x)) - q_of_bool (eqb m k) * (d * q_of_bool (C a m) * q_of_bool (C k x)))%Qc) by (intros k _; ring).
      rewrite qsum_sub, (qsum_eye (labels d0) a (fun k => d * q_of_bool (C m m) * q_of_bool (C k x))%Qc), (qsum_eye (labels d0) m (fun k => d * q_of_bool (C a m) * q_of_bool (C k x))%Qc) by assumption.
      pose proof (fm_two _ _ _ F a Ha Ne) as T. fold m in T. pose proof (fm_row _ _ _ F a Ha) as R1. fold m in R1. pose proof (fm_row _ _ _ F m Hi) as R2. rewrite Hb in R2.
      pose proof (fm_in _ _ _ F a x Ha Hx) as I1. pose proof (fm_in _ _ _ F m x Hi Hx) as I2. rewrite Hb in I2. fold m in I1.
      unfold d, fdet. fold m. destruct (eqb_spec a x) as [<-|Na'].
      + destruct (C a a), (C m a), (C a m), (C m m); cbn in *; try ring; exfalso; intuition congruence.
      + destruct (eqb_spec x m) as [->|Nm].
        * destruct (C a a), (C m a), (C a m), (C m m); cbn in *; try ring; exfalso; intuition congruence.
        * assert (Ea : C a x = false) by (destruct (C a x); [destruct (I1 eq_refl); congruence|reflexivity]).
          assert (Em : C m x = false) by (destruct (C m x); [destruct (I2 eq_refl); congruence|reflexivity]). rewrite Ea, Em. cbn. ring.
  Qed.
  Definition prodq (B : string -> string -> bool) (N : string -> string -> Qc) (a k : string) : Qc := (q_of_bool (B a a) * N a k + (if eqb (mate a) a then 0 else q_of_bool (B a (mate a)) * N (mate a) k))%Qc.
  Lemma fam_change B C prev curr : fam (labels d0) mate B -> fam (labels d0) mate C -> isgen (labels d0) prev B -> isgen (labels d0) curr C ->
    exists N, change_of_basis (labels d0) curr prev N /\ forall a k, In a (labels d0) -> nz (N a k) = true -> k = a \/ k = mate a.
  Proof using Nl Hm.
    clear -Nl Hm. intros FB FC G1 G2. exists (prodq B (finv C)). split.
    - eapply isgen_basis; [exact G2|exact G1|]. intros a x Ha Hx. destruct (Hm a Ha) as [Hi Hb]. unfold prodq.
      destruct (eqb_spec (mate a) a) as [E|Ne].
      + rewrite (qsum_ext _ (fun k => finv C a k * q_of_bool (C k x))%Qc).
        * rewrite (finv_ok C FC a x Ha Hx). f_equal. destruct (B a x) eqn:Ec.
          -- apply (fm_in _ _ _ FB a x Ha Hx) in Ec as [->| ->]; rewrite ?E; apply eqb_refl.
          -- destruct (eqb_spec a x) as [<-|]; [|reflexivity]. destruct (fm_row _ _ _ FB a Ha) as [K|K]; [|rewrite E in K]; congruence.
        * intros k _. assert (Eb : B a a = true) by (destruct (fm_row _ _ _ FB a Ha) as [K|K]; [|rewrite E in K]; exact K). rewrite Eb. cbn [q_of_bool]. ring.
      + rewrite (qsum_ext _ (fun k => q_of_bool (B a a) * (finv C a k * q_of_bool (C k x)) - (- q_of_bool (B a (mate a))) * (finv C (mate a) k * q_of_bool (C k x)))%Qc) by (intros k _; ring).
        rewrite qsum_sub, !DetLinP.qsum_mul, !(finv_ok C FC) by assumption.
        pose proof (fm_in _ _ _ FB a x Ha Hx) as I1. destruct (eqb_spec a x) as [<-|Na'].
        * rewrite (proj2 (eqb_neq (mate a) a) Ne). cbn [q_of_bool]. ring.
        * destruct (eqb_spec (mate a) x) as [<-|Nm]; [cbn [q_of_bool]; ring|]. destruct (B a x); [destruct (I1 eq_refl); congruence|cbn [q_of_bool]; ring].
    - intros a k Ha Hk. destruct (Hm a Ha) as [Hi Hb]. destruct (eqb_spec k a) as [|N1]; [now left|]. destruct (eqb_spec k (mate a)) as [|N2]; [now right|]. exfalso.
      revert Hk. unfold prodq, finv. rewrite Hb. rewrite (proj2 (eqb_neq a k) (not_eq_sym N1)), (proj2 (eqb_neq (mate a) k) (not_eq_sym N2)).
      destruct (eqb (mate a) a); [|destruct (eqb a (mate a))]; cbn [q_of_bool];
      match goal with |- nz ?x = true -> _ => assert (E : x = Q2Qc 0) by ring; rewrite E end; discriminate.
  Qed.
  Lemma data_det4 r a sup v Gp A : rnd_ok st ancs r -> (forall a b, In a ancs -> In b ancs -> r_mat r a b = eqb a b) -> acts_as st ancs Gp A -> In a ancs -> incl sup data ->
    (forall q, on (fst (st a)) q = hs hset' q && mem q sup /\ on (snd (st a)) q = negb (hs hset' q) && mem q sup) ->
    (forall b, In b ancs -> A a b = true -> bt b) -> (forall b, In b ancs -> v b = true -> bt b) ->
    bk (I ++ gates_of ancs reset [r] ++ Gp ++ Dg) (selT (mlab (I ++ gates_of ancs reset [r] ++ Gp ++ Dg)) (Tdata2 ancs reset sup v)) identity_op identity_op.
  Proof.
    intros Or Hr HG Ha Is B HA HV. replace (I ++ gates_of ancs reset [r] ++ Gp ++ Dg) with (((I ++ rnd_gates ancs reset r) ++ Gp) ++ Dg) by (cbn [gates_of app]; now rewrite <- !app_assoc).
    apply (data_step' data Nd hset' Dg HM HMm). cbv zeta.
    assert (E : forall q, mem q data && Tdata2 ancs reset sup v q 1%nat = mem q sup).
    { intros q. unfold Tdata2. rewrite Nat.eqb_refl, andb_true_r. destruct (mem q data) eqn:M.
      - apply mem_In in M. rewrite (mem_not q ancs) by auto. cbn [andb]. apply xorb_false_r.
      - cbn [andb]. symmetry. apply mem_not. intros Hi. apply Is in Hi. apply mem_In in Hi. congruence. }
    eapply (bk_eq _ _ (PP st ancs (eqb a) (fun _ => false))); [| |apply peq_refl].
    - rewrite mlab_app, (mlab_nil Gp) by apply HG. rewrite app_nil_r. eapply bk_app; [apply HG|].
      eapply bk_ext. 2:{ intros k Hk. cbv beta. now rewrite (proj1 HG), Nat.add_0_r. }
      apply (back_PP st ancs data Na Hda Hst Hcom reset) with (e := v); [exact Or| |].
      + intros b Hb. rewrite (count_nodup b data Nd), (mem_not b data) by (intros Hi; now apply (Hda b)). rewrite Nat.add_0_r. unfold Tdata2.
        rewrite (proj2 (mem_In b ancs) Hb), (mem_not b sup) by (intros Hi; apply (Hda b); auto). cbn [andb]. now rewrite !xorb_false_l.
      + apply HI. apply (Iok_PP st ancs data Hda Hst hset Hh bt Hbt). intros b Hb Hx.
        assert (Ex : rmul ancs (fun c => xorb (rmul ancs (eqb a) A c) (v c)) (r_mat r) b = xorb (A a b) (v b)).
        { unfold rmul at 1. rewrite (xor_unique _ _ b Na Hb).
          - now rewrite (Hr b b Hb Hb), eqb_refl, andb_true_r, (rmul_one ancs Na).
          - intros c Hc Ne. rewrite (Hr c b Hc Hb), (proj2 (eqb_neq c b) Ne). apply andb_false_r. }
        rewrite Ex in Hx. destruct (A a b) eqn:EA; [auto|]. destruct (v b) eqn:EV; [auto|discriminate].
    - intros q. cbn [PP px pz]. rewrite !E, andb_false_r, xorb_false_r. rewrite <- (proj1 (B q)), <- (proj2 (B q)).
      unfold sumx, sumz. rewrite !(xor_unique _ _ a Na Ha), eqb_refl; [auto| |]; intros c _ Ne; now rewrite (proj2 (eqb_neq a c)) by congruence.
  Qed.
  Lemma inv4_meas pre r A Gp c w itm l1 l2 rot bts sup sf dets c' w' : inv4 pre r A Gp c w ->
    teq Dg (lg_blocks (itm 0%nat l1 rot) ++ lg_blocks (itm 1%nat l2 rot)) ->
    lockstep [itm 0%nat l1 rot; itm 1%nat l2 rot] -> (forall q, In q (ops (itm 0%nat l1 rot)) -> In q (ops (itm 1%nat l2 rot)) -> False) ->
    ok_blocks (itm 0%nat l1 rot) -> ok_blocks (itm 1%nat l2 rot) ->
    all_stabs [(l1, rot); (l2, rot)] = Ok (bts, sup) -> (forall a, In a bts -> bt a) ->
    (forall a, In a bts -> In a ancs /\ NoDup (sf a) /\ incl (sf a) data /\
       forall q, on (fst (st a)) q = hs hset' q && mem q (sf a) /\ on (snd (st a)) q = negb (hs hset' q) && mem q (sf a)) ->
    (forall a s, In a bts -> dget a sup = Some s -> NoDup s /\ forall q, In q s <-> In q (sf a)) ->
    (forall m os, all_observables [(l1, rot); (l2, rot)] m = Ok os -> forall o, In o os -> exists lo, nm o = OBSERVABLE_INCLUDE /\
       mapM (fun q => meas_target m q (-1)) lo = Ok (tg o) /\ NoDup lo /\ incl lo data /\ okp (Pauli (fun q => hs hset' q && mem q lo) (fun q => negb (hs hset' q) && mem q lo))) ->
    merge_log_meas fuse itm [l1; l2] [rot; rot] reset (Some dets) w = (w', Ok c') -> good pre (c ++ c').
  Proof.
    intros X Tg Lk Dj O1 O2 Eb Hbb Hbts Hsup Hobs H. pose proof X as [T Un W S0 (B0 & C0 & FB & FC & G1 & G2) Da Dn Hr Hrm FA Ac Sh Sg Gd Fx Pl].
    rewrite (proj1 S0) in G1, G2. destruct (fam_change B0 C0 _ _ FB FC G1 G2) as (N & C1 & C2).
    apply (meas_good pre [r] Gp c w itm l1 l2 rot bts sup sf dets c' w' (fun a k => nz (N a k)) A T Un (Forall_cons _ Hr (Forall_nil _)) Ac Sh Sg Gd Fx Pl W S0 Da Dn); try assumption.
    - exists N. rewrite (proj1 S0). split; [exact C1|auto].
    - intros a q Ha Hq Nq. destruct (nz (N a q)) eqn:E; [|reflexivity]. exfalso. apply Nq. apply (C2 a q (Kn a Ha)) in E as [->| ->]; auto.
    - intros a Ha. destruct (Hbts a Ha) as (Ha' & Ns & Is & Bs). pose proof (Hbb a Ha) as Hba. apply (data_det4 r a (sf a) _ Gp A Hr Hrm Ac Ha' Is Bs).
      + intros b Hb E. apply (fm_in _ _ _ FA a b) in E as [->| ->]; auto.
      + intros b Hb E. apply (C2 a b (Kn a Ha')) in E as [->| ->]; auto.
    - discriminate.
    - intros a Ha. destruct (Hbts a Ha) as (K1 & K2 & K3 & _). auto.
  Qed.
End Two.
