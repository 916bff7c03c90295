(** Experiments with repeated transversal gates: all the checks are deterministic. *)
From Coq Require Import QArith Qcanon.
From Verif Require Import Base Lib StimM SetupM NoiseM SpecNoise NoiseP LayoutM SpecLayout LayoutP LayoutP2 MatM MatP DetM SpecDet DetP DetCountP DetLinP DetDetP
  SpecGen GeomP BlockM LogM ExpM SpecTrack SpecExp TrackP LiftP ExpDetP ExpP ExpP2 ExpP3 ExpP4 ExpP5 ExpP8 ActP RoundTopP RepP RepP2 RepP3 LogP4.
Open Scope Z_scope.

Lemma form_round2_sel reset n ls ancs u v ML j : (1 <= j)%nat -> incl ancs ls ->
  (forall q, In q ancs -> count q ML = n) -> (forall q, In q ls -> ~ In q ancs -> u q = false /\ v q = false) ->
  selT ML (form_round2 reset n ls u v) j = selT ML (Tround2 ancs reset u v) j.
Proof.
  intros Hj Hi C O. apply selT_ext; [exact Hj|]. intros q i _ [H1 H2]. unfold form_round2, Tround2. destruct (mem q ancs) eqn:M.
  - apply mem_In in M. rewrite (proj2 (mem_In q ls)) by auto. rewrite C in H2 by exact M. cbn [andb].
    destruct i as [|[|[|[|i]]]]; try reflexivity.
    + now rewrite (proj2 (Nat.leb_le 2 n)).
    + rewrite (proj2 (Nat.leb_le 3 n)) by lia. now rewrite andb_true_r.
  - cbn [andb]. destruct (mem q ls) eqn:M'; [|reflexivity]. apply mem_In in M'. destruct (O q M') as [-> ->].
    { intros Hq. apply mem_In in Hq. congruence. }
    cbn [andb]. destruct i as [|[|[|[|i]]]]; rewrite ?andb_false_r; reflexivity.
Qed.
Lemma form_data2_sel reset n ls ancs sup s v ML j : (1 <= j)%nat -> incl ancs ls ->
  (forall q, In q ancs -> count q ML = n) -> (forall q, In q ls -> ~ In q ancs -> v q = false) -> NoDup s -> (forall q, In q s <-> In q sup) ->
  selT ML (form_data2 reset n ls s v) j = selT ML (Tdata2 ancs reset sup v) j.
Proof.
  intros Hj Hi C O N E. apply selT_ext; [exact Hj|]. intros q i _ [H1 H2]. unfold form_data2, Tdata2. f_equal.
  - rewrite odd_mem by exact N. f_equal. apply Bool.eq_true_iff_eq. now rewrite !mem_In.
  - destruct (mem q ancs) eqn:M.
    + apply mem_In in M. rewrite (proj2 (mem_In q ls)) by auto. rewrite C in H2 by exact M. cbn [andb].
      destruct i as [|[|[|i]]]; try reflexivity.
      * now rewrite (proj2 (Nat.leb_le 1 n)).
      * rewrite (proj2 (Nat.leb_le 2 n)) by lia. now rewrite andb_true_r.
    + cbn [andb]. destruct (mem q ls) eqn:M'; [|reflexivity]. apply mem_In in M'. rewrite (O q M').
      2:{ intros Hq. apply mem_In in Hq. congruence. }
      cbn [andb]. destruct i as [|[|[|i]]]; rewrite ?andb_false_r; reflexivity.
Qed.

Section Rep.
  Context (ordt : nat -> nat -> list string -> list string).
  Context (d0 : detectors) (qi : dict string Z) (st : stabilizers) (ancs data hset : list string) (D : string -> string -> bool) (reset : bool).
  Hypothesis Na : NoDup ancs.
  Hypothesis Nd : NoDup data.
  Hypothesis Hda : forall q, In q data -> ~ In q ancs.
  Hypothesis Hst : forall a q, In a ancs -> In q (fst (st a)) \/ In q (snd (st a)) -> In q data.
  Hypothesis Hcom : forall a b, In a ancs -> In b ancs -> anti st (on (fst (st a))) (on (snd (st a))) b = false.
  Hypothesis Hh : incl hset data.
  Hypothesis Fr : dfr d0 <> GateIndep.
  (* the gates on the labels of the detectors *)
  Hypothesis V : invol (labels d0) D.
  Hypothesis Dcl : forall a x, In a ancs -> In x (labels d0) -> D a x = true -> In x ancs.
  (* initialization *)
  Context (I : list (gate string)) (bt : string -> Prop).
  Hypothesis HI : forall sel p, Iok ancs data hset p -> bk I sel p identity_op.
  Hypothesis HIm : mlab I = [].
  Hypothesis HIs : still I.
  Hypothesis Hbt : forall a, bt a -> In a ancs /\ forall q, (hs hset q = false -> on (fst (st a)) q = false) /\ (hs hset q = true -> on (snd (st a)) q = false).
  (* the observable before an even (odd) number of gates *)
  Context (PL : bool -> pauli string).
  Hypothesis PL0 : forall b q, In q ancs -> px (PL b) q = false /\ pz (PL b) q = false.
  Hypothesis PLc : forall b a, In a ancs -> anti st (px (PL b)) (pz (PL b)) a = false.
  Hypothesis PLi : Iok ancs data hset (PL false).
  Context (l : layout) (prefix lq : string) (nd : dict string (list string)).
  Hypothesis El : first_log l = Ok lq.
  Hypothesis End : new_stab_dict l (prefix ++ lq) = Ok nd.
  Hypothesis HD : forall a x, In a (labels d0) -> In x (labels d0) -> dmat nd a x = D a x.

  Lemma mpow_cl k a x : In a ancs -> In x (labels d0) -> mpow D k a x = true -> In x ancs.
  Proof. unfold mpow. destruct (Nat.odd k); [apply Dcl|]. intros Ha _ E. destruct (eqb_spec a x) as [<-|]; [exact Ha|discriminate]. Qed.
  Lemma mpow_out k a x : In a ancs -> In x (labels d0) -> ~ In x ancs -> mpow D k a x = false.
  Proof. intros Ha Hx Nx. destruct (mpow D k a x) eqn:E; [|reflexivity]. now apply mpow_cl in E. Qed.
  Lemma eqb_out a x : In a ancs -> ~ In x ancs -> eqb a x = false.
  Proof. intros Ha Nx. apply eqb_neq. now intros ->. Qed.
  Lemma DD : NoDup (labels d0) -> incl ancs (labels d0) -> forall a b, In a ancs -> In b ancs -> rmul ancs (D a) D b = eqb a b.
  Proof.
    intros Nl K a b Ha Hb. rewrite <- (iv_two _ _ V a b) by auto. unfold rmul.
    transitivity (xorl (map (fun x => mem x ancs && (D a x && D x b)) (labels d0))).
    - rewrite (xorl_mem (fun x => D a x && D x b) (labels d0) ancs Nl K). now rewrite nodup_fixed_point.
    - apply DetP.xorl_ext. intros x Hx. destruct (mem x ancs) eqn:M; [reflexivity|]. destruct (D a x) eqn:E; [|reflexivity].
      apply Dcl in E; auto. apply mem_In in E. congruence.
  Qed.
  Lemma near_far k a b : NoDup (labels d0) -> incl ancs (labels d0) -> In a ancs -> In b ancs ->
    rmul ancs (near (dfr d0) (mpow D k) a) (mpow D k) b = far (dfr d0) (mpow D k) a b.
  Proof.
    intros Nl K Ha Hb. unfold near, far. destruct (dfr d0) eqn:E; [|now rewrite (rmul_one ancs Na)|congruence].
    unfold mpow. destruct (Nat.odd k); [now apply DD|]. now rewrite (rmul_one ancs Na).
  Qed.

  (** * The run up to some point: rounds [h], [k] gates since the last of them, [K] gates before it *)
  Record inv (pre : circuit) (h : list rnd) (k K : nat) (Gp : list (gate string)) (c : circuit) (w : world) : Prop := {
    iv_tr : tracked qi (fst w) (I ++ gates_of ancs reset h ++ Gp) (pre ++ c);
    iv_dst : dst2 d0 ancs D (length h) k (snd w);
    iv_rnd : Forall (rnd_ok st ancs) h;
    iv_acts : acts_as st ancs Gp (mpow D k);
    iv_sh : still (gates_of ancs reset h);
    iv_sg : still Gp;
    iv_good : good pre c;
    iv_first : h = [] -> k = 0%nat;
    iv_fix : fixed_op st ancs data hset h (PL (Nat.odd K));
    iv_pl : forall sel, bk Gp sel (PL (Nat.odd (K + k))) (PL (Nat.odd K)) }.
  Lemma iv_cnt pre h k K Gp c w q : inv pre h k K Gp c w -> In q ancs -> count q (mlab (I ++ gates_of ancs reset h)) = length h.
  Proof.
    intros X Hq. rewrite mlab_app, HIm. cbn [app]. pose proof (iv_rnd _ _ _ _ _ _ _ X) as F. clear X.
    induction F as [|r h O F IH]; [reflexivity|]. cbn [gates_of]. rewrite mlab_app, count_app, (mlab_rnd st ancs reset r O), IH.
    rewrite count_nodup by exact Na. rewrite (proj2 (mem_In q ancs) Hq). cbn [length]. lia.
  Qed.
  Lemma iv_known pre h k K Gp c w : inv pre h k K Gp c w -> NoDup (labels d0) /\ incl ancs (labels d0).
  Proof. intros X. apply iv_dst in X as [W Sm _ _ _ _ _ Kn]. rewrite <- (proj1 Sm). split; [apply W|exact Kn]. Qed.
  Lemma inv_start pre w : tracked qi (fst w) I pre -> dst2 d0 ancs D 0 0 (snd w) -> inv pre [] 0 0 [] [] w.
  Proof.
    intros T X. constructor; cbn [gates_of length app Nat.odd Nat.add]; rewrite ?app_nil_r; auto.
    - apply acts_as_nil; auto.
    - apply bk_nil.
    - apply bk_nil.
    - apply good_none. constructor.
    - constructor. exact PLi.
    - intros sel. apply bk_nil.
  Qed.
  Lemma mpow_S k : NoDup (labels d0) -> incl ancs (labels d0) -> forall a b, In a ancs -> In b ancs -> rmul ancs (D a) (mpow D k) b = mpow D (S k) a b.
  Proof.
    intros Nl Kn a b Ha Hb. unfold mpow. rewrite Nat.odd_succ, <- Nat.negb_odd.
    destruct (Nat.odd k); cbn [negb]; [now apply DD|]. unfold rmul. rewrite (xor_unique _ _ b Na Hb), eqb_refl, andb_true_r; [reflexivity|].
    intros c _ Ne. now rewrite (proj2 (eqb_neq c b) Ne), andb_false_r.
  Qed.
  (* a gate *)
  Lemma inv_gate pre h k K Gp c w git c' w' : inv pre h k K Gp c w -> h <> [] ->
    ok_blocks (git l) -> acts_as st ancs (lg_blocks (git l)) D ->
    (forall b sel, bk (lg_blocks (git l)) sel (PL (negb b)) (PL b)) ->
    log_trans prefix git l w = (w', Ok c') -> exists Gp', inv pre h (S k) K Gp' (c ++ c') w'.
  Proof.
    intros X Hn O A B H. destruct (iv_known _ _ _ _ _ _ _ X) as [Nl Kn]. exists (Gp ++ lg_blocks (git l)).
    destruct (gate_out d0 qi ancs D _ _ prefix git l lq nd w w' _ _ c' V El End HD (iv_tr _ _ _ _ _ _ _ X) (iv_dst _ _ _ _ _ _ _ X) O H) as (D1 & C1 & T1).
    destruct X as [T Ds F Ac Sh Sg Gd _ Fx Pl]. constructor; auto.
    - now rewrite <- !app_assoc in T1.
    - eapply acts_as_meq; [|apply acts_as_app; [exact Ac|exact A]]. intros a b Ha Hb. now apply mpow_S.
    - apply still_app; [exact Sg|apply still_blocks].
    - apply good_app; [exact Gd|now apply good_none].
    - intros E. contradiction.
    - intros sel. rewrite <- plus_n_Sm, Nat.odd_succ, <- Nat.negb_odd. eapply bk_app; [apply B|apply Pl].
  Qed.
  (* a round *)
  Lemma inv_round pre h k K Gp c w it ds c' w' g : inv pre h k K Gp c w -> round_of l st (it l) ancs g ->
    (h = [] -> forall a, In a ds -> In a ancs -> bt a) ->
    qec_round it l reset (Some ds) w = (w', Ok c') -> exists r, inv pre (r :: h) 0 (K + k) [] (c ++ c') w'.
  Proof.
    intros X Rd B H. destruct (iv_known _ _ _ _ _ _ _ X) as [Nl Kn]. exists (Rnd Gp (mpow D k) g).
    pose proof (qec_round_out2 d0 qi ancs D _ _ it l reset ds w w' _ _ c' V Fr (iv_tr _ _ _ _ _ _ _ X) (iv_dst _ _ _ _ _ _ _ X)
      (ro_ok _ _ _ _ _ Rd reset) H) as [D2 (cb & cd & ls & -> & T1 & T2 & B1 & A2 & P & F2)].
    pose proof (ro_gates _ _ _ _ _ Rd reset) as Eg. cbv beta in Eg.
    assert (Eq : (I ++ gates_of ancs reset h ++ Gp) ++ lg_blocks (it l reset) = I ++ gates_of ancs reset (Rnd Gp (mpow D k) g :: h)).
    { cbn [gates_of]. unfold rnd_gates. cbn [r_gap r_g]. now rewrite Eg, <- !app_assoc. }
    rewrite Eq in *. clear Eq.
    assert (Ro : rnd_ok st ancs (Rnd Gp (mpow D k) g)) by (split; [apply Rd|apply X]).
    assert (Stl : still (gates_of ancs reset (Rnd Gp (mpow D k) g :: h))).
    { cbn [gates_of]. apply still_app; [apply X|]. unfold rnd_gates. cbn [r_gap r_g]. apply still_app; [apply X|]. rewrite <- Eg. apply still_blocks. }
    assert (X' : inv pre (Rnd Gp (mpow D k) g :: h) 0 (K + k) [] (c ++ cb ++ cd) w').
    { constructor; auto.
      - rewrite app_nil_r. now rewrite <- !app_assoc in *.
      - constructor; [exact Ro|apply X].
      - apply acts_as_nil; auto.
      - apply bk_nil.
      - apply good_app; [apply X|]. apply good_app; [now apply good_none|]. apply good_checks; [exact A2|]. clear A2 P T2 H.
        assert (Cn : forall q, In q ancs -> count q (mlab (I ++ gates_of ancs reset (Rnd Gp (mpow D k) g :: h))) = S (length h)).
        { intros q Hq. cbn [gates_of]. rewrite app_assoc, mlab_app, count_app, (iv_cnt _ _ _ _ _ _ _ q X Hq), (mlab_rnd st ancs reset _ Ro).
          rewrite count_nodup by exact Na. rewrite (proj2 (mem_In q ancs) Hq). lia. }
        induction F2 as [|a i ls cd (F1 & F3 & F4 & F5) _ IH]; constructor; [|exact IH]. intros _. clear IH.
        rewrite <- !app_assoc in *. 
        destruct F4 as [[Hd Ha]|E]; [|eapply empty_det; [exact T1|apply still_app; [exact HIs|exact Stl]|exact E]].
        set (u := near (dfr d0) (mpow D k) a) in *. set (v := far (dfr d0) (mpow D k) a) in *.
        apply (det_labels qi _ _ _ i (Tround2 ancs reset u v) T1 F3).
        + intros j Hj. rewrite F5 by (auto; lia). apply form_round2_sel; auto; [lia|]. intros q Hq Nq. unfold u, v, near, far.
          rewrite (mpow_out k a q Ha Hq Nq), (eqb_out a q Ha Nq). destruct (dfr d0); auto.
        + eapply (round_det2 st ancs data Na Hda Hst Hcom reset hset I Hh HI bt Hbt); auto.
          * apply X.
          * intros b Hb. cbn [r_mat]. unfold u, v. now apply near_far.
          * intros Eh b Hb Ev. assert (Eb : eqb a b = true) by (unfold v, far, mpow in Ev; rewrite (iv_first _ _ _ _ _ _ _ X Eh) in Ev; cbn in Ev; destruct (dfr d0); exact Ev).
            destruct (eqb_spec a b) as [<-|]; [|discriminate]. auto.
      - apply (fo_cons _ _ _ _ _ _ _ (PL (Nat.odd K))).
        + intros q Hq. now apply PL0.
        + intros a Ha. now apply PLc.
        + apply X.
        + apply X.
      - intros sel. rewrite Nat.add_0_r. apply bk_nil. }
    exact X'.
  Qed.
  (* the final measurement *)
  Context (rot' : bool) (hset' : list string) (Dg : list (gate string)) (bts lo : list string) (lg : string).
  Hypothesis Wl : wf l.
  Hypothesis HM : forall sel, bk Dg sel identity_op
    (Pauli (fun q => hs hset' q && msel data sel q) (fun q => negb (hs hset' q) && msel data sel q)).
  Hypothesis HMm : mlab Dg = data.
  Hypothesis HMs : still Dg.
  Hypothesis Eb : get_stabs l (basis_type rot') = Ok bts.
  Hypothesis Hbts : forall a, In a bts -> In a ancs /\ NoDup (support l a) /\ incl (support l a) data /\
     forall q, on (fst (st a)) q = hs hset' q && mem q (support l a) /\ on (snd (st a)) q = negb (hs hset' q) && mem q (support l a).
  Hypothesis Elog : l_logs l = [lg].
  Hypothesis Elo : dget lg (if rot' then l_logx l else l_logz l) = Some lo.
  Hypothesis Nlo : NoDup lo.
  Hypothesis Ilo : incl lo data.
  Lemma inv_meas pre h k K Gp c w itm dets c' w' : inv pre h k K Gp c w -> h <> [] ->
    ok_blocks (itm l rot') -> lg_blocks (itm l rot') = Dg ->
    peq (PL (Nat.odd (K + k))) (Pauli (fun q => hs hset' q && mem q lo) (fun q => negb (hs hset' q) && mem q lo)) ->
    log_meas_with itm l rot' reset (Some dets) w = (w', Ok c') -> good pre (c ++ c').
  Proof.
    intros X Hn Om EDg EPL H. destruct (iv_known _ _ _ _ _ _ _ X) as [Nl Kn].
    unfold log_meas_with in H. apply sbind_ok in H as (w6 & ancs' & H6 & H). unfold slift in H6. injection H6 as <- _.
    destruct (strict_superset _ _); [discriminate|]. apply sbind_ok in H as (w7 & c5 & H7 & H). apply onm_ok in H7 as (m7 & H7 & ->).
    apply sbind_ok in H as (w8 & c6 & H8 & H). injection H as <- <-. cbn [odef] in H8.
    destruct (tracked_blocks _ _ _ _ _ _ _ (iv_tr _ _ _ _ _ _ _ X) H7 Om) as [T3 B3].
    pose proof (log_meas_out2 d0 qi ancs D _ _ l rot' reset dets (m7, snd w) _ _ _ c6 V Fr T3 (iv_dst _ _ _ _ _ _ _ X) H8)
      as [(stabs & sup & lq' & qs & cd & o & ls & -> & _ & A & Es & Esup & Elq & Eq & Eo & _ & Fo & So & P & F)].
    cbn [fst] in *. rewrite EDg in *. clear H7 H8 EDg.
    change (if rot' then "x_type" else "z_type")%string with (basis_type rot') in Es. rewrite Eb in Es. injection Es as <-.
    rewrite Elog in Elq. injection Elq as <-. rewrite Elo in Eq. injection Eq as <-.
    apply good_app; [apply X|]. apply good_app; [now apply good_none|]. apply good_checks; [exact A|].
    assert (Sl : still ((I ++ gates_of ancs reset h ++ Gp) ++ Dg)).
    { apply still_app; [|exact HMs]. apply still_app; [exact HIs|]. apply still_app; apply X. }
    assert (Cn : forall q, In q ancs -> count q (mlab ((I ++ gates_of ancs reset h ++ Gp) ++ Dg)) = length h).
    { intros q Hq. rewrite app_assoc, !mlab_app, <- mlab_app, !count_app, (iv_cnt _ _ _ _ _ _ _ q X Hq), HMm.
      rewrite (mlab_nil Gp) by apply (iv_acts _ _ _ _ _ _ _ X). rewrite (count_none data) by (intros Hi; now apply (Hda q)). cbn [count]. lia. }
    assert (Eg : (I ++ gates_of ancs reset h ++ Gp) ++ Dg = I ++ gates_of ancs reset h ++ Gp ++ Dg) by now rewrite <- !app_assoc.
    rewrite Eg in *. apply Forall_app. split.
    - assert (Hin : forall a, In a ls -> In a bts).
      { intros a Ha. eapply Permutation_in in Ha; [|exact P]. apply filter_In in Ha as [_ Ha]. now apply mem_In. }
      clear A P. induction F as [|a i ls cd (F1 & F2 & F3 & F4) _ IH]; constructor; [|apply IH; intros; apply Hin; now right]. intros _. clear IH.
      rewrite <- !app_assoc in *.
      destruct F3 as [[H1 H2]|E]; [|eapply empty_det; [exact T3|exact Sl|exact E]]. destruct (F4 H1 H2) as (s & Hs & F5).
      pose proof (Hin a (or_introl eq_refl)) as Hab. destruct (support_lemma l bts sup Wl Esup a Hab) as (s0 & E0 & N0 & H0).
      rewrite Hs in E0. injection E0 as <-. destruct (Hbts a Hab) as (_ & Ns & Is & Bs).
      apply (det_labels qi _ _ _ i (Tdata2 ancs reset (support l a) (mpow D k a)) T3 F2).
      + intros j Hj. rewrite F5 by lia. apply form_data2_sel; auto; [lia|]. intros q Hq Nq. now apply mpow_out.
      + eapply (data_det2 st ancs data Na Nd Hda Hst Hcom reset hset I Hh HI bt Hbt hset' Gp Dg (mpow D k) (iv_acts _ _ _ _ _ _ _ X)); auto.
        apply (iv_rnd _ _ _ _ _ _ _ X). exact H2.
    - constructor; [|constructor]. intros _. rewrite <- !app_assoc in *.
      apply (det_labels qi _ _ _ o (Tobs lo) T3 Fo).
      + intros j Hj. rewrite So by lia. now apply form_obs_sel.
      + eapply (obs_det2 st ancs data Na Nd Hda Hst Hcom reset hset I HI hset' Gp Dg (mpow D k) (iv_acts _ _ _ _ _ _ _ X)); auto;
          [apply (iv_rnd _ _ _ _ _ _ _ X)| |apply (iv_fix _ _ _ _ _ _ _ X)].
        intros sel. eapply bk_eq; [apply (iv_pl _ _ _ _ _ _ _ X)|exact EPL|apply peq_refl].
  Qed.
End Rep.
