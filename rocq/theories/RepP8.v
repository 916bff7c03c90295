(** Experiments with repeated transversal gates on any layout: record, number of checks, life of a data qubit. *)
From Coq Require Import QArith Qcanon.
From Verif Require Import Base Lib StimM SetupM NoiseM SpecNoise NoiseP LayoutM SpecLayout LayoutP LayoutP2 DetM SpecDet DetP DetCountP
  BlockM LogM ExpM SpecTrack SpecExp TrackP LiftP ExpDetP ExpP ExpP3 ExpP4 ExpP5 ExpP6 ExpP7 ExpP13 RepP6 ExpP12.
Open Scope Z_scope.

Lemma clifford_unitary {Q} (l : list (gate Q)) : Forall clifford l -> Forall unitary l.
Proof. apply Forall_impl. intros [n q|n a b]; cbn; [intros ->; now left|auto]. Qed.
Lemma unitary_rel qi L G : Forall2 (gate_rel qi) L G -> Forall unitary L -> Forall unitary G.
Proof. induction 1 as [|g h L G Rg F IH]; intros U; [constructor|]. inversion U; subst. constructor; [|auto]. destruct g, h; cbn in *; intuition congruence. Qed.
Definition unitcall (c : call) : Prop := match c with Call (OH | OS | OSDAG | OCX | OCZ | OSWAP | OIDLE | OIDLED _ | OINC) _ | CTick => True | _ => False end.
Definition unitb (b : res (list call)) : Prop := match b with Ok b => Forall unitcall b | Err _ => True end.
Lemma unit_quiet bl : Forall unitb bl -> Forall quiet bl.
Proof. apply Forall_impl. intros [b|]; [|auto]. apply Forall_impl. intros [[] qs|]; cbn; auto. Qed.
Lemma unit_blocks bl : Forall unitb bl -> Forall unitary (lg_blocks bl).
Proof.
  intros F. induction F as [|b bl Hb F IH]; [constructor|]. unfold lg_blocks in *. cbn [flat_map]. apply Forall_app. split; [|exact IH].
  destruct b as [b|]; [|constructor]. cbn in Hb. unfold lg_block. induction Hb as [|c b Hc Hb IHb]; [constructor|]. cbn [flat_map]. apply Forall_app. split; [|exact IHb].
  destruct c as [o qs|]; [|constructor].
  assert (P : forall g, Forall unitary (pair_gates g qs : list (gate string))).
  { intros g. clear. induction qs as [qs IH] using (well_founded_induction (well_founded_ltof _ (@length string))).
    destruct qs as [|a [|b r]]; [constructor|constructor|]. cbn [pair_gates]. constructor; [exact I|]. apply IH. unfold ltof. cbn. lia. }
  destruct o; cbn in Hc; try contradiction; cbn [lg_call std_gate is_two]; try apply P; try constructor;
    clear; induction qs; constructor; auto; cbn; auto.
Qed.

Section Any.
  Context (ordt : nat -> nat -> list string -> list string) (ordp : nat -> nat -> list (string * string) -> list (string * string)).
  Hypothesis Hp : forall t n s, Permutation (ordt t n s) s.
  Context (it : (nat -> list string -> list string) -> layout -> bool -> blocks).
  Context (bl : (nat -> list string -> list string) -> (nat -> list (string * string) -> list (string * string)) -> layout -> blocks).
  Context (prefix : string) (swaps : bool) (l : layout).
  Hypothesis Wl : wf l.
  Hypothesis Mit : forall ord reset anc, get_role l "anc" = Ok anc -> measures_only (it ord l reset) anc.
  Hypothesis Cit : forall ord reset anc data, get_role l "anc" = Ok anc -> get_role l "data" = Ok data -> (forall q, In q anc -> ~ In q data) ->
    Forall (calmb data) (it ord l reset).
  Hypothesis Ubl : forall ord ordp, Forall unitb (bl ord ordp l).

  (** * The state after n rounds *)
  Record made (d0 : detectors) (qi : dict string Z) (anc data : list string) (I : list (gate string)) (n : nat) (c : circuit) (w : world) : Prop := {
    ma_gates : exists L, tracked qi (fst w) L c /\ mlab L = times n anc /\ forall q, In q data -> exists mid, acting q L = acting q I ++ mid /\ Forall unitary mid;
    ma_wf : wf_det (snd w);
    ma_same : same d0 (snd w);
    ma_dets : number DETECTOR c = (n * length (labels d0))%nat;
    ma_obs : number OBSERVABLE_INCLUDE c = 0%nat }.
  Lemma times_S {A} n (a : list A) : times n a ++ a = times (S n) a.
  Proof. induction n as [|n IH]; [cbn; now rewrite app_nil_r|]. cbn [times] in *. now rewrite <- app_assoc, IH. Qed.
  Lemma made_round d0 qi anc data I n c w t reset ds w' c' : get_role l "anc" = Ok anc -> get_role l "data" = Ok data -> (forall q, In q anc -> ~ In q data) ->
    made d0 qi anc data I n c w -> qec_round (it (ordt t)) l reset (Some ds) w = (w', Ok c') -> made d0 qi anc data I (S n) (c ++ c') w'.
  Proof.
    intros Ea Ed Dj [(L & T & Em & Ac) W S Nd No] H. pose proof (round_ran _ _ _ _ _ _ _ H) as Rn. unfold qec_round in H.
    apply sbind_ok in H as (w1 & cb & H1 & H). apply onm_ok in H1 as (m1 & H1 & ->).
    apply sbind_ok in H as (w2 & anc' & H2 & H). unfold slift in H2. injection H2 as <- _.
    destruct (strict_superset _ _); [discriminate|]. apply sbind_ok in H as (w3 & cd & H3 & H). apply ond_ok in H3 as (d3 & H3 & ->).
    injection H as <- <-. cbn [fst snd] in *. destruct (only_ok _ _ (Mit (ordt t) reset anc Ea)) as [O M].
    destruct (tracked_blocks _ _ _ _ _ _ _ T H1 O) as [T1 N1]. apply checkless_none in N1 as [N1 N2].
    destruct (C04_anc_lemma _ _ _ _ _ _ W H3) as (ls & P & F).
    apply dets_count in F as [F1 F2]; [|intros a i ((xs & _ & E & _) & _); exact E].
    pose proof (keeps_build_from_anc _ _ _ _ _ _ H3 W) as [W' S']. constructor; cbn [fst snd]; auto.
    - exists (L ++ lg_blocks (it (ordt t) l reset)). split; [rewrite app_assoc; apply tracked_ann; [exact T1|eapply build_anc_ann; eauto]|].
      split; [now rewrite mlab_app, Em, (M Rn), times_S|]. intros q Hq. destruct (Ac q Hq) as (mid & E & U).
      exists (mid ++ acting q (lg_blocks (it (ordt t) l reset))). split; [now rewrite acting_app, E, app_assoc|]. apply Forall_app. split; [exact U|].
      apply clifford_unitary. apply (calm_blocks data); [|exact Hq]. now apply (Cit (ordt t) reset anc).
    - eapply same_trans; eauto.
    - rewrite !number_app, Nd, N1, F1, (Permutation_length P), <- (proj1 S). cbn. lia.
    - rewrite !number_app, No, N2, F2. reflexivity.
  Qed.
  Lemma made_gate d0 qi anc data I n c w t w' c' : made d0 qi anc data I n c w ->
    log_trans prefix (bl (ordt t) (ordp t)) l w = (w', Ok c') -> made d0 qi anc data I n (c ++ c') w'.
  Proof.
    intros [(L & T & Em & Ac) W S Nd No] H. unfold log_trans in H. apply sbind_ok in H as (w1 & lq & H1 & H). unfold slift in H1. injection H1 as <- _.
    apply sbind_ok in H as (w2 & nd & H2 & H). unfold slift in H2. injection H2 as <- _. apply sbind_ok in H as (w3 & u & H3 & H). apply ond_ok in H3 as (d3 & H3 & ->).
    apply onm_ok in H as (m4 & H4 & ->). cbn [fst snd] in *. pose proof (Ubl (ordt t) (ordp t)) as U. destruct (quiet_blocks _ (unit_quiet _ U)) as [O M].
    destruct (tracked_blocks _ _ _ _ _ _ _ T H4 O) as [T1 N1]. apply checkless_none in N1 as [N1 N2].
    pose proof (keeps_update_from_dict _ _ _ _ H3 W) as [W' S']. constructor; cbn [fst snd]; auto.
    - exists (L ++ lg_blocks (bl (ordt t) (ordp t) l)). split; [exact T1|]. split; [now rewrite mlab_app, Em, M, app_nil_r|].
      intros q Hq. destruct (Ac q Hq) as (mid & E & V). exists (mid ++ acting q (lg_blocks (bl (ordt t) (ordp t) l))).
      split; [now rewrite acting_app, E, app_assoc|]. apply Forall_app. split; [exact V|]. now apply Forall_acting, unit_blocks.
    - eapply same_trans; eauto.
    - rewrite number_app, Nd, N1. lia.
    - rewrite number_app, No, N2. reflexivity.
  Qed.
  (* the last measurement *)
  Lemma observable_nm r m o : observable l r m = Ok o -> nm o = OBSERVABLE_INCLUDE.
  Proof.
    unfold observable. intros H. apply bind_ok in H as (lq & _ & H). apply bind_ok in H as (qs & _ & H). apply bind_ok in H as (ts & _ & H).
    unfold StimM.mk in H. match type of H with (if ?b then _ else _) = _ => destruct b end; [|discriminate]. now injection H as <-.
  Qed.
  Lemma made_meas d0 qi anc data I n c w r reset ds w' c' : get_role l "anc" = Ok anc -> get_role l "data" = Ok data ->
    made d0 qi anc data I n c w -> log_meas l r reset (Some ds) w = (w', Ok c') ->
    at_inds qi (times n anc ++ data) (measured (c ++ c')) /\
    (exists stabs, get_stabs l (basis_type r) = Ok stabs /\
      number DETECTOR (c ++ c') = (n * length (labels d0) + length (filter (fun a => mem a stabs) (labels d0)))%nat /\ number OBSERVABLE_INCLUDE (c ++ c') = 1%nat) /\
    exists m L, tracked qi m L (c ++ c') /\ ran (log_meas_blocks l r) /\ forall q, In q data -> exists mid, acting q L = acting q I ++ mid ++ acting q (lg_blocks (log_meas_blocks l r)) /\ Forall unitary mid.
  Proof.
    intros Ea Ed [(L & T & Em & Ac) W S Nd No] H. unfold log_meas, log_meas_with in H.
    apply sbind_ok in H as (w1 & anc' & H1 & H). unfold slift in H1. injection H1 as <- _. destruct (strict_superset _ _); [discriminate|].
    apply sbind_ok in H as (w2 & cb & H2 & H). apply onm_ok in H2 as (m2 & H2 & ->). apply sbind_ok in H as (w3 & ce & H3 & H). injection H as <- <-.
    assert (Rn : ran (log_meas_blocks l r)) by (unfold ran; eauto).
    destruct (only_ok _ _ (log_measures l r data Ed)) as [O M]. destruct (tracked_blocks _ _ _ _ _ _ _ T H2 O) as [T1 N1].
    pose proof (log_end_ann _ _ _ _ _ _ _ H3) as A. pose proof (tracked_ann _ _ _ _ _ T1 A) as T2. rewrite <- app_assoc in T2.
    split; [|split].
    - pose proof (tracked_at _ _ _ _ T2) as At. now rewrite mlab_app, Em, (M Rn) in At.
    - unfold log_meas_end in H3. apply sbind_ok in H3 as (w4 & st & H4 & H). unfold slift in H4. injection H4 as <- Es.
      apply sbind_ok in H as (w5 & su & H5 & H). unfold slift in H5. injection H5 as <- _.
      apply sbind_ok in H as (w6 & cd & H6 & H). apply ond_ok in H6 as (d6 & H6 & ->). apply sbind_ok in H as (w7 & o & H7 & H). apply onm_ok in H7 as (m7 & H7 & ->).
      apply sbind_ok in H as (w8 & anc8 & H8 & H). apply sbind_ok in H as (w9 & u & H9 & H). injection H as _ <-. cbn [fst snd] in *.
      unfold sread in H7. injection H7 as _ H7. apply observable_nm in H7.
      exists st. split; [exact Es|]. destruct (C04_data_lemma _ _ _ _ _ _ _ _ W H6) as (ls & P & F).
      apply checkless_none in N1 as [N1 N2].
      assert (E : append cd o = cd ++ [o]).
      { apply append_obs; [|exact H7]. clear - F. induction F as [|a i ls cd ((xs & _ & E & _) & _) F IH]; constructor; auto. }
      apply dets_count in F as [F1 F2]; [|intros a i ((xs & _ & E' & _) & _); exact E'].
      rewrite E, !number_app, Nd, No, N1, N2, F1, F2, (Permutation_length P).
      rewrite (number_zero DETECTOR [o]) by (repeat constructor; congruence). rewrite (number_all _ [o]) by (repeat constructor; exact H7).
      rewrite <- (proj1 S). cbn [length]. split; lia.
    - exists m2, (L ++ lg_blocks (log_meas_blocks l r)). split; [exact T2|]. split; [exact Rn|]. intros q Hq. destruct (Ac q Hq) as (mid & E & U).
      exists mid. split; [now rewrite acting_app, E, <- app_assoc|exact U].
  Qed.

  (** * The whole experiment *)
  Context (gate : nat -> layout -> ST world circuit).
  Hypothesis Hg : forall t, gate t l = log_trans prefix (bl (ordt t) (ordp t)) l.
  Context (n R : Z) (di : dict string Z) (rot reset : bool) (dets : option (list string)) (gauge : bool) (w w' : world) (c : circuit).
  Hypothesis W : SpecNoise.wf_inds (inds (fst w)).
  Hypothesis N : NoDup (labels (snd w)).
  Hypothesis H : repeated_with ordt it gate swaps l n R di rot reset dets gauge w = (w', Ok c).
  Definition final_basis : bool := if swaps && negb (n mod 2 =? 0) then negb rot else rot.
  Lemma init_made c0 w1 anc data w2 c1 : get_role l "anc" = Ok anc -> get_role l "data" = Ok data -> exp_start [l] w = (w1, Ok c0) ->
    init_qubits (ordt 1) l di rot w1 = (w2, Ok c1) -> made (snd w) (inds (fst w)) anc data (lg_blocks (init_blocks (ordt 1%nat) l di rot)) 0 (c0 ++ c1) w2.
  Proof.
    intros Ea Ed H1 H2. destruct (start_ok _ _ _ _ W H1) as (-> & A & B & T). destruct (quiet_blocks _ (init_measures (ordt 1%nat) l di rot)) as [O M].
    destruct (init_ok _ _ _ _ (snd w) (inds (fst w)) (new_circuit (fst w), det_new (snd w)) _ _ c0 [] N eq_refl T H2 O) as (ancs & _ & D & C & T2).
    apply checkless_none in B as [B1 B2]. apply checkless_none in C as [C1 C2]. constructor; cbn [fst snd].
    - exists (lg_blocks (init_blocks (ordt 1%nat) l di rot)). split; [exact T2|]. split; [exact M|]. intros q Hq. exists []. now rewrite app_nil_r.
    - apply D.
    - apply D.
    - now rewrite number_app, B1, C1.
    - now rewrite number_app, B2, C2.
  Qed.
  Lemma made_app d0 qi anc data I k c1 c2 w1 : made d0 qi anc data I k c1 w1 -> c1 = c2 -> made d0 qi anc data I k c2 w1.
  Proof. now intros M <-. Qed.
  Lemma rep_made : exists anc data w3 c3 ds c4, get_role l "anc" = Ok anc /\ get_role l "data" = Ok data /\
    ran (init_blocks (ordt 1%nat) l di rot) /\
    made (snd w) (inds (fst w)) anc data (lg_blocks (init_blocks (ordt 1%nat) l di rot)) (S (Z.to_nat n * Z.to_nat R)) c3 w3 /\
    log_meas l final_basis reset (Some ds) w3 = (w', Ok c4) /\ c = c3 ++ c4.
  Proof.
    pose proof H as E. unfold repeated_with in E. destruct (R <? 0); [discriminate|]. destruct ((n <? 0) || _); [discriminate|].
    apply sbind_ok in E as (w1 & dd & E1 & E). unfold slift in E1. injection E1 as <- _.
    apply sbind_ok in E as (w1 & c0 & E1 & E). apply sbind_ok in E as (w2 & c1 & E2 & E). pose proof (init_ran _ _ _ _ _ _ _ E2) as Ri.
    assert (Rr : exists anc data, get_role l "anc" = Ok anc /\ get_role l "data" = Ok data) by (now apply (init_of_roles ordt RotCss l di rot)).
    destruct Rr as (anc & data & Ea & Ed). assert (Dj : forall x, In x anc -> ~ In x data) by (intros x; now apply (role_disjoint l anc data x Wl Ea Ed)).
    pose proof (init_made _ _ _ _ _ _ Ea Ed E1 E2) as M.
    apply sbind_ok in E as (w3 & ds & E3 & E). unfold slift in E3. injection E3 as <- _. apply sbind_ok in E as (w3 & c2 & E3 & E).
    apply (made_round _ _ _ _ _ _ _ _ _ _ _ _ _ Ea Ed Dj M) in E3. apply sbind_ok in E as (w4 & c3 & E4 & E). apply sbind_ok in E as (w5 & c4 & E5 & E). injection E as <- <-.
    exists anc, data, w4, (((c0 ++ c1) ++ c2) ++ c3), dd, c4. do 3 (split; [assumption|]). split; [|split; [exact E5|now rewrite <- !app_assoc]].
    pattern c3, w4. set (I0 := lg_blocks (init_blocks (ordt 1%nat) l di rot)) in *. set (d0 := snd w) in *. set (qi := inds (fst w)) in *.
    refine (sfold_seq _ (fun k x v => made d0 qi anc data I0 (S (k * Z.to_nat R)) (((c0 ++ c1) ++ c2) ++ x) v) (Z.to_nat n) 0 _ [] w3 w4 c3 _ E4);
      [|cbv beta; rewrite app_nil_r; exact E3].
    intros k x v v' x' _ Mk Hk. apply sbind_ok in Hk as (v1 & g & H1 & Hk). rewrite Hg in H1. apply (made_gate _ _ _ _ _ _ _ _ _ _ _ Mk) in H1.
    apply sbind_ok in Hk as (v2 & y & H2 & Hk). injection Hk as <- <-.
    assert (F : made d0 qi anc data I0 (S (k * Z.to_nat R) + Z.to_nat R) (((((c0 ++ c1) ++ c2) ++ x) ++ g) ++ y) v2).
    { refine (sfold_seq _ (fun j y v => made d0 qi anc data I0 (S (k * Z.to_nat R) + j) (((((c0 ++ c1) ++ c2) ++ x) ++ g) ++ y) v) (Z.to_nat R) 0 _ [] v1 v2 y _ H2);
        [|cbv beta; rewrite app_nil_r, Nat.add_0_r; exact H1].
      intros j y0 u u' y' _ Mj Hj. apply sbind_ok in Hj as (u1 & z & Hj & Hk). injection Hk as <- <-.
      apply (made_round _ _ _ _ _ _ _ _ _ _ _ _ _ Ea Ed Dj Mj) in Hj. rewrite Nat.add_succ_r, app_assoc. exact Hj. }
    replace (S (S k * Z.to_nat R)) with (S (k * Z.to_nat R) + Z.to_nat R)%nat by lia. eapply made_app; [exact F|now rewrite <- !app_assoc].
  Qed.
  Lemma rep_record : exists anc data, get_role l "anc" = Ok anc /\ get_role l "data" = Ok data /\
    at_inds (inds (fst w)) (times (S (Z.to_nat n * Z.to_nat R)) anc ++ data) (measured c).
  Proof.
    destruct rep_made as (anc & data & w3 & c3 & ds & c4 & Ea & Ed & _ & M & E & Ec). exists anc, data. do 2 (split; [assumption|]). rewrite Ec. eapply made_meas; eauto.
  Qed.
  Lemma rep_counts anc : get_role l "anc" = Ok anc -> Permutation (labels (snd w)) anc ->
    exists stabs, get_stabs l (basis_type final_basis) = Ok stabs /\
      number DETECTOR c = (S (Z.to_nat n * Z.to_nat R) * length anc + length stabs)%nat /\ number OBSERVABLE_INCLUDE c = 1%nat.
  Proof.
    intros Ea P. destruct rep_made as (anc' & data & w3 & c3 & ds & c4 & Ea' & Ed & _ & M & E & Ec). rewrite Ea in Ea'. injection Ea' as <-.
    destruct (made_meas _ _ _ _ _ _ _ _ _ _ _ _ _ Ea Ed M E) as (_ & (st & Es & C1 & C2) & _). exists st. split; [exact Es|]. rewrite Ec. split; [|exact C2]. rewrite C1.
    destruct (count_stabs _ _ _ _ _ Es Ea N P) as [L1 L2]. now rewrite L1, L2.
  Qed.
  Lemma rep_data q i : has_role l "data" q -> dget q (inds (fst w)) = Some i ->
    exists first (mid : list (SpecTrack.gate Z)) last, acting i (gates c) = on_qubit i first ++ mid ++ on_qubit i last /\
      preparation l false rot di q first /\ Forall unitary mid /\ readout l false final_basis q last.
  Proof.
    intros Hr Hq. destruct rep_made as (anc & data & w3 & c3 & ds & c4 & Ea & Ed & Ri & M & E & Ec).
    destruct (made_meas _ _ _ _ _ _ _ _ _ _ _ _ _ Ea Ed M E) as (_ & _ & m & L & T & Rm & Ac). apply (has_role_eq _ _ _ _ Ed) in Hr.
    destruct (Ac q Hr) as (mid & Eq & U). destruct (init_on (ordt 1%nat) (Hp 1%nat) false l di rot q Wl Ri) as (first & E1 & P1).
    destruct (meas_on (ordt 2%nat) (Hp 2%nat) false l final_basis q Wl Rm) as (last & E2 & P2). cbn [init_it meas_it] in E1, E2.
    pose proof (tk_rel _ _ _ _ T) as F. apply (acting_rel _ _ _ q i W) in F; [|exact Hq]. rewrite Eq, E1, E2 in F.
    apply Forall2_app_inv_l in F as (x1 & y & F1 & F & Ex). apply Forall2_app_inv_l in F as (x2 & x3 & F2 & F3 & ->).
    apply (on_rel _ _ _ _ _ Hq) in F1, F3. subst x1 x3. exists first, x2, last. rewrite Ec. split; [exact Ex|]. split; [exact P1|]. split; [|exact P2]. eapply unitary_rel; eauto.
  Qed.
  (* the order of the gates and rounds *)
  Lemma rep_sequence : exists dd before parts after, c = before ++ concat (map (fun p => fst p ++ concat (snd p)) parts) ++ after /\ Z.of_nat (length parts) = n /\ default_dets l dets = Ok dd /\
    (exists ds w1 w2 c0 c1, (if gauge then ds = dd else exists s, get_stabs l (basis_type rot) = Ok s /\ forall a, In a ds <-> In a dd /\ In a s) /\ exp_start [l] w = (w1, Ok c0) /\
       (sdo c1 <- init_qubits (ordt 1) l di rot; sdo c2 <- qec_round (it (ordt 3)) l reset (Some ds); sret (c1 ++ c2)) w1 = (w2, Ok c1) /\ before = c0 ++ c1) /\
    (exists w1, log_meas l final_basis reset (Some dd) w1 = (w', Ok after)) /\
    forall g rs, In (g, rs) parts -> (exists o w1 w2, gate o l w1 = (w2, Ok g)) /\ Z.of_nat (length rs) = R /\
      forall r, In r rs -> exists o w1 w2, qec_round (it (ordt o)) l reset (Some dd) w1 = (w2, Ok r).
  Proof using Hp H.
    clear -Hp H.
    pose proof H as E. unfold repeated_with in E. destruct (R <? 0) eqn:HR; [discriminate|]. destruct ((n <? 0) || _) eqn:Hn; [discriminate|]. apply orb_false_iff in Hn as [Hn _].
    apply sbind_ok in E as (w1 & dd & E1 & E). unfold slift in E1. injection E1 as <- Ed.
    apply sbind_ok in E as (w1 & c0 & E1 & E). apply sbind_ok in E as (w2 & c1 & E2 & E).
    apply sbind_ok in E as (w3 & ds & E3 & E). unfold slift in E3. injection E3 as <- Es. apply sbind_ok in E as (w3 & c2 & E3 & E).
    apply sbind_ok in E as (w4 & c3 & E4 & E). apply sbind_ok in E as (w5 & c4 & E5 & E). injection E as <- <-.
    set (good := fun (g : circuit) (rs : list circuit) => (exists o w1 w2, gate o l w1 = (w2, Ok g)) /\ Z.of_nat (length rs) = R /\
      forall r, In r rs -> exists o w1 w2, qec_round (it (ordt o)) l reset (Some dd) w1 = (w2, Ok r)).
    assert (P : exists parts, c3 = concat (map (fun p => fst p ++ concat (snd p)) parts) /\ length parts = Z.to_nat n /\ forall g rs, In (g, rs) parts -> good g rs).
    { refine (sfold_seq _ (fun k x v => exists parts, x = concat (map (fun p => fst p ++ concat (snd p)) parts) /\ length parts = k /\ forall g rs, In (g, rs) parts -> good g rs) (Z.to_nat n) 0 _ [] w3 w4 c3 _ E4);
        [|now exists []].
      intros k x v v' x' _ (parts & Ex & Lp & Gp) Hk. apply sbind_ok in Hk as (v1 & g & H1 & Hk). apply sbind_ok in Hk as (v2 & y & H2 & Hk). injection Hk as <- <-.
      assert (Q : exists rs, y = concat rs /\ length rs = Z.to_nat R /\ forall r, In r rs -> exists o w1 w2, qec_round (it (ordt o)) l reset (Some dd) w1 = (w2, Ok r)).
      { refine (sfold_seq _ (fun j y v => exists rs, y = concat rs /\ length rs = j /\ forall r, In r rs -> exists o w1 w2, qec_round (it (ordt o)) l reset (Some dd) w1 = (w2, Ok r)) (Z.to_nat R) 0 _ [] v1 v2 y _ H2);
          [|now exists []].
        intros j y0 u u' y' _ (rs & Ey & Lr & Gr) Hj. apply sbind_ok in Hj as (u1 & z & Hj & Hk). injection Hk as <- <-. exists (rs ++ [z]).
        rewrite concat_app, Ey. cbn [concat]. rewrite app_nil_r. split; [reflexivity|]. rewrite app_length, Lr. split; [cbn; lia|].
        intros r Hr. apply in_app_iff in Hr as [Hr|[<-|[]]]; [auto|]. eauto. }
      destruct Q as (rs & -> & Lr & Gr). exists (parts ++ [(g, rs)]). rewrite map_app, concat_app, Ex. cbn [map concat fst snd]. rewrite app_nil_r. split; [reflexivity|].
      rewrite app_length, Lp. split; [cbn; lia|]. intros g' rs' Hi. apply in_app_iff in Hi as [Hi|[[= <- <-]|[]]]; [auto|]. split; [eauto|]. split; [unfold circuit in *; lia|exact Gr]. }
    destruct P as (parts & -> & Lp & Gp). exists dd, (c0 ++ c1 ++ c2), parts, c4. split; [now rewrite <- !app_assoc|]. split; [lia|]. split; [exact Ed|].
    split; [|split; [eauto|exact Gp]]. exists ds, w1, w3, c0, (c1 ++ c2). split.
    { destruct gauge; cbn [negb] in Es; [congruence|]. unfold first_dets in Es. apply bind_ok in Es as (s & E & Es). injection Es as <-. exists s. split; [exact E|].
      intros a. split.
      - intros Ha. apply (Permutation_in _ (Hp 0%nat 0%nat _)) in Ha. unfold inter in Ha. apply filter_In in Ha as [A B]. rewrite dedup_In in A. now rewrite mem_In in B.
      - intros [A B]. apply (Permutation_in _ (Permutation_sym (Hp 0%nat 0%nat _))). unfold inter. apply filter_In. rewrite dedup_In, mem_In. auto. }
    split; [exact E1|]. split; [|reflexivity].
    unfold sbind. rewrite E2, E3. reflexivity.
  Qed.
End Any.

(** * The four experiments *)
Definition swaps_basis (k : repeated_kind) : bool := match k with HUnrot => true | _ => false end.
Section Kinds.
  Context (ordt : nat -> nat -> list string -> list string) (ordp : nat -> nat -> list (string * string) -> list (string * string)).
  Definition rep_it (k : repeated_kind) : (nat -> list string -> list string) -> layout -> bool -> blocks :=
    match k with SRot => fun ord => css_round ord "rotated_surface_code" | SPipelined => css_pipe_round | _ => fun ord => css_round ord "unrotated_surface_code" end.
  Definition rep_bl (k : repeated_kind) := match k with HUnrot => trans_h_blocks | _ => trans_s_blocks end.
  Definition rep_prefix (k : repeated_kind) : string := match k with HUnrot => "trans-h_" | _ => "trans-s_" end.
  Definition rep_gate (k : repeated_kind) : nat -> layout -> ST world circuit :=
    match k with HUnrot => fun t => log_trans_h (ordt t) (ordp t) | _ => fun t => log_trans_s (ordt t) (ordp t) end.
  Lemma rep_eq k l : repeated ordt ordp k l = repeated_with ordt (rep_it k) (rep_gate k) (swaps_basis k) l.
  Proof. now destruct k. Qed.
  Lemma rep_gate_eq k l t : rep_gate k t l = log_trans (rep_prefix k) (rep_bl k (ordt t) (ordp t)) l.
  Proof. now destruct k. Qed.
  Lemma rep_meas k l ord reset anc : get_role l "anc" = Ok anc -> measures_only (rep_it k ord l reset) anc.
  Proof. destruct k; cbn [rep_it]; intros E; (now apply css_measures) || now apply pipe_measures. Qed.
  Lemma rep_calm k l ord reset anc data : get_role l "anc" = Ok anc -> get_role l "data" = Ok data -> (forall q, In q anc -> ~ In q data) -> Forall (calmb data) (rep_it k ord l reset).
  Proof. destruct k; cbn [rep_it]; intros Ea Ed D; (now apply (calm_css _ _ anc)) || now apply (calm_pipe _ _ anc). Qed.
  Lemma rep_unit k l ord op : Forall unitb (rep_bl k ord op l).
  Proof.
    destruct k; cbn [rep_bl]; unfold trans_s_blocks, trans_h_blocks;
      match goal with |- Forall unitb (generator ?r) => destruct r eqn:E end; cbn [generator]; try (repeat constructor; fail); 
      (match type of E with (if ?b then _ else _) = _ => destruct b end; [discriminate|]);
      apply bind_ok in E as (data & _ & E); cbv zeta in E; apply bind_ok in E as (lq & _ & E); apply bind_ok in E as ([pairs ls] & _ & E); injection E as <-;
      repeat constructor.
  Qed.
End Kinds.

(** * Adding a gate to a layout only sets attributes *)
Lemma edited_trans a b c : edited a b -> edited b c -> edited a c.
Proof. induction 1 as [|l p q v l1 l2 P1 P2 E F IH]; [auto|]. intros G. eapply ed_step; eauto. Qed.
Lemma set_params_edited gate value qs : gate <> "ind" -> gate <> "qubit" -> forall l l', set_params gate value qs l = Ok l' -> edited l l'.
Proof.
  unfold set_params. intros N1 N2. induction qs as [|q qs IH]; intros l l' H; cbn [foldM] in H; [injection H as <-; constructor|].
  apply bind_ok in H as [l1 [H1 H]]. apply bind_ok in H1 as [v [_ H1]]. eapply ed_step; eauto.
Qed.
Lemma s_end_edited cz s both fixed l g l1 : trans_s_end cz s both fixed l ("trans-s_" ++ g) = Ok l1 -> edited l l1.
Proof.
  unfold trans_s_end. intros H. do 4 apply bind_ok in H as (? & _ & H). apply bind_ok in H as (l' & H1 & H). apply bind_ok in H as (? & _ & H).
  eapply edited_trans; [eapply set_params_edited; [| |exact H1]|eapply set_params_edited; [| |exact H]]; discriminate.
Qed.
Lemma s_rot_edited l dq l1 : set_trans_s_rot l dq = Ok l1 -> edited l l1.
Proof.
  unfold set_trans_s_rot, gate_s. intros H. do 2 apply bind_ok in H as (? & _ & H). apply bind_ok in H as (g & Eg & H). apply bind_ok in Eg as (g' & _ & Eg). injection Eg as <-.
  apply bind_ok in H as ([[ax p] h] & _ & H). cbv zeta in H. do 2 apply bind_ok in H as (? & _ & H). apply bind_ok in H as ([s e] & _ & H). now apply s_end_edited in H.
Qed.
Lemma h_edited l dq l1 : set_trans_h l dq = Ok l1 -> edited l l1.
Proof.
  unfold set_trans_h, gate_h. intros H. do 3 apply bind_ok in H as (? & _ & H). apply bind_ok in H as (g & Eg & H). apply bind_ok in Eg as (g' & _ & Eg). injection Eg as <-.
  apply bind_ok in H as ([[ax p] h] & _ & H). do 2 apply bind_ok in H as (? & _ & H). apply bind_ok in H as (l' & H1 & H). apply bind_ok in H as (? & _ & H).
  eapply edited_trans; [eapply set_params_edited; [| |exact H1]|eapply set_params_edited; [| |exact H]]; discriminate.
Qed.
