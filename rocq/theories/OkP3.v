(** A memory experiment whose circuit blocks are all right is built without an exception. *)
From Coq Require Import QArith Qcanon.
From Verif Require Import Base Lib StimM SetupM MatM DetM SpecDet DetP NoiseM LayoutM BlockM ExpM SpecNoise NoiseP SpecTrack TrackP LiftP ExpP ExpP2 ExpP3 ExpP4 ExpP5 SpecOk OkP OkP2.
Open Scope Z_scope.

Section Seq.
  Context (qi : dict string Z) (W : SpecNoise.wf_inds qi) (d0 : detectors) (l : layout) (ancs data : list string).
  Context (Ha : get_role l "anc" = Ok ancs) (Hd : get_role l "data" = Ok data).
  Context (Ka : incl ancs (dkeys qi)) (Kd : incl data (dkeys qi)) (Na : NoDup ancs).
  Definition only (bl : blocks) (qs : list string) : Prop := ok_blocks bl /\ (ran bl -> mlab (lg_blocks bl) = qs).
  Definition st (n : nat) (w : world) : Prop := exists L c0, tracked qi (fst w) L c0 /\ ready (fst w) /\ dstI d0 ancs n (snd w) /\
    forall a, In a ancs -> (n <= count a (mlab L))%nat.
  Definition allfine (bl : blocks) := Forall (fine_block qi) bl.

  Lemma blocks_step bl m L c0 : tracked qi m L c0 -> ready m -> allfine bl -> ok_blocks bl ->
    exists m' c, run_blocks bl m = (m', Ok c) /\ tracked qi m' (L ++ lg_blocks bl) (c0 ++ c) /\ ready m' /\ ran bl.
  Proof.
    intros T R F O. destruct (run_blocks_total qi W bl m (measured c0)) as (m' & c & E & S & _); auto; [apply (tk_qi _ _ _ _ T)|apply (tk_inv _ _ _ _ T)|].
    exists m', c. split; [exact E|]. split; [eapply tracked_blocks; eauto|]. split; [eapply ready_static; eauto|]. exists m, m', c. exact E.
  Qed.
  Lemma target_total m L c q j : tracked qi m L c -> In q (dkeys qi) -> (1 <= j <= count q (mlab L))%nat -> exists t, meas_target m q (- Z.of_nat j) = Ok t.
  Proof.
    intros T Hq Hj. destruct (key_get q qi Hq) as [i E]. pose proof (tracked_at _ _ _ _ T) as A. rewrite <- (ExpP.at_count qi W q i E _ _ A) in Hj.
    destruct (meas_target_correct m (measured c) q i (Z.of_nat j) (tk_inv _ _ _ _ T)) as (k & H & _); [|lia|eauto]. now rewrite (tk_qi _ _ _ _ T).
  Qed.
  Lemma count_own a (ls : list string) : In a ls -> (1 <= count a ls)%nat.
  Proof. clear. induction ls as [|b ls IH]; [intros []|]. intros [->|H]; cbn [count]; [rewrite eqb_refl; lia|]. specialize (IH H). destruct (eqb a b); lia. Qed.
  Lemma count_app' a (x y : list string) : count a (x ++ y) = (count a x + count a y)%nat.
  Proof. clear. induction x; cbn; [reflexivity|]. rewrite IHx. destruct (eqb _ _); lia. Qed.

  Lemma round_step_with it g reset ds n w : st n w -> incl ds ancs -> allfine it -> only it ancs ->
    g = (fun m => build_from_anc (meas_target m) reset (Some ds)) ->
    exists w1 c w' d, onm (run_blocks it) w = (w1, Ok c) /\ ond g w1 = (w', Ok d) /\ st (S n) w'.
  Proof.
    intros (L & c0 & T & R & D & C) Hs F [O M] ->. destruct w as [m dd]. cbn [fst snd] in *.
    destruct (blocks_step it m L c0 T R F O) as (m' & c & E & T' & R' & Rn). specialize (M Rn).
    assert (C' : forall a, In a ancs -> (S n <= count a (mlab (L ++ lg_blocks it)))%nat).
    { intros a H. rewrite mlab_app, count_app', M. specialize (C a H). pose proof (count_own a ancs H). lia. }
    destruct (build_anc_total d0 ancs n dd (meas_target m') reset ds D Hs) as (d' & x & B & D').
    { intros a j H Hj. eapply target_total; [eassumption|auto|]. specialize (C' a H). lia. }
    exists (m', dd), c, (m', d'), x. split; [unfold onm; cbn [fst snd]; now rewrite E|]. split; [unfold ond; cbn [fst snd]; now rewrite B|].
    exists (L ++ lg_blocks it), (c0 ++ c). auto.
  Qed.
  Lemma round_step it reset ds n w : st n w -> incl ds ancs -> allfine (it l reset) -> only (it l reset) ancs ->
    exists w' c, qec_round it l reset (Some ds) w = (w', Ok c) /\ st (S n) w'.
  Proof.
    intros S Hs F O. destruct (round_step_with _ _ reset ds n w S Hs F O eq_refl) as (w1 & c & w' & d & E1 & E2 & S').
    exists w', (c ++ d). split; [|exact S']. unfold qec_round, sbind at 1. rewrite E1. unfold slift, sbind at 1. rewrite Ha. cbn [odef].
    rewrite not_superset by exact Hs. unfold sbind. now rewrite E2.
  Qed.
  Lemma google_step ord ds n w : st n w -> incl ds ancs -> allfine (google_round ord l) -> only (google_round ord l) ancs ->
    exists w' c, google_qec_round ord l (Some ds) w = (w', Ok c) /\ st (S n) w'.
  Proof.
    intros S Hs F O. destruct (round_step_with _ _ true ds n w S Hs F O eq_refl) as (w1 & c & w' & d & E1 & E2 & S').
    exists w', (c ++ d). split; [|exact S']. unfold google_qec_round, sbind at 1. rewrite E1. unfold sbind. now rewrite E2.
  Qed.

  Context (ordt : nat -> nat -> list string -> list string) (Hord : forall t k s, Permutation (ordt t k s) s).
  Context (Stab : forall rot : bool, exists stabs, get_stabs l (basis_type rot) = Ok stabs /\ incl stabs ancs /\
     exists sup, support_from_adj l stabs = Ok sup /\ incl stabs (dkeys sup) /\ forall a qs, dget a sup = Some qs -> incl qs data).
  Lemma rounds_total round rot gauge dets n : forall w, st 0 w -> incl dets ancs ->
    (forall r ds w, st r w -> incl ds ancs -> exists w' c, round r ds w = (w', Ok c) /\ st (S r) w') ->
    exists w' c, exp_rounds ordt round l rot gauge dets n w = (w', Ok c) /\ st n w'.
  Proof.
    intros w S0 Hs Hr. unfold exp_rounds. match goal with |- context [sfold ?f _ _ w] => set (F := f) end.
    enough (X : forall r k acc w, st r w -> exists w' c, sfold F (seq r k) acc w = (w', Ok c) /\ st (r + k) w') by exact (X 0%nat n [] w S0).
    intros r k. revert r. induction k as [|k IH]; intros r acc v S.
    - exists v, acc. split; [reflexivity|]. now rewrite Nat.add_0_r.
    - cbn [seq sfold]. assert (A : exists ds, (if Nat.eqb r 0 && negb gauge then first_dets ordt l rot dets else Ok dets) = Ok ds /\ incl ds ancs).
      { destruct (_ && _); [|eauto]. unfold first_dets. destruct (Stab rot) as (stabs & -> & Hi & _). cbn [bind]. eexists. split; [reflexivity|].
        intros a H. apply (Permutation_in _ (Hord _ _ _)) in H. apply Hi. unfold inter in H. apply filter_In in H as [_ H]. now apply mem_In. }
      destruct A as (ds & E & Hds). destruct (Hr r ds v S Hds) as (v' & c & E' & S').
      destruct (IH (Datatypes.S r) (acc ++ c) v' S') as (w' & x & E2 & S2). exists w', x. replace (r + Datatypes.S k)%nat with (Datatypes.S r + k)%nat by lia. split; [|exact S2].
      unfold sbind at 1. unfold F at 1. unfold slift, sbind at 1. rewrite E. cbv beta iota. unfold sbind at 1. rewrite E'. exact E2.
  Qed.

  Context (Logs : forall rot : bool, exists lq qs, first_log l = Ok lq /\ dget lq (if rot then l_logx l else l_logz l) = Some qs /\ incl qs data).
  Lemma end_total rot reset ds n m d L c0 : tracked qi m L c0 -> dstI d0 ancs n d -> (forall a, In a ancs -> (n <= count a (mlab L))%nat) ->
    (forall q, In q data -> (1 <= count q (mlab L))%nat) -> incl ds ancs ->
    exists w' c, log_meas_end l rot reset ds (m, d) = (w', Ok c).
  Proof.
    intros T D C Cd Hs. destruct (Stab rot) as (stabs & Es & Hi & sup & Eu & Hk & Hq). destruct (Logs rot) as (lq & qs & El & Eq & Hl).
    change (if rot then "x_type" else "z_type")%string with (basis_type rot) in *.
    unfold log_meas_end. change (if rot then "x_type" else "z_type")%string with (basis_type rot). unfold slift at 1, sbind at 1. rewrite Es. cbv beta iota.
    unfold slift at 1, sbind at 1. rewrite Eu. cbv beta iota.
    destruct (build_data_total d0 ancs n d (meas_target m) sup reset stabs ds D Hs Hi Hk) as [c B].
    { intros a j H Hj. eapply target_total; [eassumption|auto|]. specialize (C a H). lia. }
    { intros a q' q H E Hin. pose proof (Hq a q' E q Hin) as Hdat. change (-1) with (- Z.of_nat 1). eapply target_total; [eassumption|auto|]. specialize (Cd q Hdat). lia. }
    unfold sbind at 1, ond at 1. cbn [fst snd]. rewrite B. cbv beta iota.
    assert (Ob : exists o, observable l rot m = Ok o).
    { unfold observable. rewrite El. cbn [bind]. unfold dget_err. rewrite Eq. cbn [of_opt bind].
      destruct (mapM_total (fun q => meas_target m q (-1)) qs) as [ts ->]; [|cbn; eauto].
      intros q H. change (-1) with (- Z.of_nat 1). eapply target_total; [eassumption|auto|]. specialize (Cd q (Hl q H)). lia. }
    destruct Ob as [o Eo]. unfold sbind at 1, onm at 1, sread. cbn [fst snd]. rewrite Eo. cbv beta iota. unfold slift, sbind at 1. rewrite Ha. cbv beta iota.
    destruct (deactivate_total d0 ancs n (set_gens (curr_gen d) (curr_gen d) d)) as [d' E'].
    { destruct D as [D _ _]. destruct D. constructor; auto. destruct ds_wf. constructor; auto. }
    unfold sbind, ond. cbn [fst snd]. rewrite E'. unfold sret. eauto.
  Qed.
  Lemma meas_total it rot reset ds n w : st n w -> incl ds ancs -> allfine (it l rot) -> only (it l rot) data ->
    exists w' c, log_meas_with it l rot reset (Some ds) w = (w', Ok c).
  Proof.
    intros (L & c0 & T & R & D & C) Hs F [O M]. destruct w as [m dd]. cbn [fst snd] in *.
    destruct (blocks_step _ m L c0 T R F O) as (m' & c & E & T' & R' & Rn). specialize (M Rn).
    destruct (end_total rot reset ds n m' dd _ _ T' D) as (w' & x & E'); auto.
    - intros a H. rewrite mlab_app, count_app'. specialize (C a H). lia.
    - intros q H. rewrite mlab_app, count_app', M. pose proof (count_own q data H). lia.
    - exists w', (c ++ x). unfold log_meas_with, slift, sbind at 1. rewrite Ha. cbn [odef]. rewrite not_superset by exact Hs.
      unfold sbind at 1, onm. cbn [fst snd]. rewrite E. unfold sbind. now rewrite E'.
  Qed.
  Lemma google_meas_total ord rot ds n w : st n w -> incl ds ancs -> l_code l = "rotated_surface_code"%string ->
    allfine (google_meas ord l rot) -> only (google_meas ord l rot) (ancs ++ data) -> exists w' c, google_log_meas ord l rot (Some ds) w = (w', Ok c).
  Proof.
    intros (L & c0 & T & R & D & C) Hs Hc F [O M]. destruct w as [m dd]. cbn [fst snd] in *.
    destruct (blocks_step _ m L c0 T R F O) as (m' & c & E & T' & R' & Rn). specialize (M Rn).
    assert (C' : forall a, In a ancs -> (S n <= count a (mlab (L ++ lg_blocks (google_meas ord l rot))))%nat).
    { intros a H. rewrite mlab_app, count_app', M, count_app'. specialize (C a H). pose proof (count_own a ancs H). lia. }
    destruct (build_anc_total d0 ancs n dd (meas_target m') true ds D Hs) as (d' & y & B & D').
    { intros a j H Hj. eapply target_total; [eassumption|auto|]. specialize (C' a H). lia. }
    destruct (end_total rot true ds (S n) m' d' _ _ T' D') as (w' & x & E'); auto.
    - intros q H. rewrite mlab_app, count_app', M, count_app'. pose proof (count_own q data H). lia.
    - exists w', (c ++ y ++ x). unfold google_log_meas. rewrite Hc. cbn [negb]. rewrite eqb_refl. cbn [negb]. unfold slift, sbind at 1. rewrite Ha. cbn [odef]. rewrite not_superset by exact Hs.
      unfold sbind at 1, onm. cbn [fst snd]. rewrite E. unfold sbind at 1, ond. cbn [fst snd]. rewrite B. unfold sbind. now rewrite E'.
  Qed.


  Context (Coords : exists cs, LayoutM.qubit_coords l = Ok cs /\ incl (dkeys cs) (dkeys qi)).
  Lemma start_total w : inds (fst w) = qi -> exists c, exp_start [l] w = ((new_circuit (fst w), det_new (snd w)), Ok c).
  Proof.
    intros E. destruct Coords as (cs & Ec & Hc). unfold exp_start, sbind, onm, ond, sread. cbn [fst snd]. unfold block_coords. cbn [mapM]. rewrite Ec. cbn [bind].
    unfold NoiseM.qubit_coords. change (inds (new_circuit (fst w))) with (inds (fst w)). rewrite E, not_superset by exact Hc.
    match goal with |- context [foldM ?f cs []] => destruct (foldM_total f cs) with (b := @nil instr) as [r ->]; [|cbn; eauto] end.
    intros c kv H. destruct (key_get (fst kv) qi) as [i Ei]; [apply Hc, in_map_iff; eauto|]. unfold dget_err. rewrite Ei. cbn. eauto.
  Qed.
  Context (Nl : NoDup (labels d0)) (Kl : incl ancs (labels d0)) (Cl : incl (labels d0) (dkeys (dcoords d0))).
  Lemma init_total it di rot m c0 : tracked qi m [] c0 -> ready m -> allfine (it l di rot) -> ok_blocks (it l di rot) ->
    exists w' c, init_with it l di rot (m, det_new d0) = (w', Ok c) /\ st 0 w'.
  Proof.
    intros T R F O. destruct (activate_total d0 ancs Nl Na Kl Cl) as (d1 & E1 & D1). destruct (blocks_step _ m [] c0 T R F O) as (m' & c & E & T' & R' & _).
    exists (m', d1), c. split.
    - unfold init_with, slift, sbind at 1. rewrite Ha. cbv beta iota. unfold sbind, ond, onm. cbn [fst snd]. rewrite E1. cbn [fst snd]. now rewrite E.
    - exists ([] ++ lg_blocks (it l di rot)), (c0 ++ c). split; [exact T'|]. split; [exact R'|]. split; [exact D1|]. lia.
  Qed.

  Context (m : model) (Em : inds m = qi) (Rm : ready m).
  Lemma ready_new : ready (new_circuit m).
  Proof. exact Rm. Qed.
  Lemma with_total (init : layout -> dict string Z -> bool -> ST world circuit) round meas R di rot reset dets gauge :
    0 <= R -> (forall ds, dets = Some ds -> incl ds ancs) ->
    (forall c0, tracked qi (new_circuit m) [] c0 -> exists w' c, init l di rot (new_circuit m, det_new d0) = (w', Ok c) /\ st 0 w') ->
    (forall r ds w, st r w -> incl ds ancs -> exists w' c, round r l reset (Some ds) w = (w', Ok c) /\ st (S r) w') ->
    (forall ds n w, st n w -> incl ds ancs -> exists w' c, meas l rot reset (Some ds) w = (w', Ok c)) ->
    returns (memory_with ordt init round meas l R di rot reset dets gauge (m, d0)).
  Proof.
    intros HR Hs HI Hr Hm. unfold memory_with. replace (R <? 0) with false by lia. unfold slift, sbind at 1.
    assert (X : exists ds, default_dets l dets = Ok ds /\ incl ds ancs).
    { unfold default_dets. destruct dets; [eauto|]. exists ancs. split; [exact Ha|apply incl_refl]. }
    destruct X as (ds & -> & Hds). cbv beta iota. destruct (start_total (m, d0) Em) as [c0 E0].
    assert (W0 : SpecNoise.wf_inds (inds (fst (m, d0)))) by (cbn [fst]; rewrite Em; exact W).
    destruct (start_ok _ _ _ _ W0 E0) as (_ & _ & _ & T0). cbn [fst snd] in T0. rewrite Em in T0.
    unfold sbind at 1. rewrite E0. cbn [fst snd]. destruct (HI c0 T0) as (w1 & c1 & E1 & S1). unfold sbind at 1. rewrite E1.
    destruct (rounds_total (fun r ds => round r l reset (Some ds)) rot gauge ds (Z.to_nat R) w1 S1 Hds) as (w2 & c2 & E2 & S2).
    { intros. now apply Hr. }
    unfold sbind at 1. rewrite E2. destruct (Hm ds _ w2 S2 Hds) as (w3 & c3 & E3). unfold sbind. rewrite E3. unfold returns, sret. cbn. eauto.
  Qed.
  Lemma google_total R di rot dets gauge : 1 <= R -> (forall ds, dets = Some ds -> incl ds ancs) -> l_code l = "rotated_surface_code"%string ->
    (forall ord, (forall k s, Permutation (ord k s) s) -> allfine (init_xzzx_blocks ord l di rot) /\ ok_blocks (init_xzzx_blocks ord l di rot) /\
       allfine (google_round ord l) /\ allfine (google_meas ord l rot)) ->
    returns (memory_google ordt l R di rot dets gauge (m, d0)).
  Proof.
    intros HR Hs Hc B. unfold memory_google. replace (R <=? 0) with false by lia. unfold slift, sbind at 1.
    assert (X : exists ds, default_dets l dets = Ok ds /\ incl ds ancs).
    { unfold default_dets. destruct dets; [eauto|]. exists ancs. split; [exact Ha|apply incl_refl]. }
    destruct X as (ds & -> & Hds). cbv beta iota. destruct (start_total (m, d0) Em) as [c0 E0].
    assert (W0 : SpecNoise.wf_inds (inds (fst (m, d0)))) by (cbn [fst]; rewrite Em; exact W).
    destruct (start_ok _ _ _ _ W0 E0) as (_ & _ & _ & T0). cbn [fst snd] in T0. rewrite Em in T0.
    unfold sbind at 1. rewrite E0. cbn [fst snd]. destruct (B (ordt 1%nat)) as (B1 & B2 & _); [intros; apply Hord|].
    destruct (init_total (init_xzzx_blocks (ordt 1%nat)) di rot (new_circuit m) c0 T0 Rm B1 B2) as (w1 & c1 & E1 & S1).
    unfold init_qubits_xzzx. unfold sbind at 1. rewrite E1. destruct (B (ordt 2%nat)) as (_ & _ & _ & B4); [intros; apply Hord|].
    destruct (Z.eqb_spec R 1) as [->|NR].
    - assert (A : exists d, (if negb gauge then first_dets ordt l rot ds else Ok ds) = Ok d /\ incl d ancs).
      { destruct gauge; cbn [negb]; [eauto|]. unfold first_dets. destruct (Stab rot) as (stabs & -> & Hi & _). cbn [bind]. eexists. split; [reflexivity|].
        intros a H. apply (Permutation_in _ (Hord _ _ _)) in H. apply Hi. unfold inter in H. apply filter_In in H as [_ H]. now apply mem_In. }
      destruct A as (d & -> & Hd'). unfold sbind at 1.
      destruct (google_meas_total (ordt 2%nat) rot d 0 w1 S1 Hd' Hc B4) as (w2 & c2 & E2); [split; apply (google_meas_measures (ordt 2%nat) l rot ancs data Ha Hd)|].
      unfold sbind. rewrite E2. unfold returns, sret. cbn. eauto.
    - destruct (rounds_total (fun r ds => google_qec_round (ordt (3 + r)%nat) l (Some ds)) rot gauge ds (Z.to_nat (R - 1)) w1 S1 Hds) as (w2 & c2 & E2 & S2).
      { intros r d w S H. destruct (B (ordt (3 + r)%nat)) as (_ & _ & B3 & _); [intros; apply Hord|]. eapply google_step; eauto. split; apply (google_measures (ordt (3 + r)%nat) l ancs Ha). }
      unfold sbind at 1. rewrite E2.
      destruct (google_meas_total (ordt 2%nat) rot ds _ w2 S2 Hds Hc B4) as (w3 & c3 & E3); [split; apply (google_meas_measures (ordt 2%nat) l rot ancs data Ha Hd)|].
      unfold sbind. rewrite E3. unfold returns, sret. cbn. eauto.
  Qed.
End Seq.
