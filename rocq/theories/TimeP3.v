(** Proofs for Props_Time.v (C83): the rounds of an experiment. *)
From Coq Require Import QArith Qcanon.
From Verif Require Import Base StimM SetupM MatM NoiseM LayoutM DetM BlockM ExpM Lib SpecExp SpecTime NoiseP DetCountP CnotP2 ExpP3 FreshP TimeP TimeP2.
Open Scope Z_scope.

Lemma later_gates k bl m m' c : run_blocks bl m = (m', Ok c) -> map (later k) c = c.
Proof.
  intros H. apply blocks_okc in H as [H _]. apply okc_nocheck in H. induction H as [|i c Hi H IH]; [reflexivity|]. cbn [map]. rewrite IH. f_equal.
  unfold later. destruct (nm i) eqn:E; try reflexivity. exfalso. apply Hi. unfold is_check. rewrite E. auto.
Qed.

(** * The same program in two states *)
Definition Wrel (k : Z) (w w' : world) : Prop := Mrel 3 (fst w) (fst w') /\ Drel k (snd w) (snd w').
Definition wsim (k : Z) (x : ST world circuit) : Prop := forall w w', Wrel k w w' -> snd (x w') = rmap (map (later k)) (snd (x w)).
Lemma sim_blocks bl k w w' : Wrel k w w' ->
  match onm (run_blocks bl) w, onm (run_blocks bl) w' with
  | (w1, Ok c), (w1', r) => r = Ok c /\ map (later k) c = c /\ Wrel k w1 w1'
  | (_, Err e), (_, r) => r = Err e
  end.
Proof.
  intros [M D]. unfold onm. destruct (msim_blocks bl 3%nat _ _ M) as [E R].
  destruct (run_blocks bl (fst w)) as [m1 [c|e]] eqn:E1, (run_blocks bl (fst w')) as [m1' r]; cbn in *; subst r; [|reflexivity].
  split; [reflexivity|]. split; [eapply later_gates; eauto|]. split; assumption.
Qed.
Lemma sim_anc k reset req w w' : Wrel k w w' ->
  match ond (fun m => build_from_anc (meas_target m) reset req) w, ond (fun m => build_from_anc (meas_target m) reset req) w' with
  | (w1, Ok c), (w1', r) => r = Ok (map (later k) c) /\ Wrel k w1 w1'
  | (_, Err e), (_, r) => r = Err e
  end.
Proof.
  intros [M D]. unfold ond.
  destruct (anc_rel (meas_target (fst w)) (meas_target (fst w')) (fun q z => target_rel _ _ q z M) k reset req _ _ D) as [E R].
  destruct (build_from_anc (meas_target (fst w)) reset req (snd w)) as [d1 [c|e]], (build_from_anc (meas_target (fst w')) reset req (snd w')) as [d1' r]; cbn in *; subst r; [|reflexivity].
  split; [reflexivity|]. split; cbn; [exact M|]. exact (R c eq_refl).
Qed.
Lemma sim_data k sup reset rc req w w' : Wrel k w w' ->
  match ond (fun m => build_from_data (meas_target m) sup reset rc req) w, ond (fun m => build_from_data (meas_target m) sup reset rc req) w' with
  | (w1, Ok c), (w1', r) => r = Ok (map (later k) c) /\ Forall (fun i => nm i = DETECTOR) c /\ Wrel k w1 w1'
  | (_, Err e), (_, r) => r = Err e
  end.
Proof.
  intros [M D]. unfold ond.
  destruct (data_rel (meas_target (fst w)) (meas_target (fst w')) (fun q z => target_rel _ _ q z M) k sup reset rc req _ _ D) as [E R].
  destruct (build_from_data (meas_target (fst w)) sup reset rc req (snd w)) as [d1 [c|e]], (build_from_data (meas_target (fst w')) sup reset rc req (snd w')) as [d1' r]; cbn in *; subst r; [|reflexivity].
  destruct (R c eq_refl). split; [reflexivity|]. split; [assumption|]. split; cbn; assumption.
Qed.
Lemma sim_round it l reset dets k : wsim k (qec_round it l reset dets).
Proof.
  intros w w' H. unfold qec_round, sbind. assert (B := sim_blocks (it l reset) k w w' H).
  destruct (onm (run_blocks (it l reset)) w) as [w1 [c|e]], (onm (run_blocks (it l reset)) w') as [w1' r].
  2: now rewrite B. destruct B as (-> & Lc & H1). unfold slift. destruct (get_role l "anc") as [anc|e]; [|reflexivity].
  cbv zeta. destruct (strict_superset _ _); [reflexivity|].
  assert (B := sim_anc k reset (Some (odef anc dets)) w1 w1' H1).
  destruct (ond (fun m => build_from_anc (meas_target m) reset (Some (odef anc dets))) w1) as [w2 [d|e]], (ond (fun m => build_from_anc (meas_target m) reset (Some (odef anc dets))) w1') as [w2' r].
  2: now rewrite B. destruct B as (-> & H2). cbn. now rewrite map_app, Lc.
Qed.
Lemma sim_ground ord l dets k : wsim k (google_qec_round ord l dets).
Proof.
  intros w w' H. unfold google_qec_round, sbind. assert (B := sim_blocks (google_round ord l) k w w' H).
  destruct (onm (run_blocks (google_round ord l)) w) as [w1 [c|e]], (onm (run_blocks (google_round ord l)) w') as [w1' r].
  2: now rewrite B. destruct B as (-> & Lc & H1).
  assert (B := sim_anc k true dets w1 w1' H1).
  destruct (ond (fun m => build_from_anc (meas_target m) true dets) w1) as [w2 [d|e]], (ond (fun m => build_from_anc (meas_target m) true dets) w1') as [w2' r].
  2: now rewrite B. destruct B as (-> & H2). cbn. now rewrite map_app, Lc.
Qed.
Lemma sim_end l rot reset req k : wsim k (log_meas_end l rot reset req).
Proof.
  intros w w' H. unfold log_meas_end, sbind, slift. destruct (get_stabs l _) as [stabs|e]; [|reflexivity].
  destruct (support_from_adj l stabs) as [sup|e]; [|reflexivity].
  assert (B := sim_data k sup reset stabs (Some req) w w' H).
  destruct (ond (fun m => build_from_data (meas_target m) sup reset stabs (Some req)) w) as [w1 [d|e]], (ond (fun m => build_from_data (meas_target m) sup reset stabs (Some req)) w') as [w1' r].
  2: now rewrite B. destruct B as (-> & Fd & H1).
  unfold onm, sread. cbv beta.
  assert (O : observable l rot (fst w1') = observable l rot (fst w1)).
  { unfold observable. destruct (first_log l) as [lq|]; [|reflexivity]. cbn [bind]. destruct (dget_err lq _) as [qs|]; [|reflexivity]. cbn [bind].
    assert (E : mapM (fun q => meas_target (fst w1') q (-1)) qs = mapM (fun q => meas_target (fst w1) q (-1)) qs); [|now rewrite E].
    apply mapM_ext. intros q _. symmetry. apply target_rel; [apply H1|lia]. }
  rewrite O. destruct (observable l rot (fst w1)) as [o|e] eqn:Eo; [|reflexivity].
  destruct (get_role l "anc") as [anc|e]; [|reflexivity]. unfold ond. cbn [fst snd].
  assert (E := deactivate_rel k anc _ _ (proj2 H1)).
  destruct (deactivate anc (snd w1)) as [d1 [[]|e]], (deactivate anc (snd w1')) as [d1' r]; cbn in E; subst r; [|reflexivity].
  cbn. assert (No : nm o = OBSERVABLE_INCLUDE).
  { unfold observable in Eo. apply bind_ok in Eo as (? & _ & Eo). apply bind_ok in Eo as (? & _ & Eo). apply bind_ok in Eo as (? & _ & Eo).
    unfold mk in Eo. cbv zeta in Eo. destruct (instr_ok _); [|discriminate]. injection Eo as <-. reflexivity. }
  rewrite (append_obs d o Fd No). rewrite append_obs; [|clear - Fd|exact No].
  - rewrite map_app. cbn [map]. unfold later at 3. now rewrite No.
  - apply Forall_forall. intros i I. apply in_map_iff in I as (j & <- & I). rewrite later_name. rewrite Forall_forall in Fd. auto.
Qed.
Lemma sim_meas_with it l rot reset dets k : wsim k (log_meas_with it l rot reset dets).
Proof.
  intros w w' H. unfold log_meas_with, sbind, slift. destruct (get_role l "anc") as [anc|e]; [|reflexivity]. cbv zeta.
  destruct (strict_superset _ _); [reflexivity|]. assert (B := sim_blocks (it l rot) k w w' H).
  destruct (onm (run_blocks (it l rot)) w) as [w1 [c|e]], (onm (run_blocks (it l rot)) w') as [w1' r].
  2: now rewrite B. destruct B as (-> & Lc & H1). assert (B := sim_end l rot reset (odef anc dets) k w1 w1' H1).
  destruct (log_meas_end l rot reset (odef anc dets) w1) as [w2 [d|e]], (log_meas_end l rot reset (odef anc dets) w1') as [w2' r]; cbn in B; subst r; [|reflexivity].
  cbn. now rewrite map_app, Lc.
Qed.
Lemma sim_meas_xzzx ord l rot reset dets k : wsim k (log_meas_xzzx ord l rot reset dets).
Proof. unfold log_meas_xzzx. destruct (negb _); [intros w w' _; reflexivity|apply sim_meas_with]. Qed.
Lemma sim_gmeas ord l rot dets k : wsim k (google_log_meas ord l rot dets).
Proof.
  intros w w' H. unfold google_log_meas. destruct (negb _); [reflexivity|]. unfold sbind, slift. destruct (get_role l "anc") as [anc|e]; [|reflexivity]. cbv zeta.
  destruct (strict_superset _ _); [reflexivity|]. assert (B := sim_blocks (google_meas ord l rot) k w w' H).
  destruct (onm (run_blocks (google_meas ord l rot)) w) as [w1 [c|e]], (onm (run_blocks (google_meas ord l rot)) w') as [w1' r].
  2: now rewrite B. destruct B as (-> & Lc & H1).
  assert (B := sim_anc k true (Some (odef anc dets)) w1 w1' H1).
  destruct (ond (fun m => build_from_anc (meas_target m) true (Some (odef anc dets))) w1) as [w2 [d|e]], (ond (fun m => build_from_anc (meas_target m) true (Some (odef anc dets))) w1') as [w2' r].
  2: now rewrite B. destruct B as (-> & H2). assert (B := sim_end l rot true (odef anc dets) k w2 w2' H2).
  destruct (log_meas_end l rot true (odef anc dets) w2) as [w3 [f|e]], (log_meas_end l rot true (odef anc dets) w2') as [w3' r]; cbn in B; subst r; [|reflexivity].
  cbn. now rewrite !map_app, Lc.
Qed.

(** * The states between the rounds *)
Section Rounds.
  Context (s0 : world) (M : list string).
  Definition St (t : nat) (w : world) : Prop :=
    same_static (fst s0) (fst w) /\ (forall q, past (fst w) q = option_map (fun _ => grown M q t) (past (fst s0) q)) /\
    after_rounds (active (snd s0)) (curr_gen (snd s0)) (snd s0) (Z.of_nat t) (snd w).
  Lemma St_near t k w w' : (3 <= t)%nat -> St t w -> St (t + k) w' -> Wrel (Z.of_nat k) w w'.
  Proof.
    intros Ht (A & B & C) (A' & B' & C'). split.
    - split; [unfold same_static in *; intuition congruence|]. intros q. rewrite B, B'. destruct (past (fst s0) q); [|reflexivity]. cbn. f_equal.
      apply (firstn_less 3 t); [exact Ht|apply grown_far].
    - rewrite Nat2Z.inj_add in C'. eapply after_near; [| |exact C|exact C']; lia.
  Qed.
  Lemma St_round bl reset req t w w1 w2 c d : blocks_labs bl = M -> St t w -> onm (run_blocks bl) w = (w1, Ok c) ->
    ond (fun m => build_from_anc (meas_target m) reset req) w1 = (w2, Ok d) -> St (S t) w2.
  Proof.
    intros EM (A & B & C) H1 H2. unfold onm in H1. destruct (run_blocks bl (fst w)) as [m1 r] eqn:E. injection H1 as <- ->.
    unfold ond in H2. cbn [fst snd] in H2. destruct (build_from_anc _ reset req (snd w)) as [d2 r] eqn:E2. injection H2 as <- ->.
    assert (K := km_blocks bl (fst w)). rewrite E in K. cbn in K.
    apply blocks_adds in E. rewrite EM in E. assert (P := past_adds _ _ _ E). split; [eapply same_static_trans; eauto|]. split; cbn.
    - intros q. rewrite P, B. destruct (past (fst s0) q); reflexivity.
    - replace (Z.pos (Pos.of_succ_nat t)) with (Z.of_nat t + 1) by lia. eapply after_round; eauto.
  Qed.
End Rounds.
