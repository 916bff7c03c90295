(** Proofs for Props_Ideal.v (C85): the experiments. *)
From Coq Require Import QArith Qcanon.
From Verif Require Import Base StimM SetupM MatM NoiseM LayoutM DetM BlockM ExpM MergeM SpecNoise SpecFresh SpecIdeal Lib FreshP IdealP.
Open Scope Z_scope.
Notation om := (osim Nm).
Notation ow := (osim Nw).
Definition same_silent (c c0 : circuit) : Prop := c = c0 /\ silent c.

Lemma ow_onm {A} (Q : A -> A -> Prop) (x y : ST model A) : om Q x y -> ow Q (onm x) (onm y).
Proof.
  intros H [m d] [m' d'] [Hm E0]. cbn [fst snd] in *. subst d'. specialize (H m m' Hm). unfold onm. cbn [fst snd]. destruct (x m) as [m1 [a|]]; [|exact I].
  cbn [fst snd] in *. destruct H as (b & E & N & HQ). destruct (y m') as [m1' r']. cbn [fst snd] in *. subst r'.
  exists b. split; [reflexivity|split; [|exact HQ]]. split; [exact N|reflexivity].
Qed.
Lemma ow_ond {A} (Q : A -> A -> Prop) (x : model -> ST detectors A) : (forall m m', Nm m m' -> x m' = x m) ->
  (forall m d d1 a, x m d = (d1, Ok a) -> Q a a) -> ow Q (ond x) (ond x).
Proof.
  intros H H1 [m d] [m' d'] [Hm E0]. cbn [fst snd] in *. subst d'. unfold ond. cbn [fst snd]. rewrite (H m m' Hm).
  destruct (x m d) as [d1 [a|]] eqn:E; [|exact I]. cbn [fst snd].
  exists a. split; [reflexivity|split; [split; [exact Hm|reflexivity]|eauto]].
Qed.
Lemma target_same m m' : Nm m m' -> meas_target m' = meas_target m.
Proof. destruct m, m'. intros (_ & _ & O & N). cbn in O, N. subst. reflexivity. Qed.
Lemma ow_state {A} (x : ST detectors A) : ow (fun a b => a = b) (ond (fun _ => x)) (ond (fun _ => x)).
Proof. apply ow_ond; auto. Qed.
Lemma mk_nm g t a i : mk g t a = Ok i -> nm i = g.
Proof. unfold mk. destruct (instr_ok _); [now intros [= <-]|discriminate]. Qed.
Lemma det_nm d g ancs t x i : det_instr d g ancs t x = Ok i -> nm i = DETECTOR.
Proof.
  unfold det_instr. intros E. apply bind_ok in E as (recs & _ & E). apply bind_ok in E as (cs & _ & E). now apply mk_nm in E.
Qed.
Lemma dets_silent d g ancs t l r : mapM (det_instr d g ancs t) l = Ok r -> silent (appends [] r).
Proof.
  intros E. apply silent_appends; [constructor|]. apply mapM_Forall2 in E. induction E as [|a b l r E _ IH]; constructor; [|exact IH].
  now rewrite (det_nm _ _ _ _ _ _ E).
Qed.
Lemma anc_silent g reset req d d1 c : build_from_anc g reset req d = (d1, Ok c) -> silent c.
Proof.
  unfold build_from_anc. intros H. do 4 (apply sbind_ok in H as (? & ? & _ & H)). apply sbind_ok in H as (? & r & H1 & H).
  apply sread_ok in H1 as [_ H1]. apply sbind_ok in H as (? & ? & _ & H). apply sret_ok in H as [_ <-]. eapply dets_silent; eauto.
Qed.
Lemma data_silent g sup reset recon req d d1 c : build_from_data g sup reset recon req d = (d1, Ok c) -> silent c.
Proof.
  unfold build_from_data. destruct (strict_superset _ _); [intros [=]|]. intros H.
  do 4 (apply sbind_ok in H as (? & ? & _ & H)). apply sbind_ok in H as (? & r & H1 & H).
  apply sread_ok in H1 as [_ H1]. apply sbind_ok in H as (? & ? & _ & H). apply sret_ok in H as [_ <-]. eapply dets_silent; eauto.
Qed.
Lemma ow_anc reset req : ow pure (ond (fun m => build_from_anc (meas_target m) reset req)) (ond (fun m => build_from_anc (meas_target m) reset req)).
Proof. apply ow_ond; [intros m m' H; now rewrite (target_same m m' H)|]. intros m d d1 c E. eapply pure_silent, anc_silent; eauto. Qed.
Lemma ow_data sup reset recon req : ow pure (ond (fun m => build_from_data (meas_target m) sup reset recon req))
  (ond (fun m => build_from_data (meas_target m) sup reset recon req)).
Proof. apply ow_ond; [intros m m' H; now rewrite (target_same m m' H)|]. intros m d d1 c E. eapply pure_silent, data_silent; eauto. Qed.
Lemma ow_run l : plains l -> ow pure (onm (run_blocks l)) (onm (run_blocks l)).
Proof. intros H. apply ow_onm. now apply om_blocks. Qed.
Lemma coords_silent m cs c : NoiseM.qubit_coords m cs = Ok c -> silent c.
Proof.
  unfold NoiseM.qubit_coords. destruct (strict_superset _ _); [discriminate|]. assert (N : silent []) by constructor. revert N. generalize (@nil instr) as a.
  induction cs as [|kv cs IH]; intros a N E; simpl in E; [now injection E as <-|]. apply bind_ok in E as (a1 & E1 & E).
  apply (IH a1); [|exact E]. apply bind_ok in E1 as (i & _ & [= <-]). now apply silent_append.
Qed.
Lemma block_coords_silent ls m c : block_coords ls m = Ok c -> silent c.
Proof.
  unfold block_coords. intros E. apply bind_ok in E as (cs & E & [= <-]). apply mapM_Forall2 in E.
  induction E as [|l c ls cs E _ IH]; simpl; [constructor|]. apply silent_app; [|exact IH]. apply bind_ok in E as (d & _ & E).
  now apply coords_silent in E.
Qed.

Ltac step :=
  match goal with
  | |- osim _ _ (sbind (slift _) _) _ => apply (osim_bind _ (fun a b => a = b)); [apply osim_lift|intros ? ? <-]
  | |- osim _ _ (sbind (ond (fun _ => activate _)) _) _ => apply (osim_bind _ (fun a b => a = b)); [apply ow_state|intros ? ? <-]
  | |- osim _ _ (sbind (ond (fun _ => deactivate _)) _) _ => apply (osim_bind _ (fun a b => a = b)); [apply ow_state|intros ? ? <-]
  | |- osim _ _ (sbind (ond (fun _ => update_from_dict _)) _) _ => apply (osim_bind _ (fun a b => a = b)); [apply ow_state|intros ? ? <-]
  | |- osim _ _ (sfail _) _ => apply osim_fail
  | |- osim _ _ (sret _) _ => apply osim_ret; repeat apply pure_app; assumption
  | |- osim _ _ (ond (fun m => build_from_anc _ _ _)) _ => apply ow_anc
  | |- osim _ _ (ond (fun m => build_from_data _ _ _ _ _)) _ => apply ow_data
  | |- osim _ _ (onm (run_blocks _)) _ => apply ow_run
  | |- osim _ _ (if ?b then _ else _) _ => destruct b
  | |- osim _ _ (let _ := _ in _) _ => cbv zeta
  end.
Ltac circ := apply (osim_bind _ pure); [|intros ? ? ?].

Lemma ow_start ls : ow pure (exp_start ls) (exp_start ls).
Proof.
  unfold exp_start. apply (osim_bind _ (fun a b => a = b)).
  { apply ow_onm. intros m m' (K & I0 & O & N). cbn. exists tt. split; [reflexivity|split; [|reflexivity]]. unfold Nm, new_circuit. cbn. now rewrite I0. }
  intros _ _ _. apply (osim_bind _ (fun a b => a = b)); [apply (ow_state (fun d => (det_new d, Ok tt)))|intros _ _ _].
  apply ow_onm, osim_read. intros m m' c (_ & I0 & _) E. exists c. split; [rewrite <- E; unfold block_coords, NoiseM.qubit_coords; now rewrite I0|]. eapply pure_silent, block_coords_silent; eauto.
Qed.
Lemma ow_init_with it l di rot : (forall l di rot, plains (it l di rot)) -> ow pure (init_with it l di rot) (init_with it l di rot).
Proof. intros H. unfold init_with. repeat step. apply H. Qed.
Lemma ow_round it l reset dets : (forall l b, plains (it l b)) -> ow pure (qec_round it l reset dets) (qec_round it l reset dets).
Proof. intros H. unfold qec_round. circ; [step; apply H|]. repeat step. circ; repeat step. Qed.
Lemma ow_ground ord l dets : ow pure (google_qec_round ord l dets) (google_qec_round ord l dets).
Proof. unfold google_qec_round. circ; [step; apply pl_google|]. circ; repeat step. Qed.
Lemma ow_end l rot reset req : ow pure (log_meas_end l rot reset req) (log_meas_end l rot reset req).
Proof.
  unfold log_meas_end. repeat step. circ; [step|]. apply (osim_bind _ (fun i j => i = j /\ nm i = OBSERVABLE_INCLUDE)).
  - apply ow_onm, osim_read. intros m m' o Hm E. exists o. split; [rewrite <- E; unfold observable; now rewrite (target_same m m' Hm)|split; [reflexivity|]].
    unfold observable in E. apply bind_ok in E as (? & _ & E). apply bind_ok in E as (? & _ & E). apply bind_ok in E as (? & _ & E). now apply mk_nm in E.
  - intros o o' [<- N]. step. step. apply osim_ret. rewrite !append_last by now rewrite N. apply pure_app; [assumption|].
    apply pure_silent. constructor; [now rewrite N|constructor].
Qed.
Lemma ow_meas_with it l rot reset dets : (forall l b, plains (it l b)) -> ow pure (log_meas_with it l rot reset dets) (log_meas_with it l rot reset dets).
Proof. intros H. unfold log_meas_with. repeat step. circ; [step; apply H|]. circ; [apply ow_end|]. step. Qed.
Lemma ow_meas_xzzx ord l rot reset dets : ow pure (log_meas_xzzx ord l rot reset dets) (log_meas_xzzx ord l rot reset dets).
Proof. unfold log_meas_xzzx. step; [step|]. apply ow_meas_with. apply pl_meas_xzzx. Qed.
Lemma ow_gmeas ord l rot dets : ow pure (google_log_meas ord l rot dets) (google_log_meas ord l rot dets).
Proof. unfold google_log_meas. repeat step. circ; [step; apply pl_gmeas|]. circ; [step|]. circ; [apply ow_end|]. step. Qed.
Lemma ow_trans p it l : (forall l, plains (it l)) -> ow pure (log_trans p it l) (log_trans p it l).
Proof. intros H. unfold log_trans. repeat step. apply H. Qed.
Lemma pure_nil : pure [] []. Proof. repeat split. Qed.
Lemma ow_rounds ordt round l rot gauge dets n : (forall r ds, ow pure (round r ds) (round r ds)) ->
  ow pure (exp_rounds ordt round l rot gauge dets n) (exp_rounds ordt round l rot gauge dets n).
Proof. intros H. unfold exp_rounds. apply osim_fold; [|apply pure_nil]. intros b d a Hbd. step. circ; [apply H|]. step. Qed.
Lemma ow_memory_with ordt init round meas l R di rot reset dets gauge :
  (forall l di rot, ow pure (init l di rot) (init l di rot)) -> (forall r l b d, ow pure (round r l b d) (round r l b d)) ->
  (forall l a b d, ow pure (meas l a b d) (meas l a b d)) ->
  ow pure (memory_with ordt init round meas l R di rot reset dets gauge) (memory_with ordt init round meas l R di rot reset dets gauge).
Proof.
  intros H1 H2 H3. unfold memory_with. repeat step. circ; [apply ow_start|]. circ; [apply H1|].
  circ; [apply ow_rounds; intros; apply H2|]. circ; [apply H3|]. step.
Qed.
Lemma ow_memory ordt k l R di rot reset dets gauge :
  ow pure (memory ordt k l R di rot reset dets gauge) (memory ordt k l R di rot reset dets gauge).
Proof.
  assert (I1 : forall l di rot, ow pure (init_qubits (ordt 1%nat) l di rot) (init_qubits (ordt 1%nat) l di rot)) by (intros; apply ow_init_with, pl_init).
  assert (I2 : forall l di rot, ow pure (init_qubits_xzzx (ordt 1%nat) l di rot) (init_qubits_xzzx (ordt 1%nat) l di rot)) by (intros; apply ow_init_with, pl_init_xzzx).
  assert (M1 : forall l a b d, ow pure (log_meas l a b d) (log_meas l a b d)) by (intros; apply ow_meas_with, pl_meas).
  destruct k.
  1-3: apply ow_memory_with; [exact I1| |exact M1].
  4-5: apply ow_memory_with; [exact I2| |intros; apply ow_meas_xzzx].
  all: intros r l0 b d; apply ow_round; intros l1 b1.
  1-2: apply pl_css.
  1,3: unfold css_pipe_round, xzzx_pipe_round; apply pl_pipe.
  apply pl_xzzx.
Qed.
Lemma ow_google ordt l R di rot dets gauge : ow pure (memory_google ordt l R di rot dets gauge) (memory_google ordt l R di rot dets gauge).
Proof.
  unfold memory_google. repeat step. circ; [apply ow_start|]. circ; [apply ow_init_with, pl_init_xzzx|]. repeat step.
  - circ; [apply ow_gmeas|]. step.
  - circ; [apply ow_rounds; intros; apply ow_ground|]. circ; [apply ow_gmeas|]. step.
Qed.
Lemma ow_repeated_with ordt it gate swaps l n R di rot reset dets gauge : (forall o l b, plains (it o l b)) -> (forall t l, ow pure (gate t l) (gate t l)) ->
  ow pure (repeated_with ordt it gate swaps l n R di rot reset dets gauge) (repeated_with ordt it gate swaps l n R di rot reset dets gauge).
Proof.
  intros Hi H. unfold repeated_with. repeat step. circ; [apply ow_start|]. circ; [apply ow_init_with, pl_init|]. step. circ; [apply ow_round, Hi|]. cbv zeta.
  circ.
  { apply osim_fold; [|apply pure_nil]. intros ? ? ? ?. cbv zeta. circ; [apply H|]. circ; [|step].
    apply osim_fold; [|apply pure_nil]. intros ? ? ? ?. circ; [apply ow_round, Hi|]. step. }
  circ; [apply ow_meas_with, pl_meas|]. step.
Qed.
Lemma ow_repeated ordt ordp k l n R di rot reset dets gauge :
  ow pure (repeated ordt ordp k l n R di rot reset dets gauge) (repeated ordt ordp k l n R di rot reset dets gauge).
Proof.
  destruct k; apply ow_repeated_with.
  1,3,5,7: intros o l0 b.
  1,3,4: apply pl_css.
  1: unfold css_pipe_round; apply pl_pipe.
  1-3: intros t l0; apply ow_trans; intros l1; apply pl_s.
  intros t l0; apply ow_trans; intros l1; apply pl_h.
Qed.
Lemma C85_lemma fa e m m' d m1 d1 c : one_layout e -> kind m' = Noiseless -> inds m' = inds m ->
  build fa e (m, d) = ((m1, d1), Ok c) ->
  exists m2 c0, build fa e (m', d) = ((m2, d1), Ok c0) /\ noise_of c0 = [] /\ ideal c = ideal c0 /\ measured c = measured c0 /\
    order m2 = order m1 /\ num m2 = num m1.
Proof.
  intros He K I0 E.
  assert (H : ow pure (build fa e) (build fa e)) by (destruct e; [apply ow_memory|apply ow_google|apply ow_repeated|destruct He]).
  set (m'' := {| kind := Noiseless; stp := stp m'; inds := inds m; order := order m; num := num m |}).
  assert (N : Nw (m, d) (m'', d)) by (repeat split).
  specialize (H (m, d) (m'', d) N). rewrite E in H. cbn [fst snd] in H. destruct H as (c0 & E0 & Nw1 & P1 & P2 & P3).
  assert (Al : alike (m'', d) (m', d)) by (split; [unfold m''; repeat split; cbn; congruence|repeat split]).
  destruct (agrees_build fa e (m'', d) (m', d) Al) as [A B]. rewrite E0 in A, B. specialize (B (ex_intro _ c0 eq_refl)).
  destruct Nw1 as [(_ & _ & O1 & N1) D1]. rewrite B in O1, N1, D1.
  exists (fst (fst (build fa e (m', d)))), c0. split.
  - rewrite (surjective_pairing (build fa e (m', d))), <- A. cbn [fst snd] in *. rewrite (surjective_pairing (fst (build fa e (m', d)))). cbn [fst snd].
    now rewrite D1.
  - auto.
Qed.
Lemma C85_two_lemma fa e m m' d c c' : one_layout e -> inds m' = inds m ->
  snd (build fa e (m, d)) = Ok c -> snd (build fa e (m', d)) = Ok c' ->
  ideal c = ideal c' /\ measured c = measured c' /\ snd (fst (build fa e (m, d))) = snd (fst (build fa e (m', d))).
Proof.
  intros He I0 E E'.
  destruct (build fa e (m, d)) as [[m1 d1] r] eqn:B. cbn [snd] in E. subst r.
  destruct (build fa e (m', d)) as [[m1' d1'] r] eqn:B'. cbn [snd] in E'. subst r.
  destruct (C85_lemma fa e m (as_noiseless m) d m1 d1 c He eq_refl eq_refl B) as (m2 & c0 & X & _ & Y & Z & _).
  destruct (C85_lemma fa e m' (as_noiseless m) d m1' d1' c' He eq_refl (eq_sym I0) B') as (m2' & c0' & X' & _ & Y' & Z' & _).
  rewrite X in X'. injection X' as <- <- <-. cbn [fst snd]. split; [congruence|]. split; congruence.
Qed.
