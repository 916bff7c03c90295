(** Memory experiments on generated layouts return a circuit; those of models whose
    idling needs a duration do not. *)
From Coq Require Import QArith Qcanon.
From Verif Require Import Base Lib StimM SetupM NoiseM SpecNoise NoiseP LayoutM SpecLayout LayoutP LayoutP2 DetM SpecDet DetP
  GenM GenP SpecGen GeomP RotP RotP2 UnrotP BlockM ExpM SpecTrack TrackP ActP RoundP OneP LiftP ExpP ExpP3 ExpP5 SpecOk OkP OkP2 OkP3 OkP4.
Open Scope Z_scope.
Local Opaque rot_ps unrot_ps.

Section Planar.
  Context (l : layout) (shifts : list (Z * Z)) (dirn : Z * Z -> string) (pt : Qc * Qc) (ps : list placed).
  Hypothesis P : planar l shifts dirn pt ps.
  Hypothesis Hs : NoDup shifts.
  Hypothesis Ho : l_order l = rot_order \/ l_order l = unrot_order.
  Hypothesis Logs : forall rot : bool, exists lq qs, first_log l = Ok lq /\ dget lq (if rot then l_logx l else l_logz l) = Some qs /\ incl qs (labs ps KD).
  Context (ordt : nat -> nat -> list string -> list string).
  Hypothesis Hord : forall t k s, Permutation (ordt t k s) s.
  Context (di : dict string Z) (dets : option (list string)) (m : model) (d : detectors).
  Hypothesis F : fits l di dets m d.
  Let qi := inds m.
  Lemma fit_all : incl (map pl_lab ps) (dkeys qi).
  Proof. rewrite <- (pn_nodes _ _ _ _ _ P). apply (ft_qubits _ _ _ _ _ F). Qed.
  Lemma fit_wf : SpecNoise.wf_inds qi.
  Proof. exact (ft_inds _ _ _ _ _ F). Qed.
  Lemma fit_ancs : incl (ancs ps) (labels d) /\ forall ds, dets = Some ds -> incl ds (ancs ps).
  Proof. destruct (ft_labels _ _ _ _ _ F) as (a & E & H). rewrite (pn_anc _ _ _ _ _ P) in E. injection E as <-. exact H. Qed.
  Lemma nodup_ancs : NoDup (ancs ps).
  Proof. eapply ancs_nodup; exact P. Qed.

  Lemma kind_total k R rot reset gauge : 0 <= R -> l_code l = (match k with UnrotCss => "unrotated_surface_code" | _ => "rotated_surface_code" end)%string ->
    returns (memory ordt k l R di rot reset dets gauge (m, d)).
  Proof.
    intros HR Hc. pose proof fit_all as Hq. pose proof fit_wf as W. destruct fit_ancs as [Ka Kd]. destruct (made_ok _ (ft_made _ _ _ _ _ F)) as [Nl Cl].
    pose proof (pn_anc _ _ _ _ _ P) as Ea. pose proof (pn_data _ _ _ _ _ P) as Ed.
    assert (Ia : incl (ancs ps) (dkeys qi)) by (eapply in_ancs; eauto). assert (Id : incl (labs ps KD) (dkeys qi)) by (eapply in_kind; eauto).
    assert (Sb := stab_ok l shifts dirn pt ps P Hs). assert (Co := coords_ok l shifts dirn pt ps P qi Hq).
    assert (Ini : forall it, allfine qi (it l di rot) -> ok_blocks (it l di rot) -> forall c0, tracked qi (new_circuit m) [] c0 ->
      exists w' c, init_with it l di rot (new_circuit m, det_new d) = (w', Ok c) /\ st qi d (ancs ps) 0 w').
    { intros it A B c0 T. eapply init_total; eauto using nodup_ancs. exact (ft_ready _ _ _ _ _ F). }
    assert (Qu : forall bl, Forall quiet bl -> ok_blocks bl) by (intros bl H; now apply quiet_blocks).
    assert (Ic : forall c0, tracked qi (new_circuit m) [] c0 -> exists w' c, init_qubits (ordt 1%nat) l di rot (new_circuit m, det_new d) = (w', Ok c) /\ st qi d (ancs ps) 0 w').
    { apply Ini; [|apply Qu, init_measures]. eapply init_fine; eauto. apply (ft_init _ _ _ _ _ F). }
    assert (Rd : forall (itr : nat -> layout -> bool -> blocks), (forall r, allfine qi (itr r l reset)) -> (forall r, measures_only (itr r l reset) (ancs ps)) ->
      forall r ds w, st qi d (ancs ps) r w -> incl ds (ancs ps) -> exists w' c, qec_round (itr r) l reset (Some ds) w = (w', Ok c) /\ st qi d (ancs ps) (S r) w').
    { intros itr A B r ds w S I. eapply round_step; eauto. split; eapply only_ok; eauto. }
    assert (Me : forall it, allfine qi (it l rot) -> measures_only (it l rot) (labs ps KD) ->
      forall ds n w, st qi d (ancs ps) n w -> incl ds (ancs ps) -> exists w' c, log_meas_with it l rot reset (Some ds) w = (w', Ok c)).
    { intros it A B ds n w S I. eapply meas_total; eauto. split; eapply only_ok; eauto. }
    assert (Mc : forall ds n w, st qi d (ancs ps) n w -> incl ds (ancs ps) -> exists w' c, log_meas l rot reset (Some ds) w = (w', Ok c)).
    { apply Me; [eapply log_meas_fine; eauto|now apply log_measures]. }
    assert (Xz : l_code l = "rotated_surface_code"%string ->
      (forall c0, tracked qi (new_circuit m) [] c0 -> exists w' c, init_qubits_xzzx (ordt 1%nat) l di rot (new_circuit m, det_new d) = (w', Ok c) /\ st qi d (ancs ps) 0 w') /\
      (forall ds n w, st qi d (ancs ps) n w -> incl ds (ancs ps) -> exists w' c, log_meas_xzzx (ordt 2%nat) l rot reset (Some ds) w = (w', Ok c))).
    { intros C. split.
      - apply Ini; [|apply Qu, init_xzzx_measures]. eapply init_xzzx_fine; eauto. apply (ft_init _ _ _ _ _ F).
      - unfold log_meas_xzzx. rewrite C, eqb_refl. cbn [negb]. apply Me; [eapply log_xzzx_fine; eauto|now apply log_xzzx_measures]. }
    destruct k; cbn [memory]; unfold memory_rot_css, memory_unrot_css, memory_css_pipelined, memory_xzzx, memory_xzzx_pipelined, memory_css, memory_xzzx_with;
      apply (with_total qi W d l (ancs ps) (labs ps KD) Ea ordt Hord Sb Logs Co m eq_refl); auto; try (apply (Xz Hc)).
    - apply (Rd (fun r => css_round (ordt (3 + r)%nat) "rotated_surface_code")); intros r; [eapply css_fine; eauto|now apply css_measures].
    - apply (Rd (fun r => css_round (ordt (3 + r)%nat) "unrotated_surface_code")); intros r; [eapply css_fine; eauto|now apply css_measures].
    - apply (Rd (fun r => css_pipe_round (ordt (3 + r)%nat))); intros r; [eapply css_pipe_fine; eauto|now apply pipe_measures].
    - apply (Rd (fun r => xzzx_round (ordt (3 + r)%nat))); intros r; [eapply xzzx_fine; eauto|now apply xzzx_measures].
    - apply (Rd (fun r => xzzx_pipe_round (ordt (3 + r)%nat))); intros r; [eapply xzzx_pipe_fine; eauto|now apply pipe_measures].
  Qed.
  Lemma google_returns R rot gauge : 1 <= R -> l_code l = "rotated_surface_code"%string -> returns (memory_google ordt l R di rot dets gauge (m, d)).
  Proof.
    intros HR Hc. pose proof fit_all as Hq. pose proof fit_wf as W. destruct fit_ancs as [Ka Kd]. destruct (made_ok _ (ft_made _ _ _ _ _ F)) as [Nl Cl].
    pose proof (pn_anc _ _ _ _ _ P) as Ea. pose proof (pn_data _ _ _ _ _ P) as Ed.
    assert (Ia : incl (ancs ps) (dkeys qi)) by (eapply in_ancs; eauto). assert (Id : incl (labs ps KD) (dkeys qi)) by (eapply in_kind; eauto).
    assert (Sb := stab_ok l shifts dirn pt ps P Hs). assert (Co := coords_ok l shifts dirn pt ps P qi Hq).
    apply (google_total qi W d l (ancs ps) (labs ps KD) Ea Ed Ia Id nodup_ancs ordt Hord Sb Logs Co Nl Ka Cl m eq_refl (ft_ready _ _ _ _ _ F)); auto.
    intros ord Ho'. split; [eapply init_xzzx_fine; eauto; apply (ft_init _ _ _ _ _ F)|]. split; [apply quiet_blocks, init_xzzx_measures|].
    split; [eapply google_fine; eauto|eapply google_meas_fine; eauto].
  Qed.
End Planar.

Lemma C73_memory_lemma ordt k a l R di rot reset dets gauge w : (forall t i s, Permutation (ordt t i s) s) -> 1 <= ga_dx a -> 1 <= ga_dz a ->
  generates k a = Ok l -> fits l di dets (fst w) (snd w) -> 0 <= R -> returns (memory ordt k l R di rot reset dets gauge w).
Proof.
  intros Ho Hx Hz G F HR. destruct w as [m d]. cbn [fst snd] in F.
  assert (Rot : rot_surface_code_rectangle a = Ok l -> l_code l = "rotated_surface_code"%string /\
    forall k, l_code l = (match k with UnrotCss => "unrotated_surface_code" | _ => "rotated_surface_code" end)%string -> returns (memory ordt k l R di rot reset dets gauge (m, d))).
  { intros E. destruct (rot_planar a ltac:(lia) ltac:(lia)) as (l' & r & E' & _ & _ & P & L1 & L2 & L3 & _ & _ & L6 & L7). rewrite E in E'. injection E' as <-.
    split; [exact L7|]. intros k' Hc. eapply kind_total; eauto; [repeat constructor; cbn; intuition congruence|].
    intros b. unfold first_log. rewrite L1. exists (ga_log a). destruct b; rewrite ?L2, ?L3; eexists; (split; [reflexivity|]); cbn [dget]; rewrite eqb_refl; (split; [reflexivity|]);
      [apply logx_data|apply logz_data]; lia. }
  destruct k; cbn [generates] in G; try (destruct (Rot G) as [Hc H]; apply H; exact Hc). clear Rot.
  destruct (unrot_planar a ltac:(lia) ltac:(lia)) as (l' & r & E' & _ & _ & P & L1 & L2 & L3 & _ & _ & L6 & L7). rewrite G in E'. injection E' as <-.
  eapply kind_total; eauto; [repeat constructor; cbn; intuition congruence|].
  intros b. unfold first_log. rewrite L1. exists (ga_log a). destruct b; rewrite ?L2, ?L3; eexists; (split; [reflexivity|]); cbn [dget]; rewrite eqb_refl; (split; [reflexivity|]);
      [apply ulogx_data|apply ulogz_data]; lia.
Qed.
Lemma C73_google_lemma ordt a l R di rot dets gauge w : (forall t i s, Permutation (ordt t i s) s) -> 1 <= ga_dx a -> 1 <= ga_dz a ->
  rot_surface_code_rectangle a = Ok l -> fits l di dets (fst w) (snd w) -> 1 <= R -> returns (memory_google ordt l R di rot dets gauge w).
Proof.
  intros Ho Hx Hz E F HR. destruct w as [m d]. cbn [fst snd] in F.
  destruct (rot_planar a ltac:(lia) ltac:(lia)) as (l' & r & E' & _ & _ & P & L1 & L2 & L3 & _ & _ & L6 & L7). rewrite E in E'. injection E' as <-.
  eapply google_returns; eauto; [repeat constructor; cbn; intuition congruence|].
  intros b. unfold first_log. rewrite L1. exists (ga_log a). destruct b; rewrite ?L2, ?L3; eexists; (split; [reflexivity|]); cbn [dget]; rewrite eqb_refl; (split; [reflexivity|]);
      [apply logx_data|apply logz_data]; lia.
Qed.

(** * Arguments that raise *)
Lemma rounds_raise ordt k l R di rot reset dets gauge w : R < 0 -> memory ordt k l R di rot reset dets gauge w = (w, Err ValueError).
Proof. intros H. destruct k; cbn [memory]; unfold memory_rot_css, memory_unrot_css, memory_css_pipelined, memory_xzzx, memory_xzzx_pipelined, memory_css, memory_xzzx_with, memory_with; now replace (R <? 0) with true by lia. Qed.
Lemma google_raise ordt l R di rot dets gauge w : R <= 0 -> memory_google ordt l R di rot dets gauge w = (w, Err ValueError).
Proof. intros H. unfold memory_google. now replace (R <=? 0) with true by lia. Qed.

(* idling without a duration *)
Lemma idle_raises m qs : timed m -> snd (apply OIDLE qs m) = Err TypeError.
Proof. unfold timed, apply. destruct (NoiseM.kind m); intros []; reflexivity. Qed.
Lemma timed_static m m' : same_static m m' -> timed m -> timed m'.
Proof. intros (A & _). unfold timed. now rewrite A. Qed.
Lemma block_idle b : forall m m' c, run_block b m = (m', Ok c) -> timed m -> forall qs, ~ In (Call OIDLE qs) b.
Proof.
  induction b as [|x b IH]; intros m m' c H T qs Hi; [destruct Hi|]. cbn [run_block] in H. apply sbind_ok in H as (m1 & y & H1 & H). apply sbind_ok in H as (m2 & z & H2 & H).
  destruct Hi as [->|Hi].
  - cbn [run_call] in H1. pose proof (idle_raises m qs T) as E. rewrite H1 in E. discriminate E.
  - eapply IH; eauto. destruct x as [o qs'|]; cbn [run_call] in H1; [|unfold sret in H1; injection H1 as <- _; exact T]. eapply timed_static; [eapply apply_static; eauto|exact T].
Qed.
Lemma run_block_static b : forall m m' c, run_block b m = (m', Ok c) -> same_static m m'.
Proof.
  induction b as [|x b IH]; intros m m' c H; cbn [run_block] in H; [apply sret_ok in H as [-> _]; apply same_static_refl|].
  apply sbind_ok in H as (m1 & y & H1 & H). apply sbind_ok in H as (m2 & z & H2 & H). apply sret_ok in H as [-> _].
  eapply static_trans; [|eapply IH; eauto]. destruct x as [o qs'|]; cbn [run_call] in H1; [eapply apply_static; eauto|]. unfold sret in H1. injection H1 as <- _. apply same_static_refl.
Qed.
Lemma blocks_idle bl : forall m m' c, run_blocks bl m = (m', Ok c) -> timed m -> forall b qs, In (Ok b) bl -> ~ In (Call OIDLE qs) b.
Proof.
  induction bl as [|x bl IH]; intros m m' c H T b qs Hb; [destruct Hb|]. cbn [run_blocks] in H. apply sbind_ok in H as (m0 & b' & H0 & H). unfold slift in H0. injection H0 as <- ->.
  apply sbind_ok in H as (m1 & y & H1 & H). apply sbind_ok in H as (m2 & z & H2 & H). destruct Hb as [[= ->]|Hb]; [eapply block_idle; eauto|].
  eapply IH; eauto. eapply timed_static; [eapply run_block_static; eauto|exact T].
Qed.
Lemma init_raises it l di rot w : timed (fst w) -> ((exists e, it l di rot = [Err e]) \/ exists b qs, In (Ok b) (it l di rot) /\ In (Call OIDLE qs) b) ->
  raises (init_with it l di rot w).
Proof.
  intros T H. destruct (init_with it l di rot w) as [w' [c|e]] eqn:E; [|exists e; reflexivity]. exfalso. unfold init_with in E.
  apply sbind_ok in E as (w1 & ancs & H1 & E). unfold slift in H1. injection H1 as <- _. apply sbind_ok in E as (w2 & u & H2 & E). apply ond_ok in H2 as (d2 & _ & ->).
  apply onm_ok in E as (m3 & E & _). cbn [fst snd] in E. destruct H as [[e H]|(b & qs & H & H')].
  - rewrite H in E. cbn [run_blocks] in E. unfold sbind, slift in E. discriminate E.
  - exact (blocks_idle _ _ _ _ E T b qs H H').
Qed.
Lemma init_blocks_idle ord l di rot : (exists e, init_blocks ord l di rot = [Err e]) \/ exists b qs, In (Ok b) (init_blocks ord l di rot) /\ In (Call OIDLE qs) b.
Proof.
  unfold init_blocks. destruct (get_role l "anc") as [ancs|e]; cbn [bind generator]; [|left; eauto]. destruct (get_role l "data") as [data|e]; cbn [bind generator]; [|left; eauto].
  right. eexists _, _. split; [apply in_or_app; left; right; right; left; reflexivity|]. apply in_or_app. right. left. reflexivity.
Qed.
Lemma init_xzzx_idle ord l di rot : (exists e, init_xzzx_blocks ord l di rot = [Err e]) \/ exists b qs, In (Ok b) (init_xzzx_blocks ord l di rot) /\ In (Call OIDLE qs) b.
Proof.
  unfold init_xzzx_blocks. destruct (negb _); cbn [generator]; [left; eauto|]. destruct (get_role l "anc") as [ancs|e]; cbn [bind generator]; [|left; eauto]. destruct (get_role l "data") as [data|e]; cbn [bind generator]; [|left; eauto].
  right. eexists _, _. split; [apply in_or_app; left; right; right; left; reflexivity|]. apply in_or_app. right. left. reflexivity.
Qed.
Lemma start_static ls w w' c : exp_start ls w = (w', Ok c) -> timed (fst w) -> timed (fst w').
Proof.
  intros H T. unfold exp_start in H. apply sbind_ok in H as (w1 & u & H1 & H). apply onm_ok in H1 as (m1 & H1 & ->). injection H1 as <- _.
  apply sbind_ok in H as (w2 & u2 & H2 & H). apply ond_ok in H2 as (d2 & H2 & ->). apply onm_ok in H as (m3 & H & ->). unfold sread in H. injection H as <- _. exact T.
Qed.
Lemma timed_raises ordt k l R di rot reset dets gauge w : timed (fst w) -> raises (memory ordt k l R di rot reset dets gauge w).
Proof.
  intros T. destruct (memory ordt k l R di rot reset dets gauge w) as [w' [c|e]] eqn:E; [|exists e; reflexivity]. exfalso.
  assert (X : forall init round meas, memory_with ordt init round meas l R di rot reset dets gauge w = (w', Ok c) -> (forall w, timed (fst w) -> raises (init l di rot w)) -> False).
  { clear E. intros init round meas E Hi. unfold memory_with in E. destruct (R <? 0); [discriminate|]. apply sbind_ok in E as (w1 & ds & H1 & E). unfold slift in H1. injection H1 as <- _.
    apply sbind_ok in E as (w2 & c0 & H2 & E). apply sbind_ok in E as (w3 & c1 & H3 & E). destruct (Hi w2) as [e He]; [eapply start_static; eauto|]. rewrite H3 in He. discriminate. }
  destruct k; cbn [memory] in E; unfold memory_rot_css, memory_unrot_css, memory_css_pipelined, memory_xzzx, memory_xzzx_pipelined, memory_css, memory_xzzx_with in E; apply X in E; auto;
    intros v Tv; apply init_raises; auto using init_blocks_idle, init_xzzx_idle.
Qed.
Lemma timed_google_raises ordt l R di rot dets gauge w : timed (fst w) -> raises (memory_google ordt l R di rot dets gauge w).
Proof.
  intros T. destruct (memory_google ordt l R di rot dets gauge w) as [w' [c|e]] eqn:E; [|exists e; reflexivity]. exfalso.
  unfold memory_google in E. destruct (R <=? 0); [discriminate|]. apply sbind_ok in E as (w1 & ds & H1 & E). unfold slift in H1. injection H1 as <- _.
  apply sbind_ok in E as (w2 & c0 & H2 & E). apply sbind_ok in E as (w3 & c1 & H3 & E). destruct (init_raises (init_xzzx_blocks (ordt 1%nat)) l di rot w2) as [e He];
    [eapply start_static; eauto|apply init_xzzx_idle|]. unfold init_qubits_xzzx in H3. rewrite H3 in He. discriminate.
Qed.

(** * The setups of the library *)
Lemma circuit_ready s m p : setup_init circuit_noise_raw = Ok s -> stp m = set_var_param s "prob" (VNum p) -> (Q2Qc 0 <= p)%Qc -> (p <= Q2Qc 1)%Qc ->
  (NoiseM.kind m = Circ \/ NoiseM.kind m = Phenom \/ NoiseM.kind m = Incoming \/ NoiseM.kind m = Noiseless) -> ready m.
Proof.
  intros Hs Hm H0 H1 K. vm_compute in Hs. injection Hs as <-. unfold ready. rewrite Hm. cbv zeta.
  match goal with |- context [gives_prob ?s _ _] => assert (A : forall x qs, In x (one_qubit_params ++ two_qubit_params ++ ["meas_error_prob"%string; "reset_error_prob"%string; "assign_error_prob"%string])%list ->
    gives_prob s x qs) end.
  { intros x qs Hx. exists p. split; [|now split]. cbn [one_qubit_params two_qubit_params app In] in Hx.
    repeat (destruct Hx as [<-|Hx]; [destruct qs; reflexivity|]). destruct Hx. }
  match goal with |- context [gives_flag ?s _] => assert (B : forall q, gives_flag s q) end.
  { intros q. exists true. split; [reflexivity|]. intros _. apply A. cbn. auto 20. }
  assert (I1 : forall x, In x one_qubit_params -> In x (one_qubit_params ++ two_qubit_params ++ ["meas_error_prob"%string; "reset_error_prob"%string; "assign_error_prob"%string])%list) by (intros; apply in_or_app; auto).
  assert (I2 : forall x, In x two_qubit_params -> In x (one_qubit_params ++ two_qubit_params ++ ["meas_error_prob"%string; "reset_error_prob"%string; "assign_error_prob"%string])%list) by (intros; apply in_or_app; right; apply in_or_app; auto).
  assert (Ii : In "idle_error_prob"%string one_qubit_params) by (cbn; auto 20).
  assert (I3 : forall x, In x ["meas_error_prob"%string; "reset_error_prob"%string] -> In x (one_qubit_params ++ two_qubit_params ++ ["meas_error_prob"%string; "reset_error_prob"%string; "assign_error_prob"%string])%list).
  { intros x Hx. apply in_or_app; right; apply in_or_app; right. cbn in *. intuition. }
  destruct K as [->|[->|[->| ->]]].
  - split; [split|].
    + intros q _. split; [intros x Hx; apply A, I1, Hx|apply A, I3; cbn; auto].
    + intros q q' _ _ x Hx. apply A, I2, Hx.
    + intros q _. split; [apply A, I3; cbn; auto|apply B].
  - split; intros q _; [apply A, I1, Ii|]. split; [apply A, I3; cbn; auto|apply B].
  - intros q _. apply A, I1, Ii.
  - exact I.
Qed.
