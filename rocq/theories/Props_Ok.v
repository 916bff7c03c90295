(** C73: which memory experiments are built without an exception. Vocabulary in SpecOk.
    [ordt t] is the order in which Python sets are iterated in the t-th block: any
    permutation. *)
From Coq Require Import QArith Qcanon.
From Verif Require Import Base StimM SetupM NoiseM LayoutM GenM DetM BlockM ExpM SpecOk OkP5 Props_Noise Props_Gen Props_Round Props_Exp.
Open Scope Z_scope.

(** Memory experiments on generated layouts return a circuit if the arguments fit
    together. Missing from the full statement: the noise models whose idling needs a
    duration, see C73_duration_refuted. *)
Theorem C73_memory_partial ordt k a l R di rot reset dets gauge w :
  (forall t i s, Permutation (ordt t i s) s) -> 1 <= ga_dx a -> 1 <= ga_dz a -> generates k a = Ok l ->
  fits l di dets (fst w) (snd w) -> 0 <= R -> returns (memory ordt k l R di rot reset dets gauge w).
Proof. exact (C73_memory_lemma ordt k a l R di rot reset dets gauge w). Qed.
Print Assumptions C73_memory_partial.
Theorem C73_google_partial ordt a l R di rot dets gauge w :
  (forall t i s, Permutation (ordt t i s) s) -> 1 <= ga_dx a -> 1 <= ga_dz a -> rot_surface_code_rectangle a = Ok l ->
  fits l di dets (fst w) (snd w) -> 1 <= R -> returns (memory_google ordt l R di rot dets gauge w).
Proof. exact (C73_google_lemma ordt a l R di rot dets gauge w). Qed.
Print Assumptions C73_google_partial.
(** What a noise model reads is defined by CircuitNoiseSetup after set_var_param("prob", p). *)
Theorem C73_library_setup s m p :
  setup_init circuit_noise_raw = Ok s -> stp m = set_var_param s "prob" (VNum p) -> (Q2Qc 0 <= p)%Qc -> (p <= Q2Qc 1)%Qc ->
  kind m = Circ \/ kind m = Phenom \/ kind m = Incoming \/ kind m = Noiseless -> ready m.
Proof. exact (circuit_ready s m p). Qed.
Print Assumptions C73_library_setup.
(** The negative numbers of rounds are rejected before anything else happens. *)
Theorem C73_rounds ordt k l R di rot reset dets gauge w :
  (R < 0 -> memory ordt k l R di rot reset dets gauge w = (w, Err ValueError)) /\
  (R <= 0 -> memory_google ordt l R di rot dets gauge w = (w, Err ValueError)).
Proof. split; [apply rounds_raise|apply google_raise]. Qed.
Print Assumptions C73_rounds.
(** Every memory experiment raises for every layout, setup and argument if idling of the
    model needs a duration. *)
Theorem C73_duration_refuted ordt k l R di rot reset dets gauge w :
  timed (fst w) -> raises (memory ordt k l R di rot reset dets gauge w) /\ raises (memory_google ordt l R di rot dets gauge w).
Proof. intros T. split; [now apply timed_raises|now apply timed_google_raises]. Qed.
Print Assumptions C73_duration_refuted.

Definition with_kind (k : mkind) (w : world) : world :=
  ({| kind := k; stp := stp (fst w); inds := inds (fst w); order := order (fst w); num := num (fst w) |}, snd w).
Lemma fits_check l a : match get_role l "anc" with
    | Ok ancs => set_eq ancs (labels (snd (world_of l))) && subset a ancs &&
        nodupb (dkeys (inds (fst (world_of l)))) && nodupb (dvals (inds (fst (world_of l)))) && subset (dkeys (l_nodes l) ++ ["D1"; "D2"]) (dkeys (inds (fst (world_of l)))) &&
        match det_init ancs "post-gate" None with Ok d => true | Err _ => false end
    | Err _ => false end = true -> fits l [("D1", 1); ("D2", 0)] (Some a) (fst (world_of l)) (snd (world_of l)).
Proof.
  intros H. destruct (get_role l "anc") as [ancs|] eqn:E; [|discriminate]. repeat (apply andb_prop in H as [H ?]).
  apply nodupb_spec in H2, H3. apply subset_spec in H1, H4. apply subset_spec in H. constructor.
  - now split.
  - intros q Hq. apply H1, in_or_app. now left.
  - assert (Es : exists s, setup_init circuit_noise_raw = Ok s /\ ex_setup = set_var_param s "prob" (VNum (Q2Qc (1#100)))).
    { destruct (setup_init circuit_noise_raw) as [s|] eqn:E1; [|vm_compute in E1; discriminate]. exists s. split; [reflexivity|]. unfold ex_setup. now rewrite E1. }
    destruct Es as (s & E1 & E2). apply (C73_library_setup s _ (Q2Qc (1#100))); auto; [discriminate|discriminate].
  - unfold world_of. rewrite E. cbn [snd]. destruct (det_init ancs "post-gate" None) as [d|] eqn:Ed; [|discriminate]. exists ancs, "post-gate"%string, None, d. split; [exact Ed|].
    unfold activate. destruct (strict_superset _ _); [auto|]. clear. revert d. induction ancs as [|x ancs IH]; intros d; [auto|]. cbn [siter]. unfold sbind, activate_one.
    destruct (dget x (active d)) as [[]|]; auto. destruct (IH (set_rounds (dset x 0 (num_rounds d)) (total d) (set_active x true d))) as (A & B & C). auto.
  - exists ancs. split; [exact E|]. split; [exact H|]. intros ds [= <-]. exact H4.
  - intros q b Hq. apply H1, in_or_app. right. destruct Hq as [[= <- <-]|[[= <- <-]|[]]]; cbn; auto.
Qed.
Example C73_case :
  generates Xzzx (args 3 2) = Ok rot32 /\ generates UnrotCss (args 3 2) = Ok unrot32 /\
  fits rot32 [("D1", 1); ("D2", 0)] (Some ["Z1"; "X1"]) (fst (world_of rot32)) (snd (world_of rot32)) /\
  fits unrot32 [("D1", 1); ("D2", 0)] (Some ["X2"]) (fst (world_of unrot32)) (snd (world_of unrot32)) /\
  timed (fst (with_kind Exper (world_of rot32))) /\ timed (fst (with_kind (Decoh true) (world_of rot32))).
Proof.
  split; [vm_compute; reflexivity|]. split; [vm_compute; reflexivity|]. split; [apply fits_check; vm_compute; reflexivity|]. split; [apply fits_check; vm_compute; reflexivity|]. split; exact I.
Qed.
