(** C81: which repeated CNOT experiments are built without an exception. Vocabulary in
    SpecOk, SpecOkCnot, SpecMerge and SpecCnot. [ordt] and [ordp] are the orders in which
    Python iterates sets in the blocks: any permutations; [fuse] and [show] stand for two
    facts about stim, see MergeM. *)
From Coq Require Import QArith Qcanon.
From Verif Require Import Base StimM SetupM NoiseM LayoutM GenM DetM BlockM LogM ExpM MergeM SpecTrack SpecMerge SpecCnot SpecOk SpecOkCnot MergeP6 OkP5 OkMergeP5
  Props_Noise Props_Gen Props_Round Props_Exp Props_Merge Props_Log Props_Cnot Props_Ok.
Open Scope Z_scope.

(** On generated layouts with the attributes of the gate the experiment returns a circuit
    if the arguments fit together and the noise parameters are the same for all qubits and
    all pairs of qubits, for any values of data_init, also for qubits of neither layout.
    Missing from the full statement: parameters that differ between qubits, see
    C81_per_qubit_refuted, and the models whose idling needs a duration, see
    C81_duration_refuted. *)
Theorem C81_rot_partial fuse show ordt ordp a a' lc0 lt0 lc lt n R di ori rot reset dets gauge w :
  (forall t k s, Permutation (ordt t k s) s) -> (forall t k s, Permutation (ordp t k s) s) ->
  rot_surface_code_rectangle a = Ok lc0 -> rot_surface_code_rectangle a' = Ok lt0 ->
  1 <= ga_dx a -> 1 <= ga_dz a -> 1 <= ga_dx a' -> 1 <= ga_dz a' ->
  cnot_set set_trans_cnot_rot (cnot_gate a a') lc0 lt0 lc lt ->
  (ori = "constant" \/ ori = "alternating" /\ cnot_set set_trans_cnot_rot (cnot_gate a' a) lt0 lc0 lt lc)%string ->
  fits_two lc lt dets (fst w) (snd w) -> uniform (stp (fst w)) -> uniform_pairs (stp (fst w)) -> 0 <= n -> 0 <= R ->
  returns (repeated_cnot_rot_css fuse show ordt ordp lc lt n R di ori rot reset dets gauge w).
Proof. exact (C81_rot_lemma fuse show ordt ordp a a' lc0 lt0 lc lt n R di ori rot reset dets gauge w). Qed.
Print Assumptions C81_rot_partial.
Theorem C81_unrot_partial fuse show ordt ordp a a' lc0 lt0 lc lt n R di ori rot reset dets gauge w :
  (forall t k s, Permutation (ordt t k s) s) -> (forall t k s, Permutation (ordp t k s) s) ->
  unrot_surface_code_rectangle a = Ok lc0 -> unrot_surface_code_rectangle a' = Ok lt0 ->
  1 <= ga_dx a -> 1 <= ga_dz a -> 1 <= ga_dx a' -> 1 <= ga_dz a' ->
  cnot_set set_trans_cnot_unrot (cnot_gate a a') lc0 lt0 lc lt ->
  (ori = "constant" \/ ori = "alternating" /\ cnot_set set_trans_cnot_unrot (cnot_gate a' a) lt0 lc0 lt lc)%string ->
  fits_two lc lt dets (fst w) (snd w) -> uniform (stp (fst w)) -> uniform_pairs (stp (fst w)) -> 0 <= n -> 0 <= R ->
  returns (repeated_cnot_unrot_css fuse show ordt ordp lc lt n R di ori rot reset dets gauge w).
Proof. exact (C81_unrot_lemma fuse show ordt ordp a a' lc0 lt0 lc lt n R di ori rot reset dets gauge w). Qed.
Print Assumptions C81_unrot_partial.
(** The parameters of CircuitNoiseSetup are the same for all qubits and pairs. *)
Theorem C81_library_setup s p v : setup_init circuit_noise_raw = Ok s -> uniform (set_var_param s p v) /\ uniform_pairs (set_var_param s p v).
Proof.
  intros H. assert (E : s_qubit (set_var_param s p v) = []) by (vm_compute in H; injection H as <-; reflexivity). split; [now apply uniform_global|].
  intros x q q' r r'. unfold param, lookup. now rewrite E.
Qed.
Print Assumptions C81_library_setup.
(** Arguments that are rejected, for any layouts: negative numbers of gates or rounds with a
    ValueError and without any effect, any other orientation. *)
Theorem C81_arguments fuse show ordt ordp it lc lt n R di ori rot reset dets gauge w :
  (n < 0 \/ R < 0 -> repeated_cnot_with fuse show ordt ordp it lc lt n R di ori rot reset dets gauge w = (w, Err ValueError)) /\
  (ori <> "constant" -> ori <> "alternating" -> raises (repeated_cnot_with fuse show ordt ordp it lc lt n R di ori rot reset dets gauge w))%string.
Proof. split; [apply cnot_numbers|apply cnot_word]. Qed.
Print Assumptions C81_arguments.
(** The experiment raises for any layouts and arguments if idling of the model needs a
    duration. *)
Theorem C81_duration_refuted fuse show ordt ordp it lc lt n R di ori rot reset dets gauge w :
  timed (fst w) -> raises (repeated_cnot_with fuse show ordt ordp it lc lt n R di ori rot reset dets gauge w).
Proof. apply cnot_timed. Qed.
Print Assumptions C81_duration_refuted.

(* a check of the hypotheses for the circuit-level model *)
Definition prob_b (s : setup) (p : string) (qs : list string) : bool :=
  match param s p qs with Ok (VNum x) => Qle_bool 0 (this x) && Qle_bool (this x) 1 | _ => false end.
Lemma prob_ok s p qs : prob_b s p qs = true -> gives_prob s p qs.
Proof.
  unfold prob_b, gives_prob. destruct (param s p qs) as [[]|]; try discriminate. intros H. apply andb_prop in H as [A B]. apply Qle_bool_iff in A, B.
  eexists. split; [reflexivity|]. split; unfold Qcle; cbn; assumption.
Qed.
Definition circ_b (s : setup) (qs : list string) : bool :=
  forallb (fun q => forallb (fun p => prob_b s p [q]) ("meas_error_prob" :: "assign_error_prob" :: "reset_error_prob" :: one_qubit_params)%string &&
    match param s "assign_error_flag" [q] with Ok (VBool _) => true | _ => false end) qs &&
  forallb (fun q => forallb (fun q' => forallb (fun p => prob_b s p [q; q']) two_qubit_params) qs) qs.
Lemma circ_ready m : kind m = Circ -> circ_b (stp m) (dkeys (inds m)) = true -> ready m.
Proof.
  intros K H. apply andb_prop in H as [H1 H2]. rewrite forallb_forall in H1, H2. unfold ready. rewrite K.
  assert (P1 : forall q p, In q (dkeys (inds m)) -> In p ("meas_error_prob" :: "assign_error_prob" :: "reset_error_prob" :: one_qubit_params)%string -> gives_prob (stp m) p [q]).
  { intros q p Hq Hp. apply H1 in Hq. apply andb_prop in Hq as [Hq _]. rewrite forallb_forall in Hq. apply prob_ok. auto. }
  split; [split|].
  - intros q Hq. split; [intros p Hp|]; apply P1; auto; [do 3 right; exact Hp|right; right; now left].
  - intros q q' Hq Hq' p Hp. apply H2 in Hq. rewrite forallb_forall in Hq. apply Hq in Hq'. rewrite forallb_forall in Hq'. apply prob_ok. auto.
  - intros q Hq. split; [apply P1; [exact Hq|now left]|]. pose proof (H1 q Hq) as F. apply andb_prop in F as [_ F]. destruct (param (stp m) "assign_error_flag" [q]) as [[]|] eqn:E; try discriminate.
    eexists. split; [exact E|]. intros _. apply P1; [exact Hq|right; now left].
Qed.
Definition fits_b (f : string) (s : setup) (lc lt : layout) (ds : list string) : bool :=
  let w := world2 f s [lc; lt] in
  match get_role lc "anc", get_role lt "anc" with
  | Ok a, Ok b => subset (a ++ b) (labels (snd w)) && subset ds (a ++ b) && nodupb (dkeys (inds (fst w))) && nodupb (dvals (inds (fst w))) &&
      subset (dkeys (l_nodes lc) ++ dkeys (l_nodes lt)) (dkeys (inds (fst w))) && circ_b s (dkeys (inds (fst w))) &&
      match det_init (a ++ b) f None with Ok _ => true | Err _ => false end
  | _, _ => false end.
Lemma fits_two_check f s lc lt ds : fits_b f s lc lt ds = true -> fits_two lc lt (Some ds) (fst (world2 f s [lc; lt])) (snd (world2 f s [lc; lt])).
Proof.
  unfold fits_b. cbv zeta. intros H. destruct (get_role lc "anc") as [a|] eqn:Ea; [|discriminate]. destruct (get_role lt "anc") as [b|] eqn:Eb; [|discriminate]. repeat (apply andb_prop in H as [H ?]).
  apply nodupb_spec in H3, H4. apply subset_spec in H, H2, H5. constructor.
  - now split.
  - split; intros q Hq; apply H2, in_or_app; auto.
  - apply circ_ready; [reflexivity|exact H1].
  - unfold world2. cbn [flat_map]. rewrite Ea, Eb. cbn [snd]. rewrite app_nil_r. destruct (det_init (a ++ b) f None) as [d|] eqn:Ed; [|discriminate]. exists (a ++ b), f, None, d. split; [exact Ed|].
    unfold activate. match goal with |- context [strict_superset ?x ?y] => destruct (strict_superset x y) end; [auto|]. clear. revert d. generalize (a ++ b). intros l. induction l as [|x ancs IH]; intros d; [auto|]. cbn [siter]. unfold sbind, activate_one.
    destruct (dget x (active d)) as [[]|]; auto. destruct (IH (set_rounds (dset x 0 (num_rounds d)) (total d) (set_active x true d))) as (A & B & C). auto.
  - exists a, b. split; [exact Ea|]. split; [exact Eb|]. split; [intros q Hq; apply H, in_or_app; now left|]. split; [intros q Hq; apply H, in_or_app; now right|].
    intros ds' [= <-] q Hq. apply in_app_or. now apply H5.
Qed.
(* the other hypotheses: C69_case *)
Example C81_case :
  fits_two (fst ex_both) (snd ex_both) (Some ["X1"; "Z101"]) (fst (world2 "post-gate" ex_setup [fst ex_both; snd ex_both])) (snd (world2 "post-gate" ex_setup [fst ex_both; snd ex_both])) /\
  fits_two (fst ex_bothu) (snd ex_bothu) (Some ["X101"]) (fst (world2 "pre-gate" ex_setup [fst ex_bothu; snd ex_bothu])) (snd (world2 "pre-gate" ex_setup [fst ex_bothu; snd ex_bothu])) /\
  uniform ex_setup /\ uniform_pairs ex_setup /\ timed (fst (with_kind Exper (world2 "post-gate" ex_setup [fst ex_both; snd ex_both]))).
Proof.
  split; [apply fits_two_check; vm_compute; reflexivity|]. split; [apply fits_two_check; vm_compute; reflexivity|].
  split; [|split; [|exact I]]; unfold ex_setup; (destruct (setup_init circuit_noise_raw) as [s|] eqn:E; [|vm_compute in E; discriminate E]); now apply C81_library_setup.
Qed.
(** With a readout error of its own for one ancilla of one layout the two rounds do not have
    the same number of instructions and merging them raises, although every argument fits. *)
Definition one_qubit : setup :=
  match setup_init {| r_name := VNone; r_desc := VNone; r_durations := None;
    r_params := Some [[("sq_error_prob", VNum (Q2Qc (1#100))); ("tq_error_prob", VNum (Q2Qc (1#100))); ("meas_error_prob", VNum (Q2Qc (1#100)));
                       ("reset_error_prob", VNum (Q2Qc (1#100))); ("idle_error_prob", VNum (Q2Qc (1#100)));
                       ("assign_error_flag", VBool true); ("assign_error_prob", VNum (Q2Qc (1#100)))];
                      [("qubit", VStr "X1"); ("assign_error_prob", VNum (Q2Qc (2#100)))]] |} with
  | Ok s => s | Err _ => ex_setup end.
Theorem C81_per_qubit_refuted : exists a a' lc0 lt0 lc lt n R di rot reset dets w,
  rot_surface_code_rectangle a = Ok lc0 /\ rot_surface_code_rectangle a' = Ok lt0 /\ cnot_set set_trans_cnot_rot (cnot_gate a a') lc0 lt0 lc lt /\
  fits_two lc lt dets (fst w) (snd w) /\ uniform_pairs (stp (fst w)) /\ 0 <= n /\ 0 <= R /\
  snd (repeated_cnot_rot_css true (fun x => x) (fun _ => ex_ord) (fun _ => ex_ordp) lc lt n R di "constant" rot reset dets false w) = Err ValueError.
Proof.
  destruct C69_case as (G & G' & [S _] & _).
  exists (args 2 2), (args2 2 2), rot22, rot22', (fst ex_both), (snd ex_both), 1, 1, (ex_init rot22 rot22'), false, true, (Some ["X1"; "Z101"]), (world2 "post-gate" one_qubit [fst ex_both; snd ex_both]).
  split; [exact G|]. split; [exact G'|]. split; [exact S|]. clear. split; [apply fits_two_check; vm_compute; reflexivity|].
  split.
  { assert (Eq : exists v, s_qubit (stp (fst (world2 "post-gate" one_qubit [fst ex_both; snd ex_both]))) = [(["X1"%string], v)]) by (eexists; vm_compute; reflexivity).
    destruct Eq as [v Eq]. assert (N : forall q q', dget [q; q'] [(["X1"%string], v)] = None).
    { intros q q'. cbn [dget]. match goal with |- context [eqb ?x ?y] => destruct (eqb_spec x y) as [E|] end; [discriminate E|reflexivity]. }
    intros p q q' r r'. unfold param, lookup. rewrite Eq. now rewrite !N. }
  split; [lia|]. split; [lia|]. vm_compute. reflexivity.
Qed.
Print Assumptions C81_per_qubit_refuted.
