(** Properties of the models: C01, C02, C17, C18, C49. *)
From Coq Require Import QArith Qcanon.
From Verif Require Import Base SetupM StimM NoiseM SpecNoise NoiseP.
Open Scope Z_scope.

(* concrete objects for the examples *)
Definition ex_setup : setup :=
  match setup_init circuit_noise_raw with
  | Ok s => set_var_param s "prob" (VNum (Q2Qc (1#100)))
  | Err _ => {| s_name := VNone; s_desc := VNone; s_durations := []; s_qubit := []; s_global := []; s_var := [] |}
  end.
Definition ex_model (k : mkind) : model := model_init k ex_setup [("D1", 3); ("X1", 0); ("Z1", 5)].
Definition ex_history : list (op * list string) :=
  [(OR, ["D1"; "X1"; "Z1"]); (OH, ["X1"]); (OCZ, ["X1"; "D1"]); (OM, ["X1"; "Z1"]);
   (OIDLE, ["D1"]); (OMX, ["D1"; "X1"])].
Fixpoint ex_run (m : model) (l : list (op * list string)) : model * res circuit :=
  match l with
  | [] => (m, Ok [])
  | (o, qs) :: r => match apply o qs m with
                    | (m1, Ok c1) => match ex_run m1 r with (m2, Ok c2) => (m2, Ok (c1 ++ c2)) | x => x end
                    | (m1, Err e) => (m1, Err e)
                    end
  end.
Lemma ex_run_history l : forall m m' c, ex_run m l = (m', Ok c) -> history m l m' c.
Proof.
  induction l as [|[o qs] l IH]; simpl; intros m m' c H.
  - injection H as <- <-. constructor.
  - destruct (apply o qs m) as [m1 [c1|e]] eqn:E; [|discriminate].
    destruct (ex_run m1 l) as [m2 [c2|e]] eqn:E2; [|discriminate].
    injection H as <- <-. econstructor; eauto.
Qed.

(** C01. After any history of successful calls, rec[-j] returned for (q, -k) is the
    k-th last measurement of q in the concatenated circuit. *)
Theorem C01_meas_target_kth_last m l m' c q i k :
  wf_inds (inds m) -> history (new_circuit m) l m' c -> dget q (inds m) = Some i ->
  1 <= k <= Z.of_nat (count (TQ i) (measured c)) ->
  exists j, meas_target m' q (- k) = Ok (TR (- j)) /\ kth_last (measured c) (TQ i) k j.
Proof. exact (C01_lemma m l m' c q i k). Qed.
Print Assumptions C01_meas_target_kth_last.
Example C01_nonvacuous : exists m' c,
  wf_inds (inds (ex_model Circ)) /\ history (new_circuit (ex_model Circ)) ex_history m' c /\
  dget "X1" (inds (ex_model Circ)) = Some 0 /\ count (TQ 0) (measured c) = 2%nat /\
  meas_target m' "X1" (-2) = Ok (TR (-4)).
Proof.
  eexists; eexists. split; [|split; [apply ex_run_history; vm_compute; reflexivity|]].
  - split; repeat constructor; simpl; intuition discriminate.
  - vm_compute. auto.
Qed.

(** C02. Addressable indices are exactly [-n, n-1]; everything else raises. *)
Theorem C02_meas_target_range m l m' c q i k :
  wf_inds (inds m) -> history (new_circuit m) l m' c -> dget q (inds m) = Some i ->
  let n := Z.of_nat (count (TQ i) (measured c)) in
  (- n <= k < n ->
     exists r, meas_target m' q k = Ok (TR r) /\ - Z.of_nat (length (measured c)) <= r <= -1) /\
  (k < - n \/ k > n -> meas_target m' q k = Err ValueError) /\
  (k = n -> meas_target m' q k = Err IndexError).
Proof. exact (C02_lemma m l m' c q i k). Qed.
Print Assumptions C02_meas_target_range.
Theorem C02_new_circuit_empty m q k : forall t, meas_target (new_circuit m) q k <> Ok t.
Proof. exact (C02_new_circuit m q k). Qed.
Print Assumptions C02_new_circuit_empty.
(* the exception at the boundary is an IndexError, not the announced ValueError *)
Theorem C02_boundary_exception_refuted :
  exists m q, dmem q (inds m) = true /\ meas_target m q 0 = Err IndexError.
Proof. exists (ex_model Circ), "D1". vm_compute. auto. Qed.
Print Assumptions C02_boundary_exception_refuted.

(** C17. Without its noise, every operation of every model is the operation of
    NoiselessModel and records the same measurements (one exception, below). *)
Theorem C17_same_ideal_circuit_partial m o qs m' c :
  apply o qs m = (m', Ok c) -> ~ (kind m = Biased /\ o = OMY) ->
  exists m0' c0,
    apply (without_duration o) qs (as_noiseless m) = (m0', Ok c0) /\
    noise_of c0 = [] /\ ideal c = ideal c0 /\ measured c = measured c0 /\
    order m' = order m0' /\ num m' = num m0'.
Proof. exact (C17_lemma m o qs m' c). Qed.
Print Assumptions C17_same_ideal_circuit_partial.
Example C17_nonvacuous : exists m' c,
  apply OCZ ["X1"; "D1"] (ex_model Circ) = (m', Ok c) /\ ideal c = [A2 GCZ (TQ 0) (TQ 3)] /\
  length (noise_of c) = 1%nat.
Proof. eexists; eexists. split; [vm_compute; reflexivity|]. vm_compute. auto. Qed.
(* BiasedCircuitNoiseModel.measure_y measures in the X basis *)
Theorem C17_biased_measure_y_refuted : exists m qs m' c m0' c0,
  kind m = Biased /\ apply OMY qs m = (m', Ok c) /\
  apply OMY qs (as_noiseless m) = (m0', Ok c0) /\ ideal c <> ideal c0.
Proof.
  exists (ex_model Biased), ["D1"].
  eexists; eexists; eexists; eexists. split; [reflexivity|].
  split; [vm_compute; reflexivity|]. split; [vm_compute; reflexivity|].
  vm_compute. discriminate.
Qed.
Print Assumptions C17_biased_measure_y_refuted.

(** C18. CircuitNoiseModel: exactly one channel per qubit (pair), on that qubit,
    with the probability of the setup, and nothing else. *)
Theorem C18_one_channel_per_qubit m o qs m' c g p :
  kind m = Circ -> apply o qs m = (m', Ok c) -> channel1 o = Some (g, p) ->
  Forall2 (fun q a => channel_for m g p [q] a) qs (noise_of c).
Proof. exact (C18_lemma1 m o qs m' c g p). Qed.
Print Assumptions C18_one_channel_per_qubit.
Theorem C18_one_channel_per_pair m o qs m' c g p :
  kind m = Circ -> apply o qs m = (m', Ok c) -> channel2 o = Some (g, p) ->
  Forall2 (fun q a => channel_for m g p q a) (pairs_of qs) (noise_of c).
Proof. exact (C18_lemma2 m o qs m' c g p). Qed.
Print Assumptions C18_one_channel_per_pair.
Theorem C18_no_other_noise m o qs m' c :
  kind m = Circ -> apply o qs m = (m', Ok c) -> channel1 o = None -> channel2 o = None ->
  noise_of c = [].
Proof. exact (C18_lemma0 m o qs m' c). Qed.
Print Assumptions C18_no_other_noise.
Example C18_nonvacuous : exists m' c,
  kind (ex_model Circ) = Circ /\ apply OM ["D1"; "X1"; "D1"] (ex_model Circ) = (m', Ok c) /\
  channel1 OM = Some (X_ERROR, "meas_error_prob") /\ length (noise_of c) = 3%nat.
Proof. eexists; eexists. split; [reflexivity|]. split; [vm_compute; reflexivity|]. vm_compute. auto. Qed.

(** C49. A call that raises leaves the record unchanged: operations other than
    measurements never change the model; a measurement of an unknown qubit is
    rejected before any change by the four models that look up the indices first. *)
Theorem C49_failed_call_no_effect_partial m o qs m' r :
  apply o qs m = (m', r) ->
  (measuring o = false -> m' = m) /\
  (measuring o = true -> kind m = Circ \/ kind m = Biased \/ kind m = Exper \/ kind m = Phenom ->
   (exists q, In q qs /\ dmem q (inds m) = false) -> m' = m /\ r = Err KeyError).
Proof. exact (C49_lemma m o qs m' r). Qed.
Print Assumptions C49_failed_call_no_effect_partial.
(* NoiselessModel.measure records the known qubits before it raises *)
Theorem C49_failed_measure_refuted : exists m qs m' e,
  apply OM qs m = (m', Err e) /\ num m' <> num m /\ meas_target m' "D1" (-1) = Ok (TR (-1)).
Proof.
  exists (ex_model Noiseless), ["D1"; "unknown"].
  eexists; eexists. split; [vm_compute; reflexivity|]. vm_compute. split; [discriminate|reflexivity].
Qed.
Print Assumptions C49_failed_measure_refuted.
