(** Properties of the noise channels of every model: C53 to C57. *)
From Coq Require Import QArith Qcanon.
From Verif Require Import Base SetupM StimM NoiseM SpecNoise SpecNoise2 NoiseP NoiseP2.
Open Scope Z_scope.

(* a concrete setup: one global entry, one entry for the qubit D1 and one for the pair *)
Definition ex_raw2 : raw_setup :=
  {| r_name := VStr "n"; r_desc := VStr ""; r_durations := Some [("H", VNum (Q2Qc 20)); ("CZ", VNum (Q2Qc 40)); ("M", VNum (Q2Qc 300))];
     r_params := Some
       [[("sq_error_prob", VNum (Q2Qc (1 # 100))); ("tq_error_prob", VNum (Q2Qc (2 # 100)));
         ("meas_error_prob", VNum (Q2Qc (3 # 100))); ("idle_error_prob", VNum (Q2Qc (1 # 50)));
         ("reset_error_prob", VNum (Q2Qc (1 # 50)));
         ("assign_error_flag", VBool true); ("assign_error_prob", VNum (Q2Qc (1 # 10)));
         ("biased_pauli", VStr "Z"); ("biased_factor", VNum (Q2Qc 3));
         ("T1", VNum (Q2Qc 3000)); ("T2", VNum (Q2Qc 4000))];
        [("qubit", VStr "D1"); ("assign_error_flag", VBool false); ("biased_factor", VNum (Q2Qc 5));
         ("T1", VNum (Q2Qc 1000)); ("T2", VNum (Q2Qc 1500))];
        [("qubits", VList ["X1"; "D1"]); ("biased_pauli", VStr "X")]] |}.
Definition ex_setup2 : setup :=
  match setup_init ex_raw2 with
  | Ok s => set_var_param (set_var_param s "Z" (VStr "Z")) "X" (VStr "X")
  | Err _ => {| s_name := VNone; s_desc := VNone; s_durations := []; s_qubit := []; s_global := []; s_var := [] |}
  end.
Definition ex_model2 (k : mkind) : model := model_init k ex_setup2 [("D1", 3); ("X1", 0); ("Z1", 5)].

(** C53. BiasedCircuitNoiseModel: one Pauli channel per qubit (pair), on that qubit,
    with the total probability and the bias of these qubits; the channels of resets and
    measurements are those of CircuitNoiseModel. *)
Theorem C53_biased_channel_per_qubit m o qs m' c p :
  kind m = Biased -> apply o qs m = (m', Ok c) -> channel1 o = Some (DEPOLARIZE1, p) ->
  Forall2 (fun q a => biased_for m PAULI_CHANNEL_1 pauli1 p [q] a) qs (noise_of c).
Proof. exact (C53_lemma1 m o qs m' c p). Qed.
Print Assumptions C53_biased_channel_per_qubit.
Theorem C53_biased_channel_per_pair m o qs m' c g p :
  kind m = Biased -> apply o qs m = (m', Ok c) -> channel2 o = Some (g, p) ->
  Forall2 (fun q a => biased_for m PAULI_CHANNEL_2 pauli2 p q a) (pairs_of qs) (noise_of c).
Proof. exact (C53_lemma2 m o qs m' c g p). Qed.
Print Assumptions C53_biased_channel_per_pair.
Theorem C53_biased_reset_measure m o qs m' c g p :
  kind m = Biased -> apply o qs m = (m', Ok c) -> channel1 o = Some (g, p) -> g <> DEPOLARIZE1 ->
  o <> OMY -> Forall2 (fun q a => channel_for m g p [q] a) qs (noise_of c).
Proof. exact (C53_lemma3 m o qs m' c g p). Qed.
Print Assumptions C53_biased_reset_measure.
Theorem C53_biased_no_other_noise m o qs m' c :
  kind m = Biased -> apply o qs m = (m', Ok c) -> channel1 o = None -> channel2 o = None ->
  noise_of c = [].
Proof. exact (C53_lemma0 m o qs m' c). Qed.
Print Assumptions C53_biased_no_other_noise.
Example C53_nonvacuous : exists m' c,
  apply OCZ ["X1"; "D1"; "X1"; "Z1"] (ex_model2 Biased) = (m', Ok c) /\ length (noise_of c) = 2%nat.
Proof. eexists; eexists. split; vm_compute; reflexivity. Qed.

(* a biased Pauli written in the configuration is taken for an unset variable *)
Theorem C53_biased_pauli_literal_refuted : exists s,
  setup_init ex_raw2 = Ok s /\ lookup s "biased_pauli" ["D1"] = Some (VStr "Z") /\
  snd (apply OH ["D1"] (model_init Biased s [("D1", 3)])) = Err ValueError.
Proof. eexists. split; [vm_compute; reflexivity|]. split; vm_compute; reflexivity. Qed.
Print Assumptions C53_biased_pauli_literal_refuted.

(** C54. DecoherenceNoiseModel: every qubit of an operation idles with its own T1 and T2
    for the duration of that operation, half before and half after when
    [symmetric_noise] is set, otherwise after. *)
Theorem C54_symmetric m o n qs m' c :
  kind m = Decoh true -> apply o qs m = (m', Ok c) -> duration_name o = Some n ->
  sym_noise m n qs c.
Proof. exact (C54_sym m o n qs m' c). Qed.
Print Assumptions C54_symmetric.
Theorem C54_asymmetric m o n qs m' c :
  kind m = Decoh false -> apply o qs m = (m', Ok c) -> duration_name o = Some n ->
  asym_noise m n qs c.
Proof. exact (C54_asym m o n qs m' c). Qed.
Print Assumptions C54_asymmetric.
Theorem C54_idle_duration m qs d m' c :
  (exists s, kind m = Decoh s) \/ kind m = Exper -> apply (OIDLED d) qs m = (m', Ok c) ->
  ideal c = [] /\ Forall2 (idle_for m d) qs (noise_of c).
Proof. exact (C54_idle m qs d m' c). Qed.
Print Assumptions C54_idle_duration.
Example C54_nonvacuous : exists m1 c1 m2 c2 m3 c3,
  apply OM ["X1"; "D1"] (ex_model2 (Decoh true)) = (m1, Ok c1) /\ length (noise_of c1) = 4%nat /\
  apply OCZ ["X1"; "D1"] (ex_model2 (Decoh false)) = (m2, Ok c2) /\ length (noise_of c2) = 2%nat /\
  apply (OIDLED (Q2Qc 7)) ["X1"; "D1"] (ex_model2 Exper) = (m3, Ok c3) /\ length (noise_of c3) = 2%nat.
Proof. do 6 eexists. repeat split; vm_compute; reflexivity. Qed.

(** C55. Readout flips: every measured qubit has its own assignment error probability
    when its flag is set and none otherwise; the noiseless models have none. *)
Theorem C55_readout_flips m o qs m' c :
  apply o qs m = (m', Ok c) -> measures o = true -> kind m <> Noiseless -> kind m <> Incoming ->
  Forall2 (readout_for m) qs (readouts c).
Proof. exact (C55_lemma m o qs m' c). Qed.
Print Assumptions C55_readout_flips.
Theorem C55_noiseless_readout m o qs m' c :
  apply o qs m = (m', Ok c) -> measures o = true -> kind m = Noiseless \/ kind m = Incoming ->
  Forall2 (fun q a => exists g i, dget q (inds m) = Some i /\ a = (g, TQ i, [])) qs (readouts c).
Proof. exact (C55_lemma0 m o qs m' c). Qed.
Print Assumptions C55_noiseless_readout.
Example C55_nonvacuous : exists m' c,
  apply OM ["X1"; "D1"] (ex_model2 Circ) = (m', Ok c) /\
  readouts c = [(GM, TQ 0, [ANum (Q2Qc (1 # 10))]); (GM, TQ 3, [])].
Proof. eexists; eexists. split; vm_compute; reflexivity. Qed.

(** C56. Noise acts after gates and resets and before measurements, and the flip
    channels of resets and measurements are visible in their basis. *)
Theorem C56_noise_after_gates m o qs m' c :
  apply o qs m = (m', Ok c) -> measures o = false -> (forall s, kind m <> Decoh s) ->
  events c = map Gate (ideal c) ++ map Noise (noise_of c).
Proof. exact (C56_after m o qs m' c). Qed.
Print Assumptions C56_noise_after_gates.
Theorem C56_noise_before_measurements m o qs m' c :
  apply o qs m = (m', Ok c) -> measures o = true -> (forall s, kind m <> Decoh s) ->
  events c = map Noise (noise_of c) ++ map Gate (ideal c).
Proof. exact (C56_before m o qs m' c). Qed.
Print Assumptions C56_noise_before_measurements.
(* missing: measure_y of BiasedCircuitNoiseModel, for which it is false *)
Theorem C56_errors_flip_partial m o qs m' c :
  apply o qs m = (m', Ok c) -> measures o || prepares o = true ->
  (forall s, kind m <> Decoh s) -> ~ (kind m = Biased /\ o = OMY) ->
  forall n g t, In n (noise_of c) -> In (A1 g t) (ideal c) -> flips (fst (fst n)) g = true.
Proof. exact (C56_flips m o qs m' c). Qed.
Print Assumptions C56_errors_flip_partial.
Example C56_nonvacuous : exists m' c,
  apply OMX ["X1"; "D1"] (ex_model2 Biased) = (m', Ok c) /\
  length (noise_of c) = 2%nat /\ length (ideal c) = 2%nat.
Proof. eexists; eexists. split; [vm_compute; reflexivity|]. split; vm_compute; reflexivity. Qed.
(* the X_ERROR that measure_y of BiasedCircuitNoiseModel puts before its MX never
   changes the outcome *)
Theorem C56_biased_measure_y_refuted : exists m qs m' c n g t,
  kind m = Biased /\ apply OMY qs m = (m', Ok c) /\
  In n (noise_of c) /\ In (A1 g t) (ideal c) /\ flips (fst (fst n)) g = false.
Proof.
  exists (ex_model2 Biased), ["D1"]. do 2 eexists.
  exists (X_ERROR, [TQ 3], [ANum (Q2Qc (3 # 100))]), GMX, (TQ 3).
  split; [reflexivity|]. split; [vm_compute; reflexivity|]. vm_compute. auto.
Qed.
Print Assumptions C56_biased_measure_y_refuted.

(** C57. The channels of ExperimentalNoiseModel, PhenomenologicalNoiseModel and of
    incoming_noise. *)
Theorem C57_experimental_per_qubit m o qs m' c g p :
  kind m = Exper -> apply o qs m = (m', Ok c) -> channel1x o = Some (g, p) ->
  Forall2 (fun q a => channel_for m g p [q] a) qs (noise_of c).
Proof. exact (C57_exper1 m o qs m' c g p). Qed.
Print Assumptions C57_experimental_per_qubit.
Theorem C57_experimental_per_pair m o qs m' c g p :
  kind m = Exper -> apply o qs m = (m', Ok c) -> channel2 o = Some (g, p) ->
  Forall2 (fun q a => channel_for m g p q a) (pairs_of qs) (noise_of c).
Proof. exact (C57_exper2 m o qs m' c g p). Qed.
Print Assumptions C57_experimental_per_pair.
Theorem C57_phenomenological m o qs m' c :
  kind m = Phenom -> apply o qs m = (m', Ok c) -> o <> OINC ->
  match channel1x o with
  | Some (g, p) => if measures o then Forall2 (fun q a => channel_for m g p [q] a) qs (noise_of c)
                   else noise_of c = []
  | None => noise_of c = []
  end.
Proof. exact (C57_phenom m o qs m' c). Qed.
Print Assumptions C57_phenomenological.
Theorem C57_incoming_noise m qs m' c :
  apply OINC qs m = (m', Ok c) ->
  ideal c = [] /\
  match kind m with
  | Incoming | Phenom =>
      exists nx nz, noise_of c = nx ++ nz /\
        Forall2 (fun q a => channel_for m X_ERROR "idle_error_prob" [q] a) qs nx /\
        Forall2 (fun q a => channel_for m Z_ERROR "idle_error_prob" [q] a) qs nz
  | _ => noise_of c = []
  end.
Proof. exact (C57_incoming m qs m' c). Qed.
Print Assumptions C57_incoming_noise.
Example C57_nonvacuous : exists m1 c1 m2 c2,
  apply OCZ ["X1"; "D1"] (ex_model2 Exper) = (m1, Ok c1) /\ length (noise_of c1) = 1%nat /\
  apply OINC ["X1"; "D1"] (ex_model2 Phenom) = (m2, Ok c2) /\ length (noise_of c2) = 4%nat.
Proof. do 4 eexists. repeat split; vm_compute; reflexivity. Qed.
