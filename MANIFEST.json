{
 "claims": [
  {
   "property": "C01",
   "status": "proved",
   "theorems": [
    "C01_meas_target_kth_last"
   ],
   "note": "All six noise models, any history of successful calls."
  },
  {
   "property": "C02",
   "status": "proved",
   "theorems": [
    "C02_meas_target_range",
    "C02_new_circuit_empty",
    "C02_boundary_exception_refuted"
   ],
   "note": "The boundary index k = n raises IndexError instead of the announced ValueError (witness theorem)."
  },
  {
   "property": "C03",
   "status": "proved",
   "theorems": [
    "C03_parity_kept",
    "C03_even_removed",
    "C03_once_refuted"
   ],
   "note": "Both parts of the statement are proved. Extra finding: an outcome contributed three times is written three times."
  },
  {
   "property": "C04",
   "status": "proved",
   "theorems": [
    "C04_round_detectors",
    "C04_measurement_detectors"
   ],
   "note": ""
  },
  {
   "property": "C05",
   "status": "partial",
   "theorems": [
    "C05_deterministic_partial",
    "C05_two_patches_partial",
    "C05_gate_independent",
    "C05_composed_gates_refuted"
   ],
   "note": "False in general: the detectors use the inverse of the composed map. Proved for any gates whose composed stabilizer map between two rounds is an involution and whose rational change of basis has no even entry (automatic for gates between pairs of ancillas), in both gate-dependent frames and both reset conventions; and for the gate-independent frame without gates. All the ancillas are assumed to have the outcomes of the rounds that the detector uses."
  },
  {
   "property": "C06",
   "status": "partial",
   "theorems": [
    "C06_deterministic_partial",
    "C06_two_patches_partial",
    "C06_gate_independent"
   ],
   "note": "Same conditions as C05."
  },
  {
   "property": "C07",
   "status": "partial",
   "theorems": [
    "C07_mod2_partial",
    "C07_pairs_are_clean",
    "C07_even_entry_refuted"
   ],
   "note": "False: the inverse is computed over the reals and non-zero even entries are kept. Proved when the rational change of basis has no even entry, which always holds for gates between pairs of ancillas."
  },
  {
   "property": "C08",
   "status": "partial",
   "theorems": [
    "C08_basis_kept_partial",
    "C08_tidy_call",
    "C08_never_singular",
    "C08_deactivate_refuted"
   ],
   "note": "False with deactivate_detectors, which can make the generators dependent. Proved for every history without deactivations, and for deactivations of sets of ancillas whose generators do not involve other ancillas."
  },
  {
   "property": "C09",
   "status": "proved",
   "theorems": [
    "C09_total_rounds",
    "C09_active_rounds",
    "C09_frozen_rounds",
    "C09_never_active"
   ],
   "note": ""
  },
  {
   "property": "C10",
   "status": "partial",
   "theorems": [
    "C10_unknown_raises_partial",
    "C10_guard",
    "C10_partial_effect_refuted"
   ],
   "note": "False: the guard only detects strict supersets of the known labels, otherwise KeyError after a partial effect."
  },
  {
   "property": "C11",
   "status": "proved",
   "theorems": [
    "C11_transformation",
    "C11_accepts_iff_invertible"
   ],
   "note": ""
  },
  {
   "property": "C12",
   "status": "proved",
   "theorems": [
    "C12_updates_ignored",
    "C12_formula"
   ],
   "note": ""
  },
  {
   "property": "C13",
   "status": "proved",
   "theorems": [
    "C13_param_precedence"
   ],
   "note": "Values other than None, bool, rational, str and list of str are outside the model."
  },
  {
   "property": "C14",
   "status": "partial",
   "theorems": [
    "C14_fallback_is_global_partial",
    "C14_qubit_generic_refuted"
   ],
   "note": "The property is false: the fallback to the generic parameter forgets the qubits (setup.py:229). The partial theorem says what is returned instead."
  },
  {
   "property": "C15",
   "status": "partial",
   "theorems": [
    "C15_round_trip_partial",
    "C15_three_qubits_refuted",
    "C15_empty_setup_refuted",
    "C15_hidden_variable_refuted"
   ],
   "note": "False in general (entries of 3 or more qubits lose their qubits, an empty setup cannot be reloaded, free parameters named as parameters); proved under hypotheses that exclude exactly these three cases."
  },
  {
   "property": "C16",
   "status": "proved",
   "theorems": [
    "C16_set_param_frame",
    "C16_set_param_stored",
    "C16_loaded_ok",
    "C16_set_var_param_frame"
   ],
   "note": ""
  },
  {
   "property": "C17",
   "status": "partial",
   "theorems": [
    "C17_same_ideal_circuit_partial",
    "C17_biased_measure_y_refuted"
   ],
   "note": "False for BiasedCircuitNoiseModel.measure_y (emits MX); proved for every other model and operation."
  },
  {
   "property": "C18",
   "status": "proved",
   "theorems": [
    "C18_one_channel_per_qubit",
    "C18_one_channel_per_pair",
    "C18_no_other_noise"
   ],
   "note": ""
  },
  {
   "property": "C19",
   "status": "proved",
   "theorems": [
    "C19_operators",
    "C19_biased_prefactors"
   ],
   "note": ""
  },
  {
   "property": "C20",
   "status": "proved",
   "theorems": [
    "C20_num_biased_ops"
   ],
   "note": ""
  },
  {
   "property": "C21",
   "status": "proved",
   "theorems": [
    "C21_idle_probs_valid",
    "C21_idle_probs_rejects",
    "C21_unphysical_T2"
   ],
   "note": "Over the reals: uses the axioms of the stdlib Reals."
  },
  {
   "property": "C22",
   "status": "proved",
   "theorems": [
    "C22_layout_round_trip"
   ],
   "note": "YAML is not modelled. set_param on the index attribute is excluded (it does not change the index of the layout but the copy would use it)."
  },
  {
   "property": "C23",
   "status": "proved",
   "theorems": [
    "C23_labels",
    "C23_indices"
   ],
   "note": ""
  },
  {
   "property": "C24",
   "status": "proved",
   "theorems": [
    "C24_overlap_exact"
   ],
   "note": "For loaded layouts whose qubits all have coordinates."
  },
  {
   "property": "C25",
   "status": "proved",
   "theorems": [
    "C25_index_coords",
    "C25_expansion"
   ],
   "note": ""
  },
  {
   "property": "C26",
   "status": "proved",
   "theorems": [
    "C26_rot_counts"
   ],
   "note": ""
  },
  {
   "property": "C27",
   "status": "proved",
   "theorems": [
    "C27_rot_stabilizers"
   ],
   "note": ""
  },
  {
   "property": "C28",
   "status": "proved",
   "theorems": [
    "C28_rot_logicals"
   ],
   "note": ""
  },
  {
   "property": "C29",
   "status": "proved",
   "theorems": [
    "C29_rot_distances"
   ],
   "note": ""
  },
  {
   "property": "C30",
   "status": "proved",
   "theorems": [
    "C30_unrot_counts"
   ],
   "note": ""
  },
  {
   "property": "C31",
   "status": "proved",
   "theorems": [
    "C31_unrot_code"
   ],
   "note": ""
  },
  {
   "property": "C32",
   "status": "proved",
   "theorems": [
    "C32_unrot_distances"
   ],
   "note": ""
  },
  {
   "property": "C33",
   "status": "proved",
   "theorems": [
    "C33_rot_neighbours",
    "C33_unrot_neighbours"
   ],
   "note": ""
  },
  {
   "property": "C34",
   "status": "partial",
   "theorems": [
    "C34_rot_css",
    "C34_unrot_css",
    "C34_css_pipelined",
    "C34_xzzx_pipelined",
    "C34_google",
    "C34_xzzx_refuted"
   ],
   "note": "Proved for all sizes and set orders for the CSS rounds, both pipelined rounds and Google's round, at the level of the calls of the noise model. False for the XZZX round that is not pipelined: a misspelt variable makes a step repeat the CZ gates of an earlier one (witness)."
  },
  {
   "property": "C35",
   "status": "partial",
   "theorems": [
    "C35_rot_css_partial",
    "C35_unrot_css_partial",
    "C35_css_pipelined",
    "C35_narrow_refuted"
   ],
   "note": "Proved for all sizes with dz >= 2 (the pipelined round: all sizes), every noise model, setup, detector request and set order. False for dz = 1 with the rounds that are not pipelined (witnesses)."
  },
  {
   "property": "C36",
   "status": "partial",
   "theorems": [
    "C36_rot_css_partial",
    "C36_unrot_css_partial",
    "C36_css_pipelined",
    "C36_narrow_refuted"
   ],
   "note": "As C35; the other operators are shown to become random."
  },
  {
   "property": "C37",
   "status": "partial",
   "theorems": [
    "C37_xzzx_refuted",
    "C37_repaired_partial",
    "C37_only_step_g"
   ],
   "note": "False: a misspelt name in step g makes the round apply the CZ gates of an earlier step again and ancillas have random outcomes (witness of distance 3). Proved for every size of the round with that one step corrected, which is not the code of the repository. The pipelined and Google's rounds are C58 and C59."
  },
  {
   "property": "C38",
   "status": "proved",
   "theorems": [
    "C38_measurements",
    "C38_google",
    "C38_split",
    "C38_split_google"
   ],
   "note": "For every layout, noise model and set order, for the six memory experiments. The sampler itself (stim) and xarray are not modelled; the reshaping of one shot is."
  },
  {
   "property": "C39",
   "status": "proved",
   "theorems": [
    "C39_counts",
    "C39_google"
   ],
   "note": "For detectors over the ancillas of the layout (as the constructor call in the experiments' documentation)."
  },
  {
   "property": "C40",
   "status": "partial",
   "theorems": [
    "C40_rot_css_partial",
    "C40_unrot_css_partial",
    "C40_css_pipelined",
    "C40_xzzx_pipelined_partial",
    "C40_google_partial",
    "C40_xzzx_refuted",
    "C40_narrow_refuted"
   ],
   "note": "Proved for every size, number of rounds, basis, reset convention, frame, data_init, noise model and set order for the CSS experiments (dz >= 2; the pipelined one: every size), the pipelined XZZX and Google's experiments (dx, dz >= 2). False for memory_experiment of rot_surface_code_xzzx (random detectors, distance 3 witness) and for a single row or column (witnesses)."
  },
  {
   "property": "C41",
   "status": "partial",
   "theorems": [
    "C41_refuted",
    "C41_orientations_partial"
   ],
   "note": "Refuted for 'alternating': the exchange of the layouts persists, so the orientations are ABBAABBA... Proved: gate k has the given orientation iff k mod 4 is 0 or 3 ('alternating'), always ('constant')."
  },
  {
   "property": "C42",
   "status": "proved",
   "theorems": [
    "C42_blocks",
    "C42_raises"
   ],
   "note": "The raised exceptions include the one for an empty list. Circuits with SHIFT_COORDS are not modelled; the printed arguments are an arbitrary function of the arguments."
  },
  {
   "property": "C43",
   "status": "partial",
   "theorems": [
    "C43_order_partial",
    "C43_refuted"
   ],
   "note": "False: instructions of a block are sorted by name, which moves the error of a measurement after it (witness with the circuit noise model). Proved: the order on a qubit is kept exactly if it is alphabetical."
  },
  {
   "property": "C44",
   "status": "partial",
   "theorems": [
    "C44_aligned_partial",
    "C44_rounds_in_lockstep",
    "C44_meas_in_lockstep",
    "C44_xzzx_meas_in_lockstep",
    "C44_refuted"
   ],
   "note": "Proved for histories of operations, merged rounds and merged measurements if the single-qubit parameters are the same for all qubits. False otherwise: readout errors of single qubits interleave the measurements (witness)."
  },
  {
   "property": "C45",
   "status": "partial",
   "theorems": [
    "C45_indices_partial",
    "C45_supports_of_logicals",
    "C45_refuted"
   ],
   "note": "False for layouts with different numbers of logical qubits (witness); proved for equal numbers, with the supports."
  },
  {
   "property": "C46",
   "status": "proved",
   "theorems": [
    "C46_rot",
    "C46_unrot"
   ],
   "note": "Signs of the stabilizers are not tracked. The matcher of networkx is an arbitrary list of monomorphisms."
  },
  {
   "property": "C47",
   "status": "proved",
   "theorems": [
    "C47_rot",
    "C47_unrot"
   ],
   "note": "Up to signs; with signs in C70."
  },
  {
   "property": "C48",
   "status": "proved",
   "theorems": [
    "C48_unrot"
   ],
   "note": "Up to signs; with signs in C70."
  },
  {
   "property": "C49",
   "status": "partial",
   "theorems": [
    "C49_failed_call_no_effect_partial",
    "C49_failed_measure_refuted"
   ],
   "note": "False: a failing measure of NoiselessModel records the qubits before the failing one. Proved for operations that do not measure and for unknown qubits in four models."
  },
  {
   "property": "C50",
   "status": "partial",
   "theorems": [
    "C50_untouched_partial",
    "C50_other_patch_refuted"
   ],
   "note": "False when gates separate the last round from the measurement (witness). Proved for every ancilla whose stabilizer the gates before the measurement keep, whatever is measured, activated or deactivated and for every frame; that the next round raises nothing is C08."
  },
  {
   "property": "C51",
   "status": "partial",
   "theorems": [
    "C51_neighbors_partial",
    "C51_refuted"
   ],
   "note": "False with direction=d when the description gives the same neighbour in two directions (the last one wins); proved otherwise."
  },
  {
   "property": "C52",
   "status": "proved",
   "theorems": [
    "C52_get_qubits",
    "C52_support",
    "C52_projection"
   ],
   "note": ""
  },
  {
   "property": "C53",
   "status": "partial",
   "theorems": [
    "C53_biased_channel_per_qubit",
    "C53_biased_channel_per_pair",
    "C53_biased_reset_measure",
    "C53_biased_no_other_noise",
    "C53_biased_pauli_literal_refuted"
   ],
   "note": "The channels are proved for every call that returns. False part: a biased Pauli written in the configuration is taken for an unset variable and raises until set_var_param is called (witness). measure_y: see C17 and C56."
  },
  {
   "property": "C54",
   "status": "proved",
   "theorems": [
    "C54_symmetric",
    "C54_asymmetric",
    "C54_idle_duration"
   ],
   "note": "The probabilities are symbolic here; C21 gives their values. Asymmetric measurements of at least one qubit are outside the model (a label is given to stim as a target)."
  },
  {
   "property": "C55",
   "status": "proved",
   "theorems": [
    "C55_readout_flips",
    "C55_noiseless_readout"
   ],
   "note": ""
  },
  {
   "property": "C56",
   "status": "partial",
   "theorems": [
    "C56_noise_after_gates",
    "C56_noise_before_measurements",
    "C56_errors_flip_partial",
    "C56_biased_measure_y_refuted"
   ],
   "note": "False for measure_y of BiasedCircuitNoiseModel: X_ERROR before MX. Proved for every other case."
  },
  {
   "property": "C57",
   "status": "proved",
   "theorems": [
    "C57_experimental_per_qubit",
    "C57_experimental_per_pair",
    "C57_phenomenological",
    "C57_incoming_noise"
   ],
   "note": ""
  },
  {
   "property": "C58",
   "status": "partial",
   "theorems": [
    "C58_xzzx_pipelined_partial",
    "C58_narrow_refuted"
   ],
   "note": "Proved for dx, dz >= 2; false for one row or column (witness)."
  },
  {
   "property": "C59",
   "status": "proved",
   "theorems": [
    "C59_google"
   ],
   "note": ""
  },
  {
   "property": "C60",
   "status": "proved",
   "theorems": [
    "C60_round",
    "C60_final",
    "C60_observable",
    "C60_google_round",
    "C60_google_final",
    "C60_google_observable"
   ],
   "note": "For the six memory experiments on any layout. C60_final assumes that an ancilla is not its own neighbour, C60_observable that no qubit is twice in the logical operator."
  },
  {
   "property": "C61",
   "status": "proved",
   "theorems": [
    "C61_init",
    "C61_meas"
   ],
   "note": "Any layout that was loaded and then edited with set_param; all noise models."
  },
  {
   "property": "C62",
   "status": "proved",
   "theorems": [
    "C62_memory",
    "C62_google"
   ],
   "note": "The five memory experiments; in Google's experiment, whose rounds contain X gates by design, only the preparation is stated."
  },
  {
   "property": "C63",
   "status": "partial",
   "theorems": [
    "C63_record_partial",
    "C63_refuted"
   ],
   "note": "Proved when all measurements have one kind; false otherwise (witness)."
  },
  {
   "property": "C64",
   "status": "proved",
   "theorems": [
    "C64_round_alone",
    "C64_rot_css",
    "C64_unrot_css",
    "C64_log_meas"
   ],
   "note": "C64_round_alone for any generators in lockstep; the others for generated CSS codes and for logical measurements in one basis."
  },
  {
   "property": "C65",
   "status": "partial",
   "theorems": [
    "C65_measured_partial",
    "C65_refuted"
   ],
   "note": "Proved for one basis. False for different bases with log_meas_iterator: one generator is longer and zip drops its last step, the measurement, after the model has recorded it (witness)."
  },
  {
   "property": "C66",
   "status": "proved",
   "theorems": [
    "C66_rot_s",
    "C66_pipelined_s",
    "C66_unrot_s",
    "C66_unrot_h",
    "C66_gate_independent_refuted"
   ],
   "note": "For the S experiments of the rotated (also pipelined) and unrotated CSS codes and the H experiment of the unrotated code, all inputs on which they do not raise. The last theorem shows that the restriction of the frame is needed: in the gate-independent frame detectors are random (witness)."
  },
  {
   "property": "C67",
   "status": "proved",
   "theorems": [
    "C67_record",
    "C67_counts",
    "C67_data",
    "C67_sequence"
   ],
   "note": "For layouts that were loaded and edited with set_param."
  },
  {
   "property": "C68",
   "status": "proved",
   "theorems": [
    "C68_sequence",
    "C68_counts",
    "C68_round_counts"
   ],
   "note": "For any pair of layouts and any generator of rounds."
  },
  {
   "property": "C69",
   "status": "partial",
   "theorems": [
    "C69_rot_partial",
    "C69_unrot_partial",
    "C69_per_qubit_refuted",
    "C69_gate_independent_refuted"
   ],
   "note": "Proved for the rotated and unrotated CSS codes of every size (dz >= 2), both orientations, also without rounds between the gates, if the noise parameters are the same for all qubits. False otherwise: with readout errors of single qubits the detectors of the merged rounds name wrong outcomes (C44) and are random (witness). The last theorem shows that the restriction of the frame is needed."
  },
  {
   "property": "C70",
   "status": "partial",
   "theorems": [
    "C70_cnot_rot",
    "C70_cnot_unrot",
    "C70_s_unrot",
    "C70_h_unrot",
    "C70_s_rot_partial",
    "C70_s_rot_refuted"
   ],
   "note": "Proved for CNOT, for S and H of the unrotated code. False for S of the rotated code: exactly one X-type generator gets the sign -1, the one that acts on the data qubit with the S_DAG gate (proved for all sizes; witness 3x4)."
  },
  {
   "property": "C71",
   "status": "proved",
   "theorems": [
    "C71_rot",
    "C71_unrot"
   ],
   "note": ""
  },
  {
   "property": "C72",
   "status": "proved",
   "theorems": [
    "C72_cnot_rot",
    "C72_cnot_unrot",
    "C72_s_rot",
    "C72_s_unrot",
    "C72_h_unrot"
   ],
   "note": "CNOT: dx, dz >= 1. For CNOT and for S of the rotated code the operators are exact; for S and H of the unrotated code up to a product of generators, which has sign +1 (the operator is stated with its power of i)."
  },
  {
   "property": "C73",
   "status": "partial",
   "theorems": [
    "C73_memory_partial",
    "C73_google_partial",
    "C73_library_setup",
    "C73_rounds",
    "C73_duration_refuted"
   ],
   "note": "Proved for all noise models of the library but ExperimentalNoiseModel and DecoherenceNoiseModel. For these two it is false: their idle needs a duration and no circuit block gives one, so every memory experiment raises (proved for all arguments)."
  },
  {
   "property": "C74",
   "status": "partial",
   "theorems": [
    "C74_rot_css_partial",
    "C74_unrot_css_partial",
    "C74_css_pipelined",
    "C74_xzzx_pipelined_partial",
    "C74_google_partial",
    "C74_one_row_refuted",
    "C74_xzzx_refuted"
   ],
   "note": "Proved for the CSS experiments of rotated and unrotated codes (dz >= 2; pipelined: dx, dz >= 1) and for the pipelined XZZX and Google's experiments (dx, dz >= 2). False elsewhere: two faults, which the noise of CircuitNoiseModel causes, break the code of distance three on one row, where the rounds measure wrong operators (C35, C58), and in the XZZX round that is not pipelined (C37). Not settled: Google's experiment on one row or column, whose detectors are random without faults (C40)."
  },
  {
   "property": "C75",
   "status": "partial",
   "theorems": [
    "C75_possible",
    "C75_possible_google",
    "C75_distance",
    "C75_distance_google",
    "C74_one_row_refuted",
    "C74_xzzx_refuted"
   ],
   "note": "The first sentence is proved for all memory experiments. The consequence for the distance is proved for dx, dz >= 2 (all experiments but the XZZX one that is not pipelined); elsewhere it is false with the noise of CircuitNoiseModel: the faults of C74_one_row_refuted and C74_xzzx_refuted are caused by that noise."
  },
  {
   "property": "C76",
   "status": "proved",
   "theorems": [
    "C76_attained",
    "C76_attained_google"
   ],
   "note": "The condition on measurements holds with every noise model whose measurement instructions have an argument (C76_case: CircuitNoiseModel)."
  },
  {
   "property": "C77",
   "status": "proved",
   "theorems": [
    "C77_s_rot",
    "C77_s_unrot",
    "C77_h_corner",
    "C77_cnot_rot",
    "C77_cnot_unrot"
   ],
   "note": "So the hypotheses of C46-C48 and C66-C72 can be met for codes of every size. set_trans_h also succeeds on other data qubits of a diagonal; only the corners are claimed. The matcher of networkx is an oracle that must find every monomorphism."
  },
  {
   "property": "C78",
   "status": "partial",
   "theorems": [
    "C78_set_coords_ends",
    "C78_set_coords_refuses",
    "C78_set_coords",
    "C78_rotated",
    "C78_unrotated_refuted"
   ],
   "note": "The last sentence is proved for the rotated codes and false for the unrotated ones: their directions are single words, so that zip leaves one number, and different qubits get the same coordinates. Not part of the claim: the loop takes as many steps as there are shortest paths, which grows exponentially with the distance."
  },
  {
   "property": "C79",
   "status": "partial",
   "theorems": [
    "C79_index_chain_ends",
    "C79_index_chain_unknown",
    "C79_index_chain",
    "C79_open_chain",
    "C79_repetition_code",
    "C79_ring_refuted"
   ],
   "note": "Only the last sentence is false: around a ring the qubit opposite to the first one is queued twice, and an integer is left out."
  },
  {
   "property": "C80",
   "status": "partial",
   "theorems": [
    "C80_repeated_partial",
    "C80_numbers",
    "C80_duration_refuted"
   ],
   "note": "Proved for all noise models of the library but ExperimentalNoiseModel and DecoherenceNoiseModel, for which every such experiment raises (proved for all arguments): their idle needs a duration."
  },
  {
   "property": "C81",
   "status": "partial",
   "theorems": [
    "C81_rot_partial",
    "C81_unrot_partial",
    "C81_library_setup",
    "C81_arguments",
    "C81_duration_refuted",
    "C81_per_qubit_refuted"
   ],
   "note": "Proved if the noise parameters are the same for all qubits and all pairs, as in CircuitNoiseSetup. False otherwise: with a readout error of its own for one ancilla of one layout merge_tick_blocks raises ValueError (proved on a pair of distance-2 codes). ExperimentalNoiseModel and DecoherenceNoiseModel always raise: their idle needs a duration."
  },
  {
   "property": "C82",
   "status": "proved",
   "theorems": [
    "C82_history",
    "C82_attributes"
   ],
   "note": "The setup object is shared too: changing its parameters between experiments is not a use in this sense. Blocks such as qec_round called directly are sequences of the uses listed."
  },
  {
   "property": "C83",
   "status": "proved",
   "theorems": [
    "C83_memory",
    "C83_google"
   ],
   "note": "The orders of iteration of sets are assumed to be the same in every round, as in one Python process."
  },
  {
   "property": "C84",
   "status": "proved",
   "theorems": [
    "C84_experiment",
    "C84_operation",
    "C84_numberings"
   ],
   "note": ""
  },
  {
   "property": "C85",
   "status": "proved",
   "theorems": [
    "C85_noiseless",
    "C85_any_two"
   ],
   "note": "Experiments on one layout. In the CNOT experiments the merged circuits sort instructions by name, noise included, so that the order inside a time step may differ; not covered. BiasedCircuitNoiseModel.measure_y (C17) is not used by the experiments."
  },
  {
   "property": "C86",
   "status": "proved",
   "theorems": [
    "C86_fewer",
    "C86_gauge",
    "C86_set"
   ],
   "note": "All experiments. Orders of iteration of sets are permutations."
  },
  {
   "property": "C87",
   "status": "proved",
   "theorems": [
    "C87_bitstring",
    "C87_records"
   ],
   "note": "All experiments."
  }
 ]
}