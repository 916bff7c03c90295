{"id": "C01", "title": "meas_target names the k-th last measurement", "statement": "After any sequence of operations requested from a model (gates, resets, idling, measurements in any basis, in any order and with any repetition), if the returned circuits are concatenated in call order, model.meas_target(q, -k) with 1 <= k <= (number of times q was measured) is rec[-j] where j counts back to exactly the k-th last measurement of q in the concatenated circuit.", "quantifier": "every model configuration with distinct qubit indices, every finite history of model calls, every qubit and every valid k", "why_tests_cant": "the set of histories is infinite; a test fixes one interleaving of qubits and repetitions", "anchors": ["surface_sim/models/model.py:Model.add_meas", "surface_sim/models/model.py:Model.meas_target", "surface_sim/models/model.py:Model.new_circuit", "surface_sim/models/library.py"]}
{"id": "C02", "title": "meas_target rejects every index outside the history", "statement": "model.meas_target(q, k) raises an exception (ValueError, or IndexError when k is exactly n) for every k that does not address one of the n recorded measurements of q (k < -n or k >= n), and for every k in [-n, n-1] it returns a record between -num_meas and -1; after new_circuit() no measurement is addressable.", "quantifier": "every measurement history, every known qubit, every integer k", "why_tests_cant": "off-by-one at one end of an unbounded index range; tests sample a couple of indices", "anchors": ["surface_sim/models/model.py:Model.meas_target"]}
{"id": "C03", "title": "Removing pairs keeps the parity", "statement": "The record targets written in a DETECTOR are the simplification of the list of contributions modulo pairs: for every assignment of outcomes the parity of the targets equals the parity of all the contributions, and an outcome contributed an even number of times never appears.", "quantifier": "every list of contributions, every assignment of measurement outcomes", "why_tests_cant": "holds for all lists and all 2^n outcome assignments", "anchors": ["surface_sim/detectors/detectors.py:remove_pairs"]}
{"id": "C04", "title": "One detector per ancilla and round, at the right time coordinate", "statement": "Every successful build_from_anc call returns exactly one DETECTOR per ancilla of the Detectors object, with coordinates (ancilla coords, r) where r is the number of build_from_anc calls since new_circuit() minus one; ancillas that are inactive or not requested get a DETECTOR without targets. build_from_data returns exactly one DETECTOR per reconstructable ancilla with time coordinate (number of rounds so far) - 1/2.", "quantifier": "every history of Detectors calls, every frame, every requested subset", "why_tests_cant": "quantifies over call histories and ancilla sets of any size", "anchors": ["surface_sim/detectors/detectors.py:Detectors.build_from_anc", "surface_sim/detectors/detectors.py:Detectors.build_from_data"]}
{"id": "C05", "title": "Round detectors are deterministic without noise", "statement": "In the absence of noise, every detector returned by build_from_anc from the second round after activation on has even parity: if the true stabilizer values of consecutive rounds are related by the stabilizer maps passed to update()/update_from_dict() (S'_i = U^dagger S_i U, as documented), and outcomes are the stabilizer values (ancillas reset) or their running parity (no reset), then the XOR of the listed outcomes is 0.", "quantifier": "every number of ancillas, every sequence of rounds and updates, both gate-dependent frames, both reset conventions, every initial stabilizer value", "why_tests_cant": "the claim ranges over all outcome assignments and all gate sequences; tests look at literal target lists for one 2x2 matrix", "anchors": ["surface_sim/detectors/detectors.py:Detectors.update", "surface_sim/detectors/detectors.py:Detectors.build_from_anc", "surface_sim/detectors/detectors.py:_get_ancilla_meas_for_detectors"]}
{"id": "C06", "title": "Logical-measurement detectors are deterministic without noise", "statement": "In the absence of noise, every detector returned by build_from_data for an ancilla that has been measured in at least one round has even parity, where the value of a stabilizer reconstructed from the data outcomes is the XOR of the outcomes on its support.", "quantifier": "every number of ancillas and data qubits, every support map, every history, all frames, both reset conventions", "why_tests_cant": "ranges over all histories and all outcome assignments", "anchors": ["surface_sim/detectors/detectors.py:Detectors.build_from_data"]}
{"id": "C07", "title": "The frame change is done modulo 2", "statement": "The outcomes listed in a gate-dependent detector are exactly those given by the change of basis over GF(2) between the previous and the current stabilizer generators.", "quantifier": "every pair of invertible generator matrices reachable by updates, any number of ancillas", "why_tests_cant": "the code inverts over the reals; agreement with GF(2) depends on the matrices and only fails from 3 generators on", "anchors": ["surface_sim/detectors/detectors.py:_get_ancilla_meas_for_detectors"]}
{"id": "C08", "title": "The stabilizer generators stay a basis", "statement": "After any sequence of activate/deactivate/update/build calls the current and previous stabilizer generators remain independent (invertible), so that no later build call can fail with a singular matrix.", "quantifier": "every history of Detectors calls", "why_tests_cant": "an invariant over all histories", "anchors": ["surface_sim/detectors/detectors.py:Detectors.update", "surface_sim/detectors/detectors.py:Detectors.deactivate_detectors"]}
{"id": "C09", "title": "Round counters follow the activation history", "statement": "num_rounds[a] is the number of build_from_anc calls since a was last activated for an active ancilla, stays frozen while inactive, and total_num_rounds is the number of build_from_anc calls since new_circuit().", "quantifier": "every history of Detectors calls", "why_tests_cant": "an invariant over all histories", "anchors": ["surface_sim/detectors/detectors.py:Detectors.activate_detectors", "surface_sim/detectors/detectors.py:Detectors.deactivate_detectors", "surface_sim/detectors/detectors.py:Detectors.build_from_anc"]}
{"id": "C10", "title": "Unknown ancillas are rejected without side effects", "statement": "activate_detectors/deactivate_detectors given a label that is not an ancilla of the object raise ValueError and leave the object unchanged.", "quantifier": "every state and every list of labels", "why_tests_cant": "universally quantified over labels mixed with valid ones", "anchors": ["surface_sim/detectors/detectors.py:Detectors.activate_detectors", "surface_sim/detectors/detectors.py:Detectors.deactivate_detectors"]}
{"id": "C11", "title": "update_from_dict applies exactly the described transformation", "statement": "update_from_dict(d) replaces the generator of every ancilla a listed in d by the XOR of the generators of d[a] (duplicates counted once), leaves the others unchanged, and rejects with ValueError and no change every d whose transformation is singular modulo 2.", "quantifier": "every state, every dictionary over the known ancillas", "why_tests_cant": "all dictionaries of all sizes", "anchors": ["surface_sim/detectors/detectors.py:Detectors.update_from_dict", "surface_sim/detectors/detectors.py:Detectors.update"]}
{"id": "C12", "title": "Gate-independent frame ignores the gates", "statement": "With frame='gate-independent' the detectors returned by any history of calls do not change if update()/update_from_dict() calls are inserted or removed, and detector a of round r is m(a,r) XOR m(a,r-1) (with reset) or m(a,r) XOR m(a,r-2) (without).", "quantifier": "every history, every interleaving of updates", "why_tests_cant": "ranges over all pairs of histories", "anchors": ["surface_sim/detectors/detectors.py:Detectors.build_from_anc", "surface_sim/detectors/detectors.py:Detectors.build_from_data"]}
{"id": "C13", "title": "Parameter lookup precedence", "statement": "Setup.param(p, *qubits) returns the value set for exactly these qubits if there is one, otherwise the global value, otherwise the value of the generic parameter it inherits from (sq_/tq_ error probability, ...), resolving free-parameter names; it raises exactly when none exists or the free parameter has no value.", "quantifier": "every setup dictionary, every parameter name and qubit tuple", "why_tests_cant": "all combinations of local/global/parent/free definitions", "anchors": ["surface_sim/setup/setup.py:Setup.param", "surface_sim/setup/setup.py:Setup._eval_param_val"]}
{"id": "C14", "title": "Qubit-specific generic parameters are honoured", "statement": "If the generic parameter of a gate (for instance sq_error_prob) is given for a specific qubit, the specific one (x_error_prob) asked for that qubit falls back to that value.", "quantifier": "every setup and qubit", "why_tests_cant": "a precedence rule over all configurations", "anchors": ["surface_sim/setup/setup.py:Setup.param", "surface_sim/setup/setup.py:PARENTS"]}
{"id": "C15", "title": "Setup round trip", "statement": "Setup(setup.to_dict()) answers every param(p, *qubits) and gate_duration(g) query as the original setup with its free parameters unset.", "quantifier": "every loadable setup, every query", "why_tests_cant": "all setups and queries", "anchors": ["surface_sim/setup/setup.py:Setup.to_dict", "surface_sim/setup/setup.py:Setup._load_setup"]}
{"id": "C16", "title": "Setting a parameter affects only that parameter", "statement": "set_param(p, v, *qubits) makes param(p, *qubits) return v and leaves the answer of param for every other (parameter, qubits) stored entry unchanged; set_var_param(name, v) changes exactly the answers whose stored value is name.", "quantifier": "every setup, every parameter, value and qubits", "why_tests_cant": "frame condition over all other queries", "anchors": ["surface_sim/setup/setup.py:Setup.set_param", "surface_sim/setup/setup.py:Setup.set_var_param"]}
{"id": "C17", "title": "All noise models implement the same ideal circuit", "statement": "For every operation of the model API, the circuit returned by a noise model with its noise instructions and readout-flip arguments removed is the circuit returned by NoiselessModel, and it records the same measurements.", "quantifier": "every noise model, every operation, every qubit list, every setup for which the call succeeds", "why_tests_cant": "all operations of all models on all qubit lists and parameters", "anchors": ["surface_sim/models/library.py"]}
{"id": "C18", "title": "Noise stays on the qubits of the operation", "statement": "Every noise instruction returned by an operation of CircuitNoiseModel targets only qubits of that operation; every one-qubit operation attaches exactly one channel per listed qubit and every two-qubit gate exactly one channel per pair, with the probability given by the setup for those qubits.", "quantifier": "every operation, qubit list and setup", "why_tests_cant": "all qubit lists and all per-qubit parameter assignments", "anchors": ["surface_sim/models/library.py:CircuitNoiseModel"]}
{"id": "C19", "title": "Biased prefactors form a distribution", "statement": "biased_prefactors(P, eta, n) returns 4^n - 1 numbers that sum to 1, are non-negative for eta >= 0, and every operator containing P has eta times the prefactor of one that does not.", "quantifier": "every Pauli P in {X,Y,Z}, every n >= 1, every eta >= 0", "why_tests_cant": "all n and all real bias factors", "anchors": ["surface_sim/models/util.py:biased_prefactors"]}
{"id": "C20", "title": "num_biased_ops counts the biased operators", "statement": "num_biased_ops(n) = 4^n - 3^n, the number of n-qubit Pauli operators that apply a given non-identity Pauli on some qubit.", "quantifier": "every n", "why_tests_cant": "all n", "anchors": ["surface_sim/models/util.py:num_biased_ops"]}
{"id": "C21", "title": "Idling error probabilities are probabilities", "statement": "For 0 < T1, 0 < T2 <= 2*T1 and duration > 0, idle_error_probs returns three non-negative numbers whose sum is below 1; it raises ValueError exactly when one of the three arguments is not positive; for T2 > 2*T1 some duration gives a negative probability.", "quantifier": "all real T1, T2, durations", "why_tests_cant": "all real inputs", "anchors": ["surface_sim/models/util.py:idle_error_probs"]}
{"id": "C22", "title": "Layout round trip", "statement": "Layout(layout.to_dict()) has the same qubits in the same order, the same indices, the same attributes, the same directed neighbours and the same code attributes as layout.", "quantifier": "every loadable layout description", "why_tests_cant": "all layout descriptions", "anchors": ["surface_sim/layouts/layout.py:Layout.to_dict", "surface_sim/layouts/layout.py:Layout._load_layout"]}
{"id": "C23", "title": "Indices and labels are in bijection", "statement": "In every loaded layout the labels are distinct, get_inds is defined exactly on them and injective, and indices given in the description are the ones used; duplicated labels or indices, or indices given for only part of the qubits, are rejected.", "quantifier": "every layout description", "why_tests_cant": "all layout descriptions", "anchors": ["surface_sim/layouts/layout.py:Layout._load_layout", "surface_sim/layouts/layout.py:Layout.get_inds", "surface_sim/layouts/layout.py:Layout.get_labels_from_inds"]}
{"id": "C24", "title": "Overlap check is exact", "statement": "check_overlap_layouts(l1,...,ln) raises exactly when two of the layouts share a qubit label, a qubit index, a coordinate or a logical qubit label.", "quantifier": "every list of layouts, any length", "why_tests_cant": "all lists of layouts", "anchors": ["surface_sim/layouts/operations.py:check_overlap_layouts"]}
{"id": "C25", "title": "Coordinate indices are injective", "statement": "index_coords maps the qubits to (row, col) grid indices such that two qubits get the same cell only if they have the same coordinates, whatever the order in which the set of coordinates is enumerated.", "quantifier": "every list of coordinates, every set-iteration order", "why_tests_cant": "iteration order of sets is not observable in one run; all coordinate lists", "anchors": ["surface_sim/layouts/layout.py:index_coords", "surface_sim/layouts/layout.py:Layout.expansion_matrix"]}
{"id": "C26", "title": "Rotated layout: counts, labels and indices", "statement": "rot_surface_code_rectangle(distance_x=dx, distance_z=dz) has dx*dz data qubits and dx*dz-1 ancillas, all labels are distinct, and the indices are exactly init_ind, ..., init_ind + 2*dx*dz - 2.", "quantifier": "all dx, dz >= 1 and all offsets", "why_tests_cant": "all sizes", "anchors": ["surface_sim/layouts/library/rot_surface_codes.py:rot_surface_code_rectangle"]}
{"id": "C27", "title": "Rotated layout: stabilizers commute and have weight 2 or 4", "statement": "In a rotated layout every X-type and every Z-type ancilla share an even number of data-qubit neighbours and every ancilla has 2 or 4 neighbours.", "quantifier": "all dx, dz >= 2, all pairs of ancillas", "why_tests_cant": "all sizes and all pairs", "anchors": ["surface_sim/layouts/library/rot_surface_codes.py:rot_surface_code_rectangle"]}
{"id": "C28", "title": "Rotated layout: logical operators", "statement": "log_z overlaps every X-type ancilla on an even number of data qubits, log_x every Z-type ancilla, and log_x and log_z share exactly one data qubit; they have weights dx and dz.", "quantifier": "all dx, dz >= 1", "why_tests_cant": "all sizes", "anchors": ["surface_sim/layouts/library/rot_surface_codes.py:rot_surface_code_rectangle"]}
{"id": "C29", "title": "Rotated layout: the code has the announced distances", "statement": "Every X-type operator that commutes with all Z-type stabilizers and anticommutes with log_z acts on at least distance_x data qubits, every Z-type operator that commutes with all X-type stabilizers and anticommutes with log_x acts on at least distance_z, and both bounds are attained by log_x and log_z.", "quantifier": "all dx, dz >= 1 and all 2^(dx*dz) operators", "why_tests_cant": "exponentially many operators for each of infinitely many sizes", "anchors": ["surface_sim/layouts/library/rot_surface_codes.py:rot_surface_code_rectangle"]}
{"id": "C30", "title": "Unrotated layout: counts, labels and indices", "statement": "unrot_surface_code_rectangle(dx, dz) has dx*dz + (dx-1)*(dz-1) data qubits and one ancilla less, all labels are distinct, and the indices are contiguous from init_ind.", "quantifier": "all dx, dz >= 1 and all offsets", "why_tests_cant": "all sizes", "anchors": ["surface_sim/layouts/library/unrot_surface_codes.py:unrot_surface_code_rectangle"]}
{"id": "C31", "title": "Unrotated layout: stabilizers commute, logical operators", "statement": "In an unrotated layout X- and Z-type ancillas share an even number of data qubits, log_z (log_x) overlaps X-type (Z-type) ancillas evenly, and log_x and log_z share exactly one data qubit.", "quantifier": "all dx, dz >= 1", "why_tests_cant": "all sizes and pairs", "anchors": ["surface_sim/layouts/library/unrot_surface_codes.py:unrot_surface_code_rectangle"]}
{"id": "C32", "title": "Unrotated layout: the code has the announced distances", "statement": "Same minimum-weight statement as for the rotated layout.", "quantifier": "all dx, dz >= 1 and all operators", "why_tests_cant": "exponentially many operators for each size", "anchors": ["surface_sim/layouts/library/unrot_surface_codes.py:unrot_surface_code_rectangle"]}
{"id": "C33", "title": "Neighbour relation is symmetric with opposite directions", "statement": "In a generated layout b is the neighbour of a in a direction exactly when a is the neighbour of b in the opposite direction, and neighbours are always a data qubit and an ancilla at unit diagonal (rotated) or lattice (unrotated) displacement.", "quantifier": "all sizes, all qubits", "why_tests_cant": "all sizes", "anchors": ["surface_sim/layouts/library/rot_surface_codes.py", "surface_sim/layouts/library/unrot_surface_codes.py"]}
{"id": "C34", "title": "Each qubit does exactly one operation per time step", "statement": "In every TICK block of a QEC round (CSS rotated, CSS unrotated, pipelined, XZZX) every qubit of the layout is acted on by exactly one gate, reset, measurement or idle instruction.", "quantifier": "all sizes, all schedules, both reset conventions, every set-iteration order", "why_tests_cant": "all sizes; set orders are not reproducible between runs", "anchors": ["surface_sim/circuit_blocks/rot_surface_code_css.py:qec_round_iterator", "surface_sim/circuit_blocks/unrot_surface_code_css.py:qec_round_iterator", "surface_sim/circuit_blocks/rot_surface_code_css_pipelined.py:qec_round_iterator", "surface_sim/circuit_blocks/rot_surface_code_xzzx.py:qec_round_iterator"]}
{"id": "C35", "title": "A QEC round measures exactly the stabilizers", "statement": "Propagating the measured observable of ancilla a backwards through the QEC round gives Z on the reset ancilla times X (x_type) or Z (z_type) on exactly its data-qubit neighbours, and nothing else.", "quantifier": "all sizes, all ancillas, CSS rotated/unrotated/pipelined rounds", "why_tests_cant": "needs every size: interleaving errors only appear for particular boundary shapes", "anchors": ["surface_sim/circuit_blocks/rot_surface_code_css.py:qec_round_iterator", "surface_sim/circuit_blocks/unrot_surface_code_css.py:qec_round_iterator", "surface_sim/circuit_blocks/rot_surface_code_css_pipelined.py:qec_round_iterator"]}
{"id": "C36", "title": "A QEC round preserves the encoded information", "statement": "Every data-qubit Pauli operator that commutes with all the stabilizers (in particular the stabilizers and the logical operators) propagates backwards through a QEC round to itself, leaving the ancillas untouched.", "quantifier": "all sizes, all commuting operators", "why_tests_cant": "exponentially many operators", "anchors": ["surface_sim/circuit_blocks/rot_surface_code_css.py:qec_round_iterator", "surface_sim/circuit_blocks/unrot_surface_code_css.py:qec_round_iterator"]}
{"id": "C37", "title": "An XZZX round measures the XZZX stabilizers", "statement": "Propagating the measured observable of ancilla a backwards through the (non-pipelined) XZZX round gives X on its north-west/south-east and Z on its north-east/south-west neighbours times Z on the ancilla.", "quantifier": "all sizes, all ancillas", "why_tests_cant": "semantic statement about a circuit for all sizes", "anchors": ["surface_sim/circuit_blocks/rot_surface_code_xzzx.py:qec_round_iterator"]}
{"id": "C38", "title": "Memory experiment: number and order of measurements", "statement": "memory_experiment with R rounds records, in this order, every ancilla of the layout once per round in layout order and then every data qubit in layout order; hence the split done by sample_memory_experiment assigns outcome (round, ancilla) and (data qubit) correctly.", "quantifier": "all layouts, all R >= 0, all models whose calls succeed", "why_tests_cant": "all sizes and round counts", "anchors": ["surface_sim/experiments/rot_surface_code_css.py:memory_experiment", "surface_sim/util/data_gen.py:sample_memory_experiment"]}
{"id": "C39", "title": "Memory experiment: number of detectors and observables", "statement": "memory_experiment with R rounds defines R * (number of ancillas) + (number of stabilizers of the measured type) detectors and exactly one observable.", "quantifier": "all layouts, all R >= 0, both bases, both reset conventions, all frames", "why_tests_cant": "all sizes and round counts", "anchors": ["surface_sim/experiments/rot_surface_code_css.py:memory_experiment"]}
{"id": "C40", "title": "Memory experiment: detectors and observable are deterministic", "statement": "In memory_experiment with gauge_detectors=False every detector and the logical observable is deterministic in the noiseless circuit (the product of the measured operators it contains propagates backwards to operators fixed by the resets).", "quantifier": "all sizes (distance_z >= 2), all R, both bases, both reset conventions, gate-dependent and gate-independent frames, every data_init", "why_tests_cant": "all sizes and round counts; simulators check one circuit at a time", "anchors": ["surface_sim/experiments/rot_surface_code_css.py:memory_experiment", "surface_sim/circuit_blocks/util.py:log_meas", "surface_sim/circuit_blocks/util.py:init_qubits"]}
{"id": "C41", "title": "Alternating CNOT experiment alternates", "statement": "repeated_cnot_experiment(..., cnot_orientation='alternating') exchanges control and target at every gate.", "quantifier": "every number of gates", "why_tests_cant": "all gate counts", "anchors": ["surface_sim/experiments/rot_surface_code_css.py:repeated_cnot_experiment", "surface_sim/experiments/unrot_surface_code_css.py:repeated_cnot_experiment"]}
{"id": "C42", "title": "Merging keeps every instruction in its TICK block", "statement": "merge_circuits(c1,...,cn) has as many TICKs as each input and its i-th block contains exactly the instruction targets of the i-th blocks of the inputs; it raises exactly when the TICK counts differ or (check_meas) measurements are in several or different blocks.", "quantifier": "every list of circuits", "why_tests_cant": "all circuits", "anchors": ["surface_sim/util/circuit_operations.py:merge_circuits"]}
{"id": "C43", "title": "Merging keeps the order of operations on each qubit", "statement": "For every qubit, the sequence of instructions acting on it in merge_circuits(c1,...,cn) of circuits on disjoint qubits is the sequence in its own circuit.", "quantifier": "every list of circuits on disjoint qubits", "why_tests_cant": "all circuits; commuting reorderings hide it in tests", "anchors": ["surface_sim/util/circuit_operations.py:merge_circuits"]}
{"id": "C44", "title": "Merged QEC rounds keep the measurement record aligned", "statement": "In the circuit returned by merge_qec_rounds/merge_log_meas, model.meas_target(q, -1) refers to the measurement of q.", "quantifier": "all lists of layouts, all noise parameters", "why_tests_cant": "only visible for parameters that split the measurement instruction", "anchors": ["surface_sim/util/circuit_operations.py:merge_tick_blocks", "surface_sim/util/circuit_operations.py:merge_qec_rounds", "surface_sim/util/circuit_operations.py:merge_log_meas"]}
{"id": "C45", "title": "Merged logical measurement: one observable per logical qubit", "statement": "merge_log_meas assigns pairwise different observable indices to all the logical qubits of all the layouts.", "quantifier": "all lists of layouts with any number of logical qubits", "why_tests_cant": "all combinations of layouts", "anchors": ["surface_sim/util/circuit_operations.py:merge_log_meas"]}
{"id": "C46", "title": "Transversal CNOT updates the stabilizers correctly", "statement": "After set_trans_cnot(layout_c, layout_t), the new_stab_gen attributes describe the conjugation of every stabilizer by the transversal CNOT circuit that log_trans_cnot emits, and applying the map twice is the identity.", "quantifier": "all sizes, every graph matching returned by the isomorphism search", "why_tests_cant": "all sizes and matchings", "anchors": ["surface_sim/log_gates/rot_surface_code_css.py:set_trans_cnot", "surface_sim/log_gates/unrot_surface_code_css.py:set_trans_cnot", "surface_sim/circuit_blocks/util.py:log_trans_cnot"]}
{"id": "C47", "title": "Transversal S updates the stabilizers correctly", "statement": "After set_trans_s the new_stab_gen attributes describe the conjugation of every stabilizer by the circuit (S, S_DAG and CZ gates) that log_trans_s emits.", "quantifier": "all sizes accepted by set_trans_s", "why_tests_cant": "all sizes", "anchors": ["surface_sim/log_gates/rot_surface_code_css.py:set_trans_s", "surface_sim/log_gates/unrot_surface_code_css.py:set_trans_s", "surface_sim/circuit_blocks/util.py:log_trans_s"]}
{"id": "C48", "title": "Transversal H updates the stabilizers correctly", "statement": "After set_trans_h the new_stab_gen attributes describe the conjugation of every stabilizer by the circuit (H and SWAP gates) that log_trans_h emits.", "quantifier": "all sizes accepted by set_trans_h", "why_tests_cant": "all sizes", "anchors": ["surface_sim/log_gates/unrot_surface_code_css.py:set_trans_h", "surface_sim/circuit_blocks/util.py:log_trans_h"]}
{"id": "C49", "title": "A call that raises leaves the measurement record unchanged", "statement": "If a model operation raises, the measurement record of the model (what meas_target answers) is the one before the call.", "quantifier": "every model, every operation, every qubit list", "why_tests_cant": "error paths on every prefix of every qubit list", "anchors": ["surface_sim/models/library.py", "surface_sim/models/model.py:Model.add_meas"]}
{"id": "C50", "title": "Measuring one patch does not affect the detectors of the others", "statement": "build_from_data for the ancillas of some patches does not change the later detectors of the ancillas that were not measured: they stay deterministic without noise.", "quantifier": "every history of Detectors calls with a logical measurement of a subset of the ancillas, every sequence of gates", "why_tests_cant": "all interleavings of gates and measurements of patches", "anchors": ["surface_sim/detectors/detectors.py:Detectors.build_from_data"]}
{"id": "C51", "title": "get_neighbors returns exactly the described neighbours", "statement": "get_neighbors(qubits, as_pairs=True) returns each pair (q, neighbour) of the layout description with q in qubits exactly once; with direction=d exactly those in direction d.", "quantifier": "every layout description, every list of qubits (with repetitions and unknown labels), every direction", "why_tests_cant": "the graph stores one edge per pair of qubits, so the answer depends on the whole description", "anchors": ["surface_sim/layouts/layout.py:Layout.get_neighbors", "surface_sim/layouts/layout.py:Layout._load_layout"]}
{"id": "C52", "title": "Attribute queries are exact and matrices follow the neighbours", "statement": "get_qubits(**conds) returns exactly the qubits whose attributes have all the given values, in layout order, also after any set_param calls; the support of an ancilla used by Detectors and the entries of projection_matrix are the neighbour relation of get_neighbors.", "quantifier": "every layout, every set of conditions, every sequence of set_param calls", "why_tests_cant": "quantifies over arbitrary attribute dictionaries and edit histories", "anchors": ["surface_sim/layouts/layout.py:Layout.get_qubits", "surface_sim/layouts/layout.py:valid_attrs", "surface_sim/layouts/layout.py:Layout.projection_matrix", "surface_sim/detectors/detectors.py:get_support_from_adj_matrix"]}
{"id": "C53", "title": "Biased noise: total probability and bias", "statement": "Every gate of BiasedCircuitNoiseModel is followed by exactly one PAULI_CHANNEL per qubit (or per pair) on exactly those qubits; its probabilities sum to the error probability the setup gives for these qubits and every Pauli product containing the biased Pauli of these qubits is biased_factor times as likely as the others, in stim's argument order. Resets and measurements have the flip channels of CircuitNoiseModel, and a configuration can name the biased Pauli.", "quantifier": "every setup, every gate, every list of qubits or pairs", "why_tests_cant": "all setups (per qubit overrides), all qubit lists", "anchors": ["surface_sim/models/library.py:BiasedCircuitNoiseModel", "surface_sim/models/util.py:biased_prefactors"]}
{"id": "C54", "title": "Decoherence noise lasts exactly the duration of the operation", "statement": "In DecoherenceNoiseModel every qubit of an operation gets the idling channel of its own T1 and T2 for the duration of that operation: half before and half after when symmetric_noise is set, otherwise all of it after. idle(qubits, duration) of this model and of ExperimentalNoiseModel gives that channel for the duration.", "quantifier": "every setup, operation and list of qubits", "why_tests_cant": "all setups and qubit lists", "anchors": ["surface_sim/models/library.py:DecoherenceNoiseModel", "surface_sim/models/library.py:ExperimentalNoiseModel.idle"]}
{"id": "C55", "title": "Readout flips follow the setup per qubit", "statement": "A measurement of qubit q carries the assignment error probability of q exactly when the assignment error flag of q is set; the noiseless models never flip.", "quantifier": "every model, setup, measurement and list of qubits (with repetitions)", "why_tests_cant": "all setups and qubit lists", "anchors": ["surface_sim/models/library.py"]}
{"id": "C56", "title": "Noise is on the right side of the operation and can flip it", "statement": "Noise channels act after gates and resets and before measurements. The X_ERROR or Z_ERROR attached to a reset or measurement changes the prepared state or the outcome.", "quantifier": "every model other than DecoherenceNoiseModel, every operation and list of qubits", "why_tests_cant": "all setups and qubit lists", "anchors": ["surface_sim/models/library.py"]}
{"id": "C57", "title": "Experimental, phenomenological and incoming noise", "statement": "ExperimentalNoiseModel has one channel per qubit or pair with the parameter of that gate; PhenomenologicalNoiseModel has only measurement noise and incoming noise; incoming_noise of the models that have it is an X_ERROR and a Z_ERROR with idle_error_prob on every qubit, and nothing for the others.", "quantifier": "every setup, operation and list of qubits", "why_tests_cant": "all setups and qubit lists", "anchors": ["surface_sim/models/library.py:ExperimentalNoiseModel", "surface_sim/models/library.py:PhenomenologicalNoiseModel", "surface_sim/models/library.py:IncomingNoiseModel"]}
{"id": "C58", "title": "The pipelined XZZX round measures the XZZX stabilizers", "statement": "Propagating the measured observable of ancilla a backwards through the pipelined XZZX round gives X on its north-west/south-east and Z on its north-east/south-west neighbours (times Z on the ancilla if it is not reset). Operators of the data qubits that commute with all the stabilizers are preserved, the others become random.", "quantifier": "all sizes, ancillas, operators, noise models, set-iteration orders", "why_tests_cant": "all sizes; exponentially many operators", "anchors": ["surface_sim/circuit_blocks/rot_surface_code_xzzx_pipelined.py:qec_round"]}
{"id": "C59", "title": "Google's XZZX round measures the XZZX stabilizers", "statement": "Propagating the measured observable of ancilla a backwards through qec_round of the Google XZZX circuits gives X on its north-west/south-east and Z on its north-east/south-west neighbours times Z on the ancilla before the round; operators of the data qubits that commute with all the stabilizers are preserved.", "quantifier": "all sizes, ancillas, operators, noise models, set-iteration orders", "why_tests_cant": "all sizes; exponentially many operators", "anchors": ["surface_sim/circuit_blocks/rot_surface_code_xzzx_google.py:qec_round", "surface_sim/circuit_blocks/rot_surface_code_xzzx_google.py:coherent_qec_part"]}
{"id": "C60", "title": "Memory experiment: contents of the detectors and the observable", "statement": "In memory_experiment the detector of ancilla a in round r has the coordinates of a and time r, and is the parity of the outcome of a in that round and its outcome one (two without reset) rounds before, if there is one; the detectors after the last round have time R - 1/2 and add the outcomes of the data qubits next to a; the observable is the parity of the last outcomes of the logical operator's qubits. Detectors that are not requested, and the gauge ones of the first round, are empty.", "quantifier": "all layouts, numbers of rounds, rounds, ancillas, bases, reset conventions, frames, anc_detectors, noise models", "why_tests_cant": "all rounds and layouts; tests look at one circuit", "anchors": ["surface_sim/experiments/rot_surface_code_css.py:memory_experiment", "surface_sim/circuit_blocks/util.py:log_meas", "surface_sim/detectors/detectors.py:Detectors"]}
{"id": "C61", "title": "Initialization and logical measurement of single qubits", "statement": "The circuit returned by init_qubits (init_qubits_xzzx) acts on a qubit exactly by a reset if it is a qubit of the layout, then X if its entry in data_init is not 0, then H if it is to be in the X basis (all data qubits of a CSS code with rot_basis; in an XZZX code the data qubits where the generators of the chosen basis have an X factor). Afterwards all ancillas are active with zero rounds. log_meas (log_meas_xzzx) acts exactly by H on the same qubits and one measurement on every data qubit, and leaves all ancillas inactive.", "quantifier": "every layout, noise model, data_init, basis, state of the detectors and iteration order of sets", "why_tests_cant": "a missing or doubled gate on one qubit for some data_init, basis or layout is only seen by a test that uses that combination", "anchors": ["surface_sim/circuit_blocks/util.py: init_qubits, init_qubits_iterator, init_qubits_xzzx, log_meas, log_meas_xzzx"]}
{"id": "C62", "title": "Memory experiment: life of a data qubit", "statement": "In the circuit of memory_experiment every data qubit is first prepared as data_init and rot_basis say (reset, X, H), then only goes through H and two-qubit gates, with no Pauli gate, reset or measurement, and at the end is measured once in the basis of rot_basis.", "quantifier": "every layout, number of rounds, data_init, basis, noise model and iteration order of sets", "why_tests_cant": "must hold for all sizes and numbers of rounds", "anchors": ["surface_sim/experiments/*.py: memory_experiment", "surface_sim/circuit_blocks/*.py"]}
{"id": "C63", "title": "Merging keeps the measurement record", "statement": "The measurement outcomes of merge_circuits(c1,...,cn, check_meas=True) are those of c1, then those of c2, ..., so a record offset of ci can be translated.", "quantifier": "every list of circuits", "why_tests_cant": "the order only changes for mixtures of measurement bases or blocks that a test must contain", "anchors": ["surface_sim/util/circuit_operations.py:merge_circuits"]}
{"id": "C64", "title": "Merged rounds and measurements do to each qubit what its layout's circuit does", "statement": "On every qubit, the circuit of merge_qec_rounds (merge_log_meas) has exactly the operations and noise channels, in the same order, as the generator of the layout of the qubit run alone.", "quantifier": "all lists of layouts with different labels, all sizes, noise models, parameters and set-iteration orders", "why_tests_cant": "must hold for all layouts and parameters; a lost or reordered gate on one qubit is not visible in counts", "anchors": ["surface_sim/util/circuit_operations.py:merge_tick_blocks", "surface_sim/util/circuit_operations.py:merge_qec_rounds", "surface_sim/util/circuit_operations.py:merge_log_meas"]}
{"id": "C65", "title": "Merged logical measurement measures every data qubit", "statement": "The circuit returned by merge_log_meas measures every data qubit of every layout, for any choice of bases rot_bases.", "quantifier": "all lists of layouts and of bases", "why_tests_cant": "all combinations of bases", "anchors": ["surface_sim/util/circuit_operations.py:merge_log_meas"]}
{"id": "C66", "title": "Repeated transversal gates: deterministic detectors and observable", "statement": "Every detector and the observable of the circuit returned by repeated_s_experiment or repeated_h_experiment without gauge detectors has a deterministic parity in the absence of noise, if the detectors are in a frame that follows the gates (pre-gate or post-gate).", "quantifier": "all generated rotated and unrotated codes on which set_trans_s or set_trans_h succeeds, all numbers of gates and rounds, bases, reset conventions, subsets of detectors, initial states, noise models and iteration orders of sets", "why_tests_cant": "a detector that is random for one size, number of gates or order makes every decoding of that experiment wrong; needs an induction over gates and rounds", "anchors": ["surface_sim/experiments/rot_surface_code_css.py:repeated_s_experiment", "surface_sim/experiments/rot_surface_code_css_pipelined.py:repeated_s_experiment", "surface_sim/experiments/unrot_surface_code_css.py:repeated_s_experiment", "surface_sim/experiments/unrot_surface_code_css.py:repeated_h_experiment", "surface_sim/log_gates/unrot_surface_code_css.py:set_trans_s", "surface_sim/log_gates/unrot_surface_code_css.py:set_trans_h"]}
{"id": "C67", "title": "Repeated transversal gates: contents of the experiment", "statement": "The circuit of repeated_s_experiment or repeated_h_experiment consists of the initialization, one QEC round, num_gates times the gate followed by rounds_per_gate rounds, and the logical measurement. Its record has every ancilla once per round and then the data qubits; it has one detector per ancilla and round, one per stabilizer of the basis measured at the end, and one observable. A data qubit is prepared as data_init and rot_basis say, goes through H, S, S_DAG and two-qubit gates only, and is read out at the end in the basis of rot_basis, the other one after an odd number of H gates.", "quantifier": "every layout, number of gates and rounds, data_init, basis, detectors, frame, noise model and iteration order of sets", "why_tests_cant": "must hold for all sizes and numbers of gates and rounds; the counts say where decoders find the outcomes", "anchors": ["surface_sim/experiments/rot_surface_code_css.py:repeated_s_experiment", "surface_sim/experiments/rot_surface_code_css_pipelined.py:repeated_s_experiment", "surface_sim/experiments/unrot_surface_code_css.py:repeated_s_experiment", "surface_sim/experiments/unrot_surface_code_css.py:repeated_h_experiment"]}
{"id": "C68", "title": "Repeated CNOT: contents of the experiment", "statement": "The circuit of repeated_cnot_experiment consists of the merged initialization of both layouts with their parts of data_init, one merged QEC round, num_gates times the transversal CNOT followed by rounds_per_gate merged rounds, and the merged logical measurement in the basis of rot_basis. It has one detector per ancilla and round, one per stabilizer of the basis in both layouts, and one observable per logical qubit. With 'alternating' the layouts are exchanged for gates 1, 2, 5, 6, 9, ..., for their rounds, and for the measurement if the last gate was one of them.", "quantifier": "every pair of layouts, number of gates and rounds, data_init, orientation, basis, detectors, frame, noise model and iteration order of sets", "why_tests_cant": "must hold for all sizes and numbers of gates and rounds; the counts say where decoders find the outcomes", "anchors": ["surface_sim/experiments/rot_surface_code_css.py:repeated_cnot_experiment", "surface_sim/experiments/unrot_surface_code_css.py:repeated_cnot_experiment", "surface_sim/util/circuit_operations.py:merge_qec_rounds", "surface_sim/util/circuit_operations.py:merge_log_meas"]}
{"id": "C69", "title": "Repeated CNOT: deterministic detectors and observables", "statement": "Every detector and both observables of the circuit returned by repeated_cnot_experiment without gauge detectors have a deterministic parity in the absence of noise, if the detectors are in a frame that follows the gates (pre-gate or post-gate).", "quantifier": "all pairs of generated rotated or unrotated codes on which set_trans_cnot succeeds, all numbers of gates and rounds (also none between two gates), orientations, bases, reset conventions, subsets of detectors, initial states, noise parameters and iteration orders of sets", "why_tests_cant": "a detector that is random for one size, number of gates or parameter makes every decoding of that experiment wrong; needs an induction over gates and rounds of two codes", "anchors": ["surface_sim/experiments/rot_surface_code_css.py:repeated_cnot_experiment", "surface_sim/experiments/unrot_surface_code_css.py:repeated_cnot_experiment", "surface_sim/log_gates/unrot_surface_code_css.py:set_trans_cnot", "surface_sim/util/circuit_operations.py"]}
{"id": "C70", "title": "Transversal gates map stabilizers with the right sign", "statement": "The circuit of log_trans_cnot, log_trans_s or log_trans_h turns every stabilizer generator exactly, with sign +1, into the product of generators that the detectors are told: after the gate the product has the value the generator had before.", "quantifier": "all generated rotated and unrotated codes on which set_trans_cnot, set_trans_s or set_trans_h succeeds, any corner, attributes, noise model, qubit indices and iteration orders of sets", "why_tests_cant": "the choice between S and S_DAG on the fold of a code of any size is only visible in signs; a wrong one changes the state into another code state of the wrong syndrome", "anchors": ["surface_sim/log_gates/rot_surface_code_css.py:set_trans_s", "surface_sim/log_gates/unrot_surface_code_css.py:set_trans_s", "surface_sim/log_gates/unrot_surface_code_css.py:set_trans_h", "surface_sim/log_gates/unrot_surface_code_css.py:set_trans_cnot", "surface_sim/circuit_blocks/util.py:log_trans_s_iterator"]}
{"id": "C71", "title": "Stabilizer generators are complete and independent", "statement": "In a generated layout every Z-type (X-type) operator on the data qubits that commutes with all X-type (Z-type) stabilizers is a product of Z-type (X-type) stabilizers, possibly times log_z (log_x). No product of distinct stabilizers of one type is the identity. The layout therefore encodes exactly one logical qubit.", "quantifier": "all dx, dz >= 1, first indices and coordinates, rotated and unrotated codes, all operators and all sets of stabilizers", "why_tests_cant": "there are exponentially many operators, for every size of the code; a missing face would leave an undetected error that no small test meets", "anchors": ["surface_sim/layouts/library/rot_surface_codes.py:rot_surface_code_rectangle", "surface_sim/layouts/library/unrot_surface_codes.py:unrot_surface_code_rectangle"]}
{"id": "C72", "title": "Transversal gates are logical gates", "statement": "The circuit of log_trans_cnot maps X of the control to X of both layouts, Z of the target to Z of both, and leaves Z of the control and X of the target. The circuit of log_trans_s leaves log_z and maps log_x to Y, that is i times log_x times log_z. The circuit of log_trans_h exchanges log_x and log_z. All with the right sign, exactly or up to a product of stabilizers of the layout.", "quantifier": "all generated rotated and unrotated codes on which set_trans_cnot, set_trans_s or set_trans_h succeeds, any corner, attributes, noise model, qubit indices and iteration orders of sets", "why_tests_cant": "S and S_DAG, or two neighbouring reflections, differ on the logical qubit although all detectors of the experiment stay deterministic", "anchors": ["surface_sim/log_gates/rot_surface_code_css.py:set_trans_s", "surface_sim/log_gates/unrot_surface_code_css.py:set_trans_s", "surface_sim/log_gates/unrot_surface_code_css.py:set_trans_h", "surface_sim/log_gates/unrot_surface_code_css.py:set_trans_cnot", "surface_sim/circuit_blocks/util.py:log_trans_s_iterator"]}
{"id": "C73", "title": "Memory experiments are built without an exception", "statement": "memory_experiment returns a circuit for a generated layout, any number of rounds (at least one for the Google variant), basis, reset convention and gauge choice, if the noise model knows the qubits of the layout and data_init, the setup gives valid parameters for them, and the Detectors object has the ancillas of the layout. CircuitNoiseSetup with a value for prob gives such parameters. A negative number of rounds raises ValueError and changes nothing.", "quantifier": "all generated layouts with dx, dz >= 1, noise models, setups, qubit indices, numbers of rounds, initial states, bases, subsets of detectors, frames, earlier uses of the same objects, and iteration orders of sets; all six memory experiments", "why_tests_cant": "a lookup that fails, a pair of equal targets or a reference to a missing outcome may only occur for some size, number of rounds or order of a set", "anchors": ["surface_sim/experiments/rot_surface_code_css.py:memory_experiment", "surface_sim/experiments/unrot_surface_code_css.py:memory_experiment", "surface_sim/experiments/rot_surface_code_css_pipelined.py:memory_experiment", "surface_sim/experiments/rot_surface_code_xzzx.py:memory_experiment", "surface_sim/experiments/rot_surface_code_xzzx_pipelined.py:memory_experiment", "surface_sim/experiments/rot_surface_code_xzzx_google.py:memory_experiment", "surface_sim/models/library.py", "surface_sim/detectors/detectors.py", "surface_sim/setup/library.py:CircuitNoiseSetup"]}
{"id": "C74", "title": "Circuit distance of the memory experiments", "statement": "In the circuit of memory_experiment on a generated layout, fewer faults than the distance of the code (dx for the Z basis, dz for the X basis) never flip the observable without flipping a detector. A fault is any Pauli error on one qubit anywhere in the circuit, any error on the two qubits of a gate after it, or a wrong readout. The detectors must include the stabilizers of the measured basis.", "quantifier": "all generated rotated and unrotated codes, numbers of rounds, bases, reset conventions, initial states, gauge choices, subsets of detectors with those of the basis, frames, noise models, iteration orders of sets, and all sets of faults", "why_tests_cant": "the number of sets of faults is exponential in the distance, which is unbounded; a wrong order of the interactions (hook errors) halves the distance and changes no noiseless outcome", "anchors": ["surface_sim/layouts/library/rot_surface_codes.py:rot_surface_code_rectangle", "surface_sim/layouts/library/unrot_surface_codes.py:unrot_surface_code_rectangle", "surface_sim/experiments/rot_surface_code_css.py:memory_experiment", "surface_sim/experiments/unrot_surface_code_css.py:memory_experiment", "surface_sim/experiments/rot_surface_code_css_pipelined.py:memory_experiment", "surface_sim/experiments/rot_surface_code_xzzx_pipelined.py:memory_experiment", "surface_sim/experiments/rot_surface_code_xzzx_google.py:memory_experiment", "surface_sim/circuit_blocks/rot_surface_code_css.py:qec_round", "surface_sim/circuit_blocks/util.py:qec_round_iterator"]}
{"id": "C75", "title": "Noise only causes faults that the distance covers", "statement": "In the circuit of memory_experiment on a generated layout, every error that the noise can cause - an error of a channel on one qubit, of a channel on two qubits, or a wrong outcome of a measurement with a flip probability - is a Pauli error on one qubit, an error on two qubits whose last operation was a gate between these two, or a wrong readout. So with any noise model and any parameters, fewer errors than the distance of the code never flip the observable without flipping a detector.", "quantifier": "all generated codes, memory experiments, noise models and setups, numbers of rounds, bases, options and iteration orders of sets, and all sets of errors", "why_tests_cant": "a channel on the wrong pair, on another qubit than the gate, or in another moment shows in no noiseless outcome, and the sets of errors are too many to run", "anchors": ["surface_sim/models/library.py:CircuitNoiseModel", "surface_sim/models/library.py:BiasedCircuitNoiseModel", "surface_sim/models/library.py:DecoherenceNoiseModel", "surface_sim/models/library.py:ExperimentalNoiseModel", "surface_sim/models/library.py:PhenomenologicalNoiseModel", "surface_sim/models/library.py:IncomingNoiseModel", "surface_sim/experiments/rot_surface_code_css.py:memory_experiment", "surface_sim/experiments/rot_surface_code_xzzx_google.py:memory_experiment"]}
{"id": "C76", "title": "The circuit distance is attained", "statement": "In the circuit of every memory_experiment on a generated layout there are exactly as many faults as the distance of the code (dx for the Z basis, dz for the X basis), all wrong readouts, that flip the observable and no detector, whatever detectors were asked for. The noise can cause them if every measurement has a flip probability. With C74 the distance of the circuit is that of the code.", "quantifier": "all generated rotated and unrotated codes with dx, dz >= 1, all memory experiments, numbers of rounds, bases, reset conventions, initial states, gauge choices, subsets of detectors, frames, noise models and iteration orders of sets", "why_tests_cant": "a detector on the wrong outcomes, or an observable on another operator than the logical one, can show in no noiseless outcome; the claim is about every size and number of rounds", "anchors": ["surface_sim/experiments/rot_surface_code_css.py:memory_experiment", "surface_sim/experiments/unrot_surface_code_css.py:memory_experiment", "surface_sim/experiments/rot_surface_code_xzzx_google.py:memory_experiment", "surface_sim/circuit_blocks/util.py:log_meas", "surface_sim/detectors/detectors.py:Detectors.build_from_data", "surface_sim/layouts/library/rot_surface_codes.py:rot_surface_code_rectangle"]}
{"id": "C77", "title": "When transversal gates can be set", "statement": "On a layout of the generators, set_trans_s of the rotated code succeeds exactly if there is one more column than rows, at least two rows, and the given data qubit is the one at the first coordinates. set_trans_s of the unrotated code succeeds exactly if the code is square with dx >= 2 and the data qubit is a corner, and set_trans_h succeeds then too. set_trans_cnot succeeds exactly if both codes have the same sizes and share no label, index, coordinate or logical qubit, provided the matcher finds every monomorphism. Nothing else raises an exception.", "quantifier": "all generated rotated and unrotated codes with any sizes, first indices and coordinates, all data qubits, all other attributes set before, all orders of what the matcher finds", "why_tests_cant": "the walks along rows and columns, the reflection and the lookup of stabilizers by their sorted supports may miss an entry for some size or corner only", "anchors": ["surface_sim/log_gates/rot_surface_code_css.py:set_trans_s", "surface_sim/log_gates/rot_surface_code_css.py:set_trans_cnot", "surface_sim/log_gates/unrot_surface_code_css.py:set_trans_s", "surface_sim/log_gates/unrot_surface_code_css.py:set_trans_h", "surface_sim/log_gates/unrot_surface_code_css.py:set_trans_cnot", "surface_sim/layouts/operations.py:check_overlap_layouts"]}
{"id": "C78", "title": "Coordinates from the directions", "statement": "set_coords ends on every layout that was loaded from a description. Without override it raises a ValueError if a qubit has coordinates. Otherwise only the attribute coords changes. If the qubits can be placed in the plane such that each neighbour lies one step in its (diagonal) direction, every qubit that can be reached from the last one gets its place relative to the last one, and the other qubits keep what they had. On a layout of a generator the coordinates of the generator are found again, up to a translation.", "quantifier": "all loaded layouts, all placements that follow the directions, all generated codes with dx, dz >= 1", "why_tests_cant": "the queue holds a qubit once for each path to it; that it empties, and that no later visit changes the coordinates, depends on the whole graph", "anchors": ["surface_sim/layouts/util.py:set_coords"]}
{"id": "C79", "title": "Indices along a chain", "statement": "index_chain ends on every layout that was loaded from a description. It raises a ValueError exactly if the first qubit is unknown or a qubit that can be reached from it has no neighbour or more than two. Otherwise only the attribute chain_ind changes: the qubits that can be reached get different integers >= 0, the others None. The integers are the positions along the chain if it is started at its end; rotated codes with one row or column are such chains. The integers are 0, 1, 2, ... without gaps.", "quantifier": "all loaded layouts, first qubits and chains", "why_tests_cant": "the traversal marks a qubit only when it leaves the queue, so that numbers depend on the shape of the whole graph", "anchors": ["surface_sim/layouts/util.py:index_chain"]}
{"id": "C80", "title": "Repeated gate experiments are built", "statement": "repeated_s_experiment of the rotated, pipelined and unrotated codes and repeated_h_experiment of the unrotated code return a circuit on every generated layout on which set_trans_s or set_trans_h succeeded, for every number of rounds >= 0 and of gates >= 0 (even for S), every detector frame, subset of detectors, basis, reset convention and gauge choice, if the model knows the qubits, the setup defines what the model reads and the detectors know the ancillas. Other numbers of rounds or gates raise a ValueError, and nothing has changed.", "quantifier": "all generated layouts with the gate, other attributes set before and after, noise models and setups, detectors, numbers of gates and rounds, options and iteration orders of sets", "why_tests_cant": "each gate updates the frame of the detectors with matrices that have to stay invertible, and each round refers to the measurements of the rounds before; whether one of these raises depends on the whole history and on the size of the code", "anchors": ["surface_sim/experiments/rot_surface_code_css.py:repeated_s_experiment", "surface_sim/experiments/rot_surface_code_css_pipelined.py:repeated_s_experiment", "surface_sim/experiments/unrot_surface_code_css.py:repeated_s_experiment", "surface_sim/experiments/unrot_surface_code_css.py:repeated_h_experiment", "surface_sim/detectors/detectors.py:Detectors.update_from_dict", "surface_sim/circuit_blocks/util.py:log_trans_h"]}
{"id": "C81", "title": "Repeated CNOT experiments are built", "statement": "repeated_cnot_experiment returns a circuit for two generated layouts on which set_trans_cnot has set the gate (in both directions for the alternating orientation), any numbers of gates and rounds, initial states, basis, reset convention and gauge choice, if the noise model knows the qubits of both layouts, the setup gives valid parameters for them, and the Detectors object has the ancillas of both. A negative number raises ValueError and changes nothing, and another orientation raises.", "quantifier": "all pairs of generated rotated or unrotated codes that accept the gate, noise models, setups, qubit indices, numbers of gates and rounds, initial states, bases, subsets of detectors, frames, earlier uses of the same objects, and iteration orders of sets", "why_tests_cant": "the merged rounds need blocks of the same length from both layouts in every step, which depends on sizes, on the noise parameters of every qubit and on the orders of sets", "anchors": ["surface_sim/experiments/rot_surface_code_css.py:repeated_cnot_experiment", "surface_sim/experiments/unrot_surface_code_css.py:repeated_cnot_experiment", "surface_sim/util/circuit_operations.py:merge_qec_rounds", "surface_sim/util/circuit_operations.py:merge_log_meas", "surface_sim/util/circuit_operations.py:merge_circuits", "surface_sim/circuit_blocks/util.py:log_trans_cnot"]}
{"id": "C82", "title": "Experiments do not depend on earlier uses of the objects", "statement": "Every experiment returns the same circuit, or raises the same exception, whatever was done with the noise model and the Detectors object before: gates and measurements, activations, frame updates and rounds of detectors, other experiments, also calls that raised an exception half way. If it returns, the two objects are in the same state as without the earlier uses. No use changes the kind, setup and qubit indices of the model or the labels, frame and coordinates of the detectors.", "quantifier": "all experiments with any arguments and layouts, all sequences of calls and experiments before, all iteration orders of sets (the same ones in both runs)", "why_tests_cant": "the objects are mutable and shared between experiments; an exception may leave any intermediate state", "anchors": ["surface_sim/models/model.py:Model.new_circuit", "surface_sim/detectors/detectors.py:Detectors.new_circuit", "surface_sim/experiments/rot_surface_code_css.py:memory_experiment", "surface_sim/experiments/rot_surface_code_css.py:repeated_s_experiment", "surface_sim/experiments/rot_surface_code_css.py:repeated_cnot_experiment", "surface_sim/experiments/rot_surface_code_xzzx_google.py:memory_experiment"]}
{"id": "C83", "title": "The rounds of a memory experiment repeat", "statement": "There are circuits a, b and m such that the memory experiment with 3 + n rounds is a, followed by n copies of b and by m, where only the time coordinates of the detectors of the j-th copy are larger by j and those of m by n: later rounds refer to the same measurements relative to the end of the record and the circuit can be written with a REPEAT block. Google's experiment is the same from four rounds on.", "quantifier": "all memory experiments and layouts, noise models, setups, frames, subsets of detectors, bases, reset conventions and gauge choices for which the experiment with four (Google: five) rounds returns, all n, all iteration orders of sets that are the same in each round", "why_tests_cant": "the records that a detector refers to and the counters of the detectors depend on the whole history; one cannot build the experiment for all numbers of rounds", "anchors": ["surface_sim/experiments/rot_surface_code_css.py:memory_experiment", "surface_sim/experiments/rot_surface_code_xzzx_google.py:memory_experiment", "surface_sim/detectors/detectors.py:Detectors.build_from_anc", "surface_sim/detectors/detectors.py:Detectors.build_from_data", "surface_sim/models/model.py:Model.meas_target"]}
{"id": "C84", "title": "The numbering of the qubits only renames the targets", "statement": "If two noise models of the same class and setup number the same labels by different distinct indices (their dictionaries may also list the labels in different orders), every operation and every experiment with the second model returns the circuit of the first one with each qubit index replaced by the index of the same label: same instructions, arguments, detectors, observables and measurement records. It raises an exception exactly if the first one does, and the same one.", "quantifier": "all noise models, setups, pairs of numberings, operations, experiments with any arguments and layouts, states of the objects, iteration orders of sets", "why_tests_cant": "an index could leak into an order, into a grouping of instructions or into a test for some numbering only, e.g. when indices are not consecutive", "anchors": ["surface_sim/models/model.py:Model.get_inds", "surface_sim/models/model.py:Model.qubit_coords", "surface_sim/models/library.py", "surface_sim/util/circuit_operations.py:merge_circuits", "surface_sim/experiments"]}
{"id": "C85", "title": "The noise model of an experiment only adds noise", "statement": "If a memory or repeated-gate experiment on one layout returns a circuit with some noise model, it also returns one with a noiseless model of the same qubit indices, whatever setup that one has and whatever was done with either before. After removing noise channels, idling and readout flip probabilities the two circuits are equal: same gates, resets, measurements, detectors and observables, with the same targets, in the same order. The measurement records and the state of the detectors afterwards are equal too. So the same holds for any two noise models of any classes and setups for which the experiment returns.", "quantifier": "all experiments on one layout with any arguments, all noise models and setups, all earlier states of the objects, all iteration orders of sets", "why_tests_cant": "the noise models build every operation separately; a difference in one operation on some qubit list shows up only in some experiment", "anchors": ["surface_sim/models/library.py", "surface_sim/experiments", "surface_sim/circuit_blocks"]}
{"id": "C86", "title": "The requested detectors only decide which detectors are empty", "statement": "If a memory experiment or an experiment with repeated logical gates returns a circuit, it also returns one when fewer ancillas are given in anc_detectors, and the two circuits have the same instructions with the same targets and arguments at the same places, except that in the second the DETECTORs of the ancillas that are no longer requested have no targets; those of the requested ancillas are unchanged. With gauge_detectors=False instead of True the circuits differ at most in DETECTORs of ancillas that are not stabilizers of the measured type, which have no targets. The order and repetitions in anc_detectors do not change the circuit, and naming all ancillas gives the same circuit as naming none. In all cases the noise model and the Detectors object end in the same state.", "quantifier": "all noise models, setups, layouts, detectors (also used before), frames, memory, repeated S, H and CNOT experiments and their arguments, lists of requested ancillas and subsets of them, and orders in which Python iterates over sets", "why_tests_cant": "tests compare numbers of detectors for a few requests on one layout", "anchors": ["surface_sim/detectors.py:Detectors.build_from_anc", "surface_sim/detectors.py:Detectors.build_from_data", "surface_sim/experiments/rot_surface_code_css.py:memory_experiment", "surface_sim/experiments/rot_surface_code_xzzx_google.py:memory_experiment", "surface_sim/experiments/unrot_surface_code_css.py:repeated_h_experiment", "surface_sim/experiments/rot_surface_code_css.py:repeated_cnot_experiment", "surface_sim/util/circuit_operations.py:merge_qec_rounds"]}
{"id": "C87", "title": "The initial bitstring only changes the initialization", "statement": "If a memory experiment or an experiment with repeated logical gates returns circuits for two values of data_init, all other arguments being equal, the two circuits are the same except for one part, the initialization, which contains no measurements, detectors and observables. In particular all detectors and observables, and everything before and after the initialization, are the same instruction by instruction. The noise model and the Detectors object end in the same state. (What the initialization does to each qubit is C61.)", "quantifier": "all noise models, setups, layouts, detectors (also used before), experiments and their arguments, pairs of bitstrings for which the experiment returns, and orders in which Python iterates over sets", "why_tests_cant": "tests build a few experiments with one bitstring each", "anchors": ["surface_sim/circuit_blocks/util.py:init_qubits", "surface_sim/circuit_blocks/util.py:init_qubits_xzzx", "surface_sim/experiments/rot_surface_code_css.py:memory_experiment", "surface_sim/experiments/rot_surface_code_css.py:repeated_cnot_experiment"]}
