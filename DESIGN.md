# Formal model of surface-sim in Rocq (Coq 8.16.1)

The Python sources in /repo are read as text. Each modelled function is a small
executable Gallina function that mirrors its branches and cites the file and lines it
stands for. Exceptions are values (`res A := Ok a | Err e`), mutation is a returned new
state (`ST S A := S -> S * res A`, so that a call that raises still returns the state it
left behind). Only the Coq standard library is used.

## Files

`XxxM.v` is a model file (definitions only), `SpecXxx.v` the vocabulary of the statements
(not used by any model), `XxxP*.v` proofs, `Props_Xxx.v` the theorems: each is closed by
an `exact`/one-line application of a lemma, followed by `Print Assumptions`, and has a
concrete case next to it that meets its hypotheses.

| model | code | vocabulary | theorems |
|---|---|---|---|
| StimM | the assumed fragment of stim | SpecNoise | |
| SetupM | setup/setup.py, setup/library.py | SpecSetup | Props_Setup |
| NoiseM | models/model.py, library.py, util.py | SpecNoise, SpecNoise2 | Props_Noise, Props_Noise2 |
| ProbM | models/util.py:idle_error_probs, over the reals | | Props_Prob |
| MatM | exact linear algebra for numpy and galois | | |
| DetM | detectors/detectors.py | SpecDet | Props_Det |
| LayoutM | layouts/layout.py, operations.py, layout readers of detectors.py | SpecLayout | Props_Layout |
| GenM | layouts/library/* | SpecGen | Props_Gen |
| CoordM | layouts/util.py | SpecCoord | Props_Coord |
| BlockM | circuit_blocks/* (util.py and the six QEC rounds) | SpecTrack | Props_Round |
| ExpM | experiments/*: memory, repeated S, repeated H; util/data_gen.py (splitting of outcomes) | SpecExp | Props_Exp, Props_Init, Props_Rep |
| MergeM | util/circuit_operations.py, repeated_cnot_experiment | SpecMerge, SpecCnot | Props_Merge, Props_Cnot |
| LogM | log_gates/* | SpecLog | Props_Log |

Base.v and Lib.v have the dictionaries (association lists in insertion order), the
decidable equality class `Eqb`, the monads and lemmas about them.

## Conventions and simplifications

* Labels are `string`, qubit indices `Z`, coordinates and probabilities exact rationals
  (`Qc`), reals where `exp` is used. **Floating point is not modelled**: the inverse of a
  matrix, a reflection of a coordinate and a probability are exact; `np.round`,
  `np.allclose` and integer overflow are left out.
* The `isinstance` checks pass: arguments have the annotated types and an iterable is a
  list that can be iterated several times. Input outside the modelled fragment gives
  `Err Unmodelled`, never a default value.
* The iteration order of a Python set is an oracle: `ord k s` is the order of the set `s`
  at the place `k`, an unknown permutation (`ordp` for sets of pairs, `ordt t` for the
  t-th block of an experiment). Theorems quantify over all of them.
* Generators of circuits are lists of blocks of calls of the noise model; an element is
  `Err e` if computing it raises.
* stim (StimM.v, MergeM.v): an instruction has a name, targets and arguments;
  `Circuit.append` fuses with an equal last instruction; a measurement appends its
  outcomes to the record in order; two-qubit gates need an even number of different
  targets; probabilities must be valid. Whether `Circuit + Circuit` fuses (`fuse`) and what
  an argument becomes when printed and parsed again (`show`) are parameters of the
  statements about merged circuits.
* networkx: a directed graph is a dictionary of nodes and one of rows, in insertion
  order. The isomorphism matcher is an oracle: any list of monomorphisms (SpecLog).
* A `while` loop of set_trans_s gets enough fuel to visit every pair of qubits. Those of
  layouts/util.py get any fuel; that some amount is enough is proved (C78, C79).
* Meaning of circuits (SpecTrack): the Heisenberg picture with sign-free Paulis. `back`
  pulls an operator back through the ideal gates, a measurement or reset that anticommutes
  with it makes it random (`None`), one that commutes removes its factor. Signs are not
  tracked in it: S and S_DAG are the same, and the value of a deterministic outcome is not
  part of a statement unless said so (C61, C62 say which values are prepared). For the
  transversal gates SpecSign has the same with signs (C70) and
  SpecLogical says how the logical operators change (C72). SpecFix is the XZZX round with the
  misspelt name of step g corrected, used only in the positive part of C37. SpecOk says which arguments of a
  memory experiment fit together (C73), and of the experiments with repeated gates (C80); SpecOkCnot
  does so for two layouts (C81). SpecFresh lists the experiments and the uses of the
  two shared objects (C82). SpecTime
  says what an instruction is some rounds later (C83), SpecNumber what a circuit is on
  renumbered qubits (C84), SpecIdeal which experiments use one layout (C85),
  SpecBlank which detectors are emptied (C86), SpecStart the experiment with another
  bitstring (C87). SpecFault moves a
  Pauli error forward through the gates and says which outcomes, detectors and observables
  it flips (C74); which faults the noise of a circuit can cause (C75, C76).

## Not modelled

layouts/plotter.py (drawing), YAML input and output, `__copy__`
aliasing, the sampling and xarray part of util/data_gen.py (the split of one shot is
modelled), the package `__init__` files, warnings. Circuits with REPEAT blocks or
SHIFT_COORDS given to merge_circuits. Unitaries with repeated labels in Detectors.
Measurements of DecoherenceNoiseModel with symmetric_noise=False give a label to stim as a
target and are `Unmodelled`.

## Trusted base

Coq's kernel including its virtual machine (`vm_compute` in the concrete cases); that the
model files say what the cited lines do; the assumptions above about Python, stim, numpy,
galois, xarray and networkx. `Print Assumptions` says "Closed under the global context"
for every theorem except the three of C21, which depend on the axioms of the standard
library's real numbers: `ClassicalDedekindReals.sig_not_dec`,
`ClassicalDedekindReals.sig_forall_dec`,
`FunctionalExtensionality.functional_extensionality_dep` and (C21_idle_probs_valid,
C21_unphysical_T2) `Classical_Prop.classic`. No axiom, parameter, functor or
module type is declared; no kernel check is switched off; oracles are section variables
or arguments.

## Findings

Properties that are false of the code have a theorem `..._refuted` with a witness, and
the part that holds is proved (`_partial` in the name if the statement of the property is
restricted).

* ExperimentalNoiseModel.idle and DecoherenceNoiseModel.idle need a duration, but all
  circuit blocks call idle(qubits): every experiment raises TypeError with these models (C73, C80, C81).
* merge_tick_blocks needs the same number of instructions from all layouts. Parameters
  that differ between qubits split instructions, so that merge_qec_rounds and with it
  repeated_cnot_experiment raise ValueError unless both layouts are split alike (C81).
* meas_target at the boundary index raises IndexError instead of the announced ValueError (C02).
* remove_pairs writes an outcome three times if it was there three times (C03).
* Detectors use the inverse of the composed map between rounds: not deterministic for
  gates whose composition is not an involution (C05, C06); the inverse is over the reals
  and non-zero even entries are kept (C07); deactivate_detectors can make the generators
  dependent (C08); build_from_data also forgets the gates of the patches that are not measured (C50); unknown ancillas are detected only if
  the given set is a strict superset of the known one, otherwise KeyError after a partial
  effect (C10).
* Setup: the fallback to a generic parameter forgets the qubits (C14); entries of three or
  more qubits, empty setups and hidden variables do not survive a round trip (C15).
* BiasedCircuitNoiseModel.measure_y emits MX with X_ERROR (C17, C56); a biased Pauli given
  in the configuration is taken for an unset variable (C53). NoiselessModel.measure records
  the qubits before a failing one (C49).
* get_neighbors with a direction loses a neighbour given in two directions (C51).
* The CSS rounds that are not pipelined are wrong for dz = 1 (C35, C36, C40); the XZZX
  round that is not pipelined repeats the gates of an earlier step (misspelt variable):
  C34, C37, C40 (correcting the name is enough, C37_repaired_partial), and two faults break a code of distance three (C74); the pipelined XZZX round is wrong for one row or column (C58).
* repeated_cnot_experiment with "alternating" has the orientations ABBAABBA... (C41); the
  order of the final measurement and the numbers of the observables follow the last
  exchange (C68). With readout errors of single qubits its detectors are random (C69). An
  even number of different CNOT gates without a round in between compose to a map of
  order 3, whose inverse the detectors use (C05): they are still deterministic, because
  only outcomes of the prepared basis occur (C69).
* merge_circuits sorts the instructions of a block by name, which puts X_ERROR after M,
  DEPOLARIZE1 before H and DETECTOR before M (C43); different kinds of measurement reorder
  the record (C63), readout errors of single qubits interleave it (C44); zip stops at the
  shortest generator after having advanced the others, so that logical measurements in
  different bases lose one layout's measurement (C65); observables collide for layouts with
  different numbers of logical qubits (C45); detectors inside merged circuits would refer
  to wrong outcomes; no circuits at all is a ValueError (C42).
* log_gates: `gm.is_isomorphic` is never called (always true); the chosen mapping is not
  checked to respect the stabilizer types and set_trans_h does not check the type of the
  reflected ancilla (harmless for generated layouts: C46-C48). In generated rotated layouts
  set_trans_s works from one corner only; from others it raises KeyError or IndexError.
  There it gives S to the qubits of the fold except the last one, which gets S_DAG: the
  sign of one X-type generator changes (C70). Detectors of the experiments stay
  deterministic (C66), stim takes the parity of the noiseless run as reference.
* log_x_xzzx and log_z_xzzx idle only the ancillas.

## Seeded errors

seeded/LOG.jsonl records edits of the model as a realistic bug would make them and which
theorems stopped proving. A theorem counts as failed if its proof, or the proof of a lemma
it uses, no longer compiles; this alone does not show that its statement became false. The
claim that an edit breaks is in the field "claim". Where a theorem survived although its
claim was broken, it was tightened, which the field "tightened" records. Some edits were
controls, and some runs built only part of the theorems or ran out of time; their notes say so.

## Properties, status and theorems

* **C01** meas_target names the k-th last measurement — proved: `C01_meas_target_kth_last`. All six noise models, any history of successful calls.
* **C02** meas_target rejects every index outside the history — proved: `C02_meas_target_range`, `C02_new_circuit_empty`, `C02_boundary_exception_refuted`. The boundary index k = n raises IndexError instead of the announced ValueError (witness theorem).
* **C03** Removing pairs keeps the parity — proved: `C03_parity_kept`, `C03_even_removed`, `C03_once_refuted`. Both parts of the statement are proved. Extra finding: an outcome contributed three times is written three times.
* **C04** One detector per ancilla and round, at the right time coordinate — proved: `C04_round_detectors`, `C04_measurement_detectors`.
* **C05** Round detectors are deterministic without noise — partial: `C05_deterministic_partial`, `C05_two_patches_partial`, `C05_gate_independent`, `C05_composed_gates_refuted`. False in general: the detectors use the inverse of the composed map. Proved for any gates whose composed stabilizer map between two rounds is an involution and whose rational change of basis has no even entry (automatic for gates between pairs of ancillas), in both gate-dependent frames and both reset conventions; and for the gate-independent frame without gates. All the ancillas are assumed to have the outcomes of the rounds that the detector uses.
* **C06** Logical-measurement detectors are deterministic without noise — partial: `C06_deterministic_partial`, `C06_two_patches_partial`, `C06_gate_independent`. Same conditions as C05.
* **C07** The frame change is done modulo 2 — partial: `C07_mod2_partial`, `C07_pairs_are_clean`, `C07_even_entry_refuted`. False: the inverse is computed over the reals and non-zero even entries are kept. Proved when the rational change of basis has no even entry, which always holds for gates between pairs of ancillas.
* **C08** The stabilizer generators stay a basis — partial: `C08_basis_kept_partial`, `C08_tidy_call`, `C08_never_singular`, `C08_deactivate_refuted`. False with deactivate_detectors, which can make the generators dependent. Proved for every history without deactivations, and for deactivations of sets of ancillas whose generators do not involve other ancillas.
* **C09** Round counters follow the activation history — proved: `C09_total_rounds`, `C09_active_rounds`, `C09_frozen_rounds`, `C09_never_active`.
* **C10** Unknown ancillas are rejected without side effects — partial: `C10_unknown_raises_partial`, `C10_guard`, `C10_partial_effect_refuted`. False: the guard only detects strict supersets of the known labels, otherwise KeyError after a partial effect.
* **C11** update_from_dict applies exactly the described transformation — proved: `C11_transformation`, `C11_accepts_iff_invertible`.
* **C12** Gate-independent frame ignores the gates — proved: `C12_updates_ignored`, `C12_formula`.
* **C13** Parameter lookup precedence — proved: `C13_param_precedence`. Values other than None, bool, rational, str and list of str are outside the model.
* **C14** Qubit-specific generic parameters are honoured — partial: `C14_fallback_is_global_partial`, `C14_qubit_generic_refuted`. The property is false: the fallback to the generic parameter forgets the qubits (setup.py:229). The partial theorem says what is returned instead.
* **C15** Setup round trip — partial: `C15_round_trip_partial`, `C15_three_qubits_refuted`, `C15_empty_setup_refuted`, `C15_hidden_variable_refuted`. False in general (entries of 3 or more qubits lose their qubits, an empty setup cannot be reloaded, free parameters named as parameters); proved under hypotheses that exclude exactly these three cases.
* **C16** Setting a parameter affects only that parameter — proved: `C16_set_param_frame`, `C16_set_param_stored`, `C16_loaded_ok`, `C16_set_var_param_frame`.
* **C17** All noise models implement the same ideal circuit — partial: `C17_same_ideal_circuit_partial`, `C17_biased_measure_y_refuted`. False for BiasedCircuitNoiseModel.measure_y (emits MX); proved for every other model and operation.
* **C18** Noise stays on the qubits of the operation — proved: `C18_one_channel_per_qubit`, `C18_one_channel_per_pair`, `C18_no_other_noise`.
* **C19** Biased prefactors form a distribution — proved: `C19_operators`, `C19_biased_prefactors`.
* **C20** num_biased_ops counts the biased operators — proved: `C20_num_biased_ops`.
* **C21** Idling error probabilities are probabilities — proved: `C21_idle_probs_valid`, `C21_idle_probs_rejects`, `C21_unphysical_T2`. Over the reals: uses the axioms of the stdlib Reals.
* **C22** Layout round trip — proved: `C22_layout_round_trip`. YAML is not modelled. set_param on the index attribute is excluded (it does not change the index of the layout but the copy would use it).
* **C23** Indices and labels are in bijection — proved: `C23_labels`, `C23_indices`.
* **C24** Overlap check is exact — proved: `C24_overlap_exact`. For loaded layouts whose qubits all have coordinates.
* **C25** Coordinate indices are injective — proved: `C25_index_coords`, `C25_expansion`.
* **C26** Rotated layout: counts, labels and indices — proved: `C26_rot_counts`.
* **C27** Rotated layout: stabilizers commute and have weight 2 or 4 — proved: `C27_rot_stabilizers`.
* **C28** Rotated layout: logical operators — proved: `C28_rot_logicals`.
* **C29** Rotated layout: the code has the announced distances — proved: `C29_rot_distances`.
* **C30** Unrotated layout: counts, labels and indices — proved: `C30_unrot_counts`.
* **C31** Unrotated layout: stabilizers commute, logical operators — proved: `C31_unrot_code`.
* **C32** Unrotated layout: the code has the announced distances — proved: `C32_unrot_distances`.
* **C33** Neighbour relation is symmetric with opposite directions — proved: `C33_rot_neighbours`, `C33_unrot_neighbours`.
* **C34** Each qubit does exactly one operation per time step — partial: `C34_rot_css`, `C34_unrot_css`, `C34_css_pipelined`, `C34_xzzx_pipelined`, `C34_google`, `C34_xzzx_refuted`. Proved for all sizes and set orders for the CSS rounds, both pipelined rounds and Google's round, at the level of the calls of the noise model. False for the XZZX round that is not pipelined: a misspelt variable makes a step repeat the CZ gates of an earlier one (witness).
* **C35** A QEC round measures exactly the stabilizers — partial: `C35_rot_css_partial`, `C35_unrot_css_partial`, `C35_css_pipelined`, `C35_narrow_refuted`. Proved for all sizes with dz >= 2 (the pipelined round: all sizes), every noise model, setup, detector request and set order. False for dz = 1 with the rounds that are not pipelined (witnesses).
* **C36** A QEC round preserves the encoded information — partial: `C36_rot_css_partial`, `C36_unrot_css_partial`, `C36_css_pipelined`, `C36_narrow_refuted`. As C35; the other operators are shown to become random.
* **C37** An XZZX round measures the XZZX stabilizers — partial: `C37_xzzx_refuted`, `C37_repaired_partial`, `C37_only_step_g`. False: a misspelt name in step g makes the round apply the CZ gates of an earlier step again and ancillas have random outcomes (witness of distance 3). Proved for every size of the round with that one step corrected, which is not the code of the repository. The pipelined and Google's rounds are C58 and C59.
* **C38** Memory experiment: number and order of measurements — proved: `C38_measurements`, `C38_google`, `C38_split`, `C38_split_google`. For every layout, noise model and set order, for the six memory experiments. The sampler itself (stim) and xarray are not modelled; the reshaping of one shot is.
* **C39** Memory experiment: number of detectors and observables — proved: `C39_counts`, `C39_google`. For detectors over the ancillas of the layout (as the constructor call in the experiments' documentation).
* **C40** Memory experiment: detectors and observable are deterministic — partial: `C40_rot_css_partial`, `C40_unrot_css_partial`, `C40_css_pipelined`, `C40_xzzx_pipelined_partial`, `C40_google_partial`, `C40_xzzx_refuted`, `C40_narrow_refuted`. Proved for every size, number of rounds, basis, reset convention, frame, data_init, noise model and set order for the CSS experiments (dz >= 2; the pipelined one: every size), the pipelined XZZX and Google's experiments (dx, dz >= 2). False for memory_experiment of rot_surface_code_xzzx (random detectors, distance 3 witness) and for a single row or column (witnesses).
* **C41** Alternating CNOT experiment alternates — partial: `C41_refuted`, `C41_orientations_partial`. Refuted for 'alternating': the exchange of the layouts persists, so the orientations are ABBAABBA... Proved: gate k has the given orientation iff k mod 4 is 0 or 3 ('alternating'), always ('constant').
* **C42** Merging keeps every instruction in its TICK block — proved: `C42_blocks`, `C42_raises`. The raised exceptions include the one for an empty list. Circuits with SHIFT_COORDS are not modelled; the printed arguments are an arbitrary function of the arguments.
* **C43** Merging keeps the order of operations on each qubit — partial: `C43_order_partial`, `C43_refuted`. False: instructions of a block are sorted by name, which moves the error of a measurement after it (witness with the circuit noise model). Proved: the order on a qubit is kept exactly if it is alphabetical.
* **C44** Merged QEC rounds keep the measurement record aligned — partial: `C44_aligned_partial`, `C44_rounds_in_lockstep`, `C44_meas_in_lockstep`, `C44_xzzx_meas_in_lockstep`, `C44_refuted`. Proved for histories of operations, merged rounds and merged measurements if the single-qubit parameters are the same for all qubits. False otherwise: readout errors of single qubits interleave the measurements (witness).
* **C45** Merged logical measurement: one observable per logical qubit — partial: `C45_indices_partial`, `C45_supports_of_logicals`, `C45_refuted`. False for layouts with different numbers of logical qubits (witness); proved for equal numbers, with the supports.
* **C46** Transversal CNOT updates the stabilizers correctly — proved: `C46_rot`, `C46_unrot`. Signs of the stabilizers are not tracked. The matcher of networkx is an arbitrary list of monomorphisms.
* **C47** Transversal S updates the stabilizers correctly — proved: `C47_rot`, `C47_unrot`. Up to signs; with signs in C70.
* **C48** Transversal H updates the stabilizers correctly — proved: `C48_unrot`. Up to signs; with signs in C70.
* **C49** A call that raises leaves the measurement record unchanged — partial: `C49_failed_call_no_effect_partial`, `C49_failed_measure_refuted`. False: a failing measure of NoiselessModel records the qubits before the failing one. Proved for operations that do not measure and for unknown qubits in four models.
* **C50** Measuring one patch does not affect the detectors of the others — partial: `C50_untouched_partial`, `C50_other_patch_refuted`. False when gates separate the last round from the measurement (witness). Proved for every ancilla whose stabilizer the gates before the measurement keep, whatever is measured, activated or deactivated and for every frame; that the next round raises nothing is C08.
* **C51** get_neighbors returns exactly the described neighbours — partial: `C51_neighbors_partial`, `C51_refuted`. False with direction=d when the description gives the same neighbour in two directions (the last one wins); proved otherwise.
* **C52** Attribute queries are exact and matrices follow the neighbours — proved: `C52_get_qubits`, `C52_support`, `C52_projection`.
* **C53** Biased noise: total probability and bias — partial: `C53_biased_channel_per_qubit`, `C53_biased_channel_per_pair`, `C53_biased_reset_measure`, `C53_biased_no_other_noise`, `C53_biased_pauli_literal_refuted`. The channels are proved for every call that returns. False part: a biased Pauli written in the configuration is taken for an unset variable and raises until set_var_param is called (witness). measure_y: see C17 and C56.
* **C54** Decoherence noise lasts exactly the duration of the operation — proved: `C54_symmetric`, `C54_asymmetric`, `C54_idle_duration`. The probabilities are symbolic here; C21 gives their values. Asymmetric measurements of at least one qubit are outside the model (a label is given to stim as a target).
* **C55** Readout flips follow the setup per qubit — proved: `C55_readout_flips`, `C55_noiseless_readout`.
* **C56** Noise is on the right side of the operation and can flip it — partial: `C56_noise_after_gates`, `C56_noise_before_measurements`, `C56_errors_flip_partial`, `C56_biased_measure_y_refuted`. False for measure_y of BiasedCircuitNoiseModel: X_ERROR before MX. Proved for every other case.
* **C57** Experimental, phenomenological and incoming noise — proved: `C57_experimental_per_qubit`, `C57_experimental_per_pair`, `C57_phenomenological`, `C57_incoming_noise`.
* **C58** The pipelined XZZX round measures the XZZX stabilizers — partial: `C58_xzzx_pipelined_partial`, `C58_narrow_refuted`. Proved for dx, dz >= 2; false for one row or column (witness).
* **C59** Google's XZZX round measures the XZZX stabilizers — proved: `C59_google`.
* **C60** Memory experiment: contents of the detectors and the observable — proved: `C60_round`, `C60_final`, `C60_observable`, `C60_google_round`, `C60_google_final`, `C60_google_observable`. For the six memory experiments on any layout. C60_final assumes that an ancilla is not its own neighbour, C60_observable that no qubit is twice in the logical operator.
* **C61** Initialization and logical measurement of single qubits — proved: `C61_init`, `C61_meas`. Any layout that was loaded and then edited with set_param; all noise models.
* **C62** Memory experiment: life of a data qubit — proved: `C62_memory`, `C62_google`. The five memory experiments; in Google's experiment, whose rounds contain X gates by design, only the preparation is stated.
* **C63** Merging keeps the measurement record — partial: `C63_record_partial`, `C63_refuted`. Proved when all measurements have one kind; false otherwise (witness).
* **C64** Merged rounds and measurements do to each qubit what its layout's circuit does — proved: `C64_round_alone`, `C64_rot_css`, `C64_unrot_css`, `C64_log_meas`. C64_round_alone for any generators in lockstep; the others for generated CSS codes and for logical measurements in one basis.
* **C65** Merged logical measurement measures every data qubit — partial: `C65_measured_partial`, `C65_refuted`. Proved for one basis. False for different bases with log_meas_iterator: one generator is longer and zip drops its last step, the measurement, after the model has recorded it (witness).
* **C66** Repeated transversal gates: deterministic detectors and observable — proved: `C66_rot_s`, `C66_pipelined_s`, `C66_unrot_s`, `C66_unrot_h`, `C66_gate_independent_refuted`. For the S experiments of the rotated (also pipelined) and unrotated CSS codes and the H experiment of the unrotated code, all inputs on which they do not raise. The last theorem shows that the restriction of the frame is needed: in the gate-independent frame detectors are random (witness).
* **C67** Repeated transversal gates: contents of the experiment — proved: `C67_record`, `C67_counts`, `C67_data`, `C67_sequence`. For layouts that were loaded and edited with set_param.
* **C68** Repeated CNOT: contents of the experiment — proved: `C68_sequence`, `C68_counts`, `C68_round_counts`. For any pair of layouts and any generator of rounds.
* **C69** Repeated CNOT: deterministic detectors and observables — partial: `C69_rot_partial`, `C69_unrot_partial`, `C69_per_qubit_refuted`, `C69_gate_independent_refuted`. Proved for the rotated and unrotated CSS codes of every size (dz >= 2), both orientations, also without rounds between the gates, if the noise parameters are the same for all qubits. False otherwise: with readout errors of single qubits the detectors of the merged rounds name wrong outcomes (C44) and are random (witness). The last theorem shows that the restriction of the frame is needed.
* **C70** Transversal gates map stabilizers with the right sign — partial: `C70_cnot_rot`, `C70_cnot_unrot`, `C70_s_unrot`, `C70_h_unrot`, `C70_s_rot_partial`, `C70_s_rot_refuted`. Proved for CNOT, for S and H of the unrotated code. False for S of the rotated code: exactly one X-type generator gets the sign -1, the one that acts on the data qubit with the S_DAG gate (proved for all sizes; witness 3x4).
* **C71** Stabilizer generators are complete and independent — proved: `C71_rot`, `C71_unrot`.
* **C72** Transversal gates are logical gates — proved: `C72_cnot_rot`, `C72_cnot_unrot`, `C72_s_rot`, `C72_s_unrot`, `C72_h_unrot`. CNOT: dx, dz >= 1. For CNOT and for S of the rotated code the operators are exact; for S and H of the unrotated code up to a product of generators, which has sign +1 (the operator is stated with its power of i).
* **C73** Memory experiments are built without an exception — partial: `C73_memory_partial`, `C73_google_partial`, `C73_library_setup`, `C73_rounds`, `C73_duration_refuted`. Proved for all noise models of the library but ExperimentalNoiseModel and DecoherenceNoiseModel. For these two it is false: their idle needs a duration and no circuit block gives one, so every memory experiment raises (proved for all arguments).
* **C74** Circuit distance of the memory experiments — partial: `C74_rot_css_partial`, `C74_unrot_css_partial`, `C74_css_pipelined`, `C74_xzzx_pipelined_partial`, `C74_google_partial`, `C74_one_row_refuted`, `C74_xzzx_refuted`. Proved for the CSS experiments of rotated and unrotated codes (dz >= 2; pipelined: dx, dz >= 1) and for the pipelined XZZX and Google's experiments (dx, dz >= 2). False elsewhere: two faults, which the noise of CircuitNoiseModel causes, break the code of distance three on one row, where the rounds measure wrong operators (C35, C58), and in the XZZX round that is not pipelined (C37). Not settled: Google's experiment on one row or column, whose detectors are random without faults (C40).
* **C75** Noise only causes faults that the distance covers — partial: `C75_possible`, `C75_possible_google`, `C75_distance`, `C75_distance_google`, `C74_one_row_refuted`, `C74_xzzx_refuted`. The first sentence is proved for all memory experiments. The consequence for the distance is proved for dx, dz >= 2 (all experiments but the XZZX one that is not pipelined); elsewhere it is false with the noise of CircuitNoiseModel: the faults of C74_one_row_refuted and C74_xzzx_refuted are caused by that noise.
* **C76** The circuit distance is attained — proved: `C76_attained`, `C76_attained_google`. The condition on measurements holds with every noise model whose measurement instructions have an argument (C76_case: CircuitNoiseModel).
* **C77** When transversal gates can be set — proved: `C77_s_rot`, `C77_s_unrot`, `C77_h_corner`, `C77_cnot_rot`, `C77_cnot_unrot`. So the hypotheses of C46-C48 and C66-C72 can be met for codes of every size. set_trans_h also succeeds on other data qubits of a diagonal; only the corners are claimed. The matcher of networkx is an oracle that must find every monomorphism.
* **C78** Coordinates from the directions — partial: `C78_set_coords_ends`, `C78_set_coords_refuses`, `C78_set_coords`, `C78_rotated`, `C78_unrotated_refuted`. The last sentence is proved for the rotated codes and false for the unrotated ones: their directions are single words, so that zip leaves one number, and different qubits get the same coordinates. Not part of the claim: the loop takes as many steps as there are shortest paths, which grows exponentially with the distance.
* **C79** Indices along a chain — partial: `C79_index_chain_ends`, `C79_index_chain_unknown`, `C79_index_chain`, `C79_open_chain`, `C79_repetition_code`, `C79_ring_refuted`. Only the last sentence is false: around a ring the qubit opposite to the first one is queued twice, and an integer is left out.
* **C80** Repeated gate experiments are built — partial: `C80_repeated_partial`, `C80_numbers`, `C80_duration_refuted`. Proved for all noise models of the library but ExperimentalNoiseModel and DecoherenceNoiseModel, for which every such experiment raises (proved for all arguments): their idle needs a duration.
* **C81** Repeated CNOT experiments are built — partial: `C81_rot_partial`, `C81_unrot_partial`, `C81_library_setup`, `C81_arguments`, `C81_duration_refuted`, `C81_per_qubit_refuted`. Proved if the noise parameters are the same for all qubits and all pairs, as in CircuitNoiseSetup. False otherwise: with a readout error of its own for one ancilla of one layout merge_tick_blocks raises ValueError (proved on a pair of distance-2 codes). ExperimentalNoiseModel and DecoherenceNoiseModel always raise: their idle needs a duration.
* **C82** Experiments do not depend on earlier uses of the objects — proved: `C82_history`, `C82_attributes`. The setup object is shared too: changing its parameters between experiments is not a use in this sense. Blocks such as qec_round called directly are sequences of the uses listed.
* **C83** The rounds of a memory experiment repeat — proved: `C83_memory`, `C83_google`. The orders of iteration of sets are assumed to be the same in every round, as in one Python process.
* **C84** The numbering of the qubits only renames the targets — proved: `C84_experiment`, `C84_operation`, `C84_numberings`.
* **C85** The noise model of an experiment only adds noise — proved: `C85_noiseless`, `C85_any_two`. Experiments on one layout. In the CNOT experiments the merged circuits sort instructions by name, noise included, so that the order inside a time step may differ; not covered. BiasedCircuitNoiseModel.measure_y (C17) is not used by the experiments.
* **C86** The requested detectors only decide which detectors are empty — proved: `C86_fewer`, `C86_gauge`, `C86_set`. All experiments. Orders of iteration of sets are permutations.
* **C87** The initial bitstring only changes the initialization — proved: `C87_bitstring`, `C87_records`. All experiments.
