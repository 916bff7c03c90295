(** Experiments with repeated transversal gates (C66, C67). Vocabulary in SpecExp and SpecLog.
    [ordt] and [ordp] are the orders in which Python iterates sets in the blocks. *)
From Coq Require Import QArith Qcanon.
From Verif Require Import SpecLayout LayoutP RotP UnrotP Base StimM SetupM NoiseM SpecNoise LayoutM GenM DetM BlockM LogM ExpM SpecGen SpecTrack SpecLog SpecExp RepP7 RepP8
  Props_Noise Props_Gen Props_Round Props_Exp Props_Merge Props_Log.
Open Scope Z_scope.

(** C66 Without gauge detectors, and in a frame that follows the gates, every detector and
    the observable is deterministic. *)
Theorem C66_rot_s ordt ordp a l0 l l1 l2 dq n R di rot reset dets w w' c :
  (forall t k s, Permutation (ordt t k s) s) -> (forall t k s, Permutation (ordp t k s) s) ->
  rot_surface_code_rectangle a = Ok l0 -> annotated structure l0 l ->
  set_trans_s_rot l dq = Ok l1 -> annotated (("trans-s_" ++ ga_log a) :: structure)%string l1 l2 ->
  wf_inds (inds (fst w)) -> NoDup (labels (snd w)) -> dfr (snd w) <> GateIndep ->
  repeated_s_rot_css ordt ordp l2 n R di rot reset dets false w = (w', Ok c) -> all_deterministic c.
Proof. intros Hp Hpp G A S B W N F. exact (C66_rot_lemma ordt ordp Hp Hpp a l0 l l1 l2 dq A n R di rot reset dets w w' c W N F G S B). Qed.
Print Assumptions C66_rot_s.
Theorem C66_pipelined_s ordt ordp a l0 l l1 l2 dq n R di rot reset dets w w' c :
  (forall t k s, Permutation (ordt t k s) s) -> (forall t k s, Permutation (ordp t k s) s) ->
  rot_surface_code_rectangle a = Ok l0 -> annotated structure l0 l ->
  set_trans_s_rot l dq = Ok l1 -> annotated (("trans-s_" ++ ga_log a) :: structure)%string l1 l2 ->
  wf_inds (inds (fst w)) -> NoDup (labels (snd w)) -> dfr (snd w) <> GateIndep ->
  repeated_s_css_pipelined ordt ordp l2 n R di rot reset dets false w = (w', Ok c) -> all_deterministic c.
Proof. intros Hp Hpp G A S B W N F. exact (C66_pipe_lemma ordt ordp Hp Hpp a l0 l l1 l2 dq A n R di rot reset dets w w' c W N F G S B). Qed.
Print Assumptions C66_pipelined_s.
Theorem C66_unrot_s ordt ordp a l0 l l1 l2 dq n R di rot reset dets w w' c :
  (forall t k s, Permutation (ordt t k s) s) -> (forall t k s, Permutation (ordp t k s) s) ->
  unrot_surface_code_rectangle a = Ok l0 -> annotated structure l0 l ->
  set_trans_s_unrot l dq = Ok l1 -> annotated (("trans-s_" ++ ga_log a) :: structure)%string l1 l2 ->
  wf_inds (inds (fst w)) -> NoDup (labels (snd w)) -> dfr (snd w) <> GateIndep ->
  repeated_s_unrot_css ordt ordp l2 n R di rot reset dets false w = (w', Ok c) -> all_deterministic c.
Proof. intros Hp Hpp G A S B W N F. exact (C66_unrot_s_lemma ordt ordp Hp Hpp a l0 l l1 l2 dq A n R di rot reset dets w w' c W N F G S B). Qed.
Print Assumptions C66_unrot_s.
Theorem C66_unrot_h ordt ordp a l0 l l1 l2 dq n R di rot reset dets w w' c :
  (forall t k s, Permutation (ordt t k s) s) -> (forall t k s, Permutation (ordp t k s) s) ->
  unrot_surface_code_rectangle a = Ok l0 -> annotated structure l0 l ->
  set_trans_h l dq = Ok l1 -> annotated (("trans-h_" ++ ga_log a) :: structure)%string l1 l2 ->
  wf_inds (inds (fst w)) -> NoDup (labels (snd w)) -> dfr (snd w) <> GateIndep ->
  repeated_h_unrot_css ordt ordp l2 n R di rot reset dets false w = (w', Ok c) -> all_deterministic c.
Proof. intros Hp Hpp G A S B W N F. exact (C66_unrot_h_lemma ordt ordp Hp Hpp a l0 l l1 l2 dq A n R di rot reset dets w w' c W N F G S B). Qed.
Print Assumptions C66_unrot_h.
Definition count_dets (r : world * res circuit) : option nat := match r with (_, Ok c) => Some (length (detectors_of c)) | _ => None end.
Definition ex_ordpt (t : nat) := ex_ordp.
Example C66_case :
  rot_surface_code_rectangle (args 3 4) = Ok rot34 /\ set_trans_s_rot rot34 "D1" = Ok rot34s /\
  unrot_surface_code_rectangle (args 3 3) = Ok unrot33 /\ set_trans_s_unrot unrot33 "D1" = Ok unrot33s /\ set_trans_h unrot33 "D3" = Ok unrot33h /\
  wf_inds (inds (fst (world_of rot34))) /\ NoDup (labels (snd (world_of rot34))) /\ dfr (snd (world_of rot34)) <> GateIndep /\
  wf_inds (inds (fst (world_of unrot33))) /\ NoDup (labels (snd (world_of unrot33))) /\
  count_dets (repeated_s_rot_css ex_ordt ex_ordpt rot34s 2 1 [("D1", 1)] true false None false (world_of rot34)) = Some 39%nat /\
  count_dets (repeated_s_css_pipelined ex_ordt ex_ordpt rot34s 2 1 [("D1", 1)] true false None false (world_of rot34)) = Some 39%nat /\
  count_dets (repeated_s_unrot_css ex_ordt ex_ordpt unrot33s 2 0 [("D1", 1)] true true None false (world_of unrot33)) = Some 18%nat /\
  count_dets (repeated_h_unrot_css ex_ordt ex_ordpt unrot33h 3 2 [("D1", 1)] true false (Some ["X1"; "Z2"]) false (world_of unrot33)) = Some 90%nat.
Proof.
  do 5 (split; [vm_compute; reflexivity|]). split; [apply wf_test; vm_compute; reflexivity|]. split; [nodup|]. split; [intro E; vm_compute in E; discriminate E|].
  split; [apply wf_test; vm_compute; reflexivity|]. split; [nodup|]. 
  split; [vm_compute; reflexivity|]. split; [vm_compute; reflexivity|]. split; vm_compute; reflexivity.
Qed.

(* With detectors in the gate-independent frame a transversal gate leaves random detectors. *)
Definition gate_indep (l : layout) : world :=
  (fst (world_of l), match get_role l "anc" with
    | Ok ancs => match det_init ancs "gate-independent" None with Ok d => fst (activate ancs d) | Err _ => snd (world_of l) end
    | Err _ => snd (world_of l) end).
Definition ex_indep : world * res circuit := repeated_s_rot_css ex_ordt ex_ordpt rot34s 2 1 [("D1", 1)] true true None false (gate_indep rot34).
Definition out_of (r : world * res circuit) : circuit := match r with (_, Ok c) => c | _ => [] end.
Theorem C66_gate_independent_refuted : exists a l0 l2 dq n R di rot reset dets w w' c,
  rot_surface_code_rectangle a = Ok l0 /\ set_trans_s_rot l0 dq = Ok l2 /\ wf_inds (inds (fst w)) /\ NoDup (labels (snd w)) /\ dfr (snd w) = GateIndep /\
  repeated_s_rot_css ex_ordt ex_ordpt l2 n R di rot reset dets false w = (w', Ok c) /\ ~ all_deterministic c.
Proof.
  exists (args 3 4), rot34, rot34s, "D1"%string, 2, 1, [("D1"%string, 1)], true, true, None, (gate_indep rot34), (fst ex_indep), (out_of ex_indep).
  split; [vm_compute; reflexivity|]. split; [vm_compute; reflexivity|]. split; [apply wf_test; vm_compute; reflexivity|]. split; [nodup|].
  split; [vm_compute; reflexivity|]. split; [vm_compute; reflexivity|]. apply (not_deterministic _ 155 0). vm_compute. reflexivity.
Qed.
Print Assumptions C66_gate_independent_refuted.

(** C67 An experiment with repeated gates on any layout, in any frame, with or without
    gauge detectors. [read_basis]: the basis of the last measurement. *)
Definition read_basis (k : repeated_kind) (n : Z) (rot : bool) : bool := match k with HUnrot => if Z.odd n then negb rot else rot | _ => rot end.
Lemma final_eq k n rot : final_basis (swaps_basis k) n rot = read_basis k n rot.
Proof. unfold final_basis. rewrite Zmod_odd. destruct k; cbn; try reflexivity. now destruct (Z.odd n). Qed.
(* The record: every ancilla once in each of the 1 + num_gates * rounds rounds, then the data qubits. *)
Theorem C67_record ordt ordp k raw l0 l n R di rot reset dets gauge w w' c :
  (forall t j s, Permutation (ordt t j s) s) -> py_dicts raw -> layout_init raw = Ok l0 -> edited l0 l -> wf_inds (inds (fst w)) -> NoDup (labels (snd w)) ->
  repeated ordt ordp k l n R di rot reset dets gauge w = (w', Ok c) ->
  exists anc data, get_role l "anc" = Ok anc /\ get_role l "data" = Ok data /\
    at_inds (inds (fst w)) (times (S (Z.to_nat n * Z.to_nat R)) anc ++ data) (measured c).
Proof.
  intros Hp P E Ed W N H. rewrite rep_eq in H.
  exact (rep_record ordt ordp Hp (rep_it k) (rep_bl k) (rep_prefix k) _ l (edited_wf _ _ Ed (loaded_wf _ _ P E)) (rep_meas k l) (rep_calm k l) (rep_unit k l) _ (rep_gate_eq ordt ordp k l) n R di rot reset dets gauge w w' c W N H).
Qed.
Print Assumptions C67_record.
(* One detector per ancilla and round, one per stabilizer of the basis measured at the end; one observable. *)
Theorem C67_counts ordt ordp k raw l0 l n R di rot reset dets gauge w w' c anc :
  (forall t j s, Permutation (ordt t j s) s) -> py_dicts raw -> layout_init raw = Ok l0 -> edited l0 l -> wf_inds (inds (fst w)) -> NoDup (labels (snd w)) ->
  get_role l "anc" = Ok anc -> Permutation (labels (snd w)) anc ->
  repeated ordt ordp k l n R di rot reset dets gauge w = (w', Ok c) ->
  exists stabs, get_stabs l (if read_basis k n rot then "x_type" else "z_type") = Ok stabs /\
    number DETECTOR c = (S (Z.to_nat n * Z.to_nat R) * length anc + length stabs)%nat /\ number OBSERVABLE_INCLUDE c = 1%nat.
Proof.
  intros Hp P E Ed W N Ea Pm H. rewrite rep_eq in H. rewrite <- final_eq.
  exact (rep_counts ordt ordp Hp (rep_it k) (rep_bl k) (rep_prefix k) _ l (edited_wf _ _ Ed (loaded_wf _ _ P E)) (rep_meas k l) (rep_calm k l) (rep_unit k l) _ (rep_gate_eq ordt ordp k l) n R di rot reset dets gauge w w' c W N H anc Ea Pm).
Qed.
Print Assumptions C67_counts.
(* A data qubit: preparation, gates that are neither Pauli gates, resets nor measurements, readout. *)
Theorem C67_data ordt ordp k raw l0 l n R di rot reset dets gauge w w' c q i :
  (forall t j s, Permutation (ordt t j s) s) -> py_dicts raw -> layout_init raw = Ok l0 -> edited l0 l -> wf_inds (inds (fst w)) -> NoDup (labels (snd w)) ->
  repeated ordt ordp k l n R di rot reset dets gauge w = (w', Ok c) ->
  has_role l "data" q -> dget q (inds (fst w)) = Some i ->
  exists first (mid : list (gate Z)) last, acting i (gates c) = on_qubit i first ++ mid ++ on_qubit i last /\
    preparation l false rot di q first /\ Forall unitary mid /\ readout l false (read_basis k n rot) q last.
Proof.
  intros Hp P E Ed W N H Hr Hq. rewrite rep_eq in H. rewrite <- final_eq.
  exact (rep_data ordt ordp Hp (rep_it k) (rep_bl k) (rep_prefix k) _ l (edited_wf _ _ Ed (loaded_wf _ _ P E)) (rep_meas k l) (rep_calm k l) (rep_unit k l) _ (rep_gate_eq ordt ordp k l) n R di rot reset dets gauge w w' c W N H q i Hr Hq).
Qed.
Print Assumptions C67_data.
(* The order: initialization and one round, num_gates times the gate and its rounds, the measurement.
   Only the first round is restricted to the stabilizers of the basis. *)
Definition kind_round (k : repeated_kind) (ord : nat -> list string -> list string) : layout -> bool -> blocks :=
  match k with SRot => css_round ord "rotated_surface_code" | SPipelined => css_pipe_round ord | SUnrot | HUnrot => css_round ord "unrotated_surface_code" end.
Definition kind_gate (k : repeated_kind) ord ordp : layout -> ST world circuit :=
  match k with HUnrot => log_trans_h ord ordp | _ => log_trans_s ord ordp end.
Theorem C67_sequence ordt ordp k l n R di rot reset dets gauge w w' c :
  (forall t j s, Permutation (ordt t j s) s) ->
  repeated ordt ordp k l n R di rot reset dets gauge w = (w', Ok c) ->
  exists dd coords init first parts last,
    c = coords ++ init ++ first ++ concat (map (fun p => fst p ++ concat (snd p)) parts) ++ last /\
    (match dets with Some d => dd = d | None => get_role l "anc" = Ok dd end) /\
    Z.of_nat (length parts) = n /\
    (exists ds w1 w2 o o', (if gauge then ds = dd else exists s, get_stabs l (if rot then "x_type" else "z_type") = Ok s /\ forall a, In a ds <-> In a dd /\ In a s) /\
       exp_start [l] w = (w1, Ok coords) /\ init_qubits (ordt o) l di rot w1 = (w2, Ok init) /\ snd (qec_round (kind_round k (ordt o')) l reset (Some ds) w2) = Ok first) /\
    (exists w1, log_meas l (read_basis k n rot) reset (Some dd) w1 = (w', Ok last)) /\
    forall g rs, In (g, rs) parts -> (exists o w1 w2, kind_gate k (ordt o) (ordp o) l w1 = (w2, Ok g)) /\ Z.of_nat (length rs) = R /\
      forall r, In r rs -> exists o w1 w2, qec_round (kind_round k (ordt o)) l reset (Some dd) w1 = (w2, Ok r).
Proof.
  intros Hp H. rewrite rep_eq in H.
  destruct (rep_sequence ordt Hp (rep_it k) _ l _ n R di rot reset dets gauge w w' c H)
    as (dd & before & parts & after & -> & L & D & (ds & w1 & w2 & c0 & c1 & Hd & H1 & H2 & ->) & Hm & Hparts).
  assert (Ek : forall ord, rep_it k ord = kind_round k ord) by now destruct k.
  unfold sbind in H2. destruct (init_qubits (ordt 1%nat) l di rot w1) as [w3 [ci|e]] eqn:Ei; [|discriminate].
  destruct (qec_round (rep_it k (ordt 3%nat)) l reset (Some ds) w3) as [w4 [cr|e]] eqn:Er; [|discriminate]. injection H2 as <- <-.
  exists dd, c0, ci, cr, parts, after. split; [now rewrite <- !app_assoc|]. split; [destruct dets; [now injection D|exact D]|]. split; [exact L|].
  split; [|split].
  - exists ds, w1, w3, 1%nat, 3%nat. split; [exact Hd|]. split; [exact H1|]. split; [exact Ei|]. now rewrite <- Ek, Er.
  - now rewrite <- final_eq.
  - intros g rs Hi. destruct (Hparts g rs Hi) as ((o & v1 & v2 & G) & Lr & Gr). split; [|split; [exact Lr|]].
    + exists o, v1, v2. destruct k; exact G.
    + intros r Hr. destruct (Gr r Hr) as (o2 & u1 & u2 & G2). exists o2, u1, u2. now rewrite <- Ek.
Qed.
Print Assumptions C67_sequence.
Definition ex_rep (k : repeated_kind) l n R gauge := repeated ex_ordt ex_ordpt k l n R [("D1", 1)] true false None gauge (world_of l).
Example C67_layouts : (exists raw, py_dicts raw /\ layout_init raw = Ok rot34) /\ edited rot34 rot34s /\ (exists raw, py_dicts raw /\ layout_init raw = Ok unrot33) /\ edited unrot33 unrot33h.
Proof.
  split; [|split; [|split]].
  - destruct (rot_planar (args 3 4)) as (l & r & E & L & D & _); [discriminate|discriminate|]. exists r. split; [exact D|]. rewrite L. f_equal. unfold rot34. now rewrite E.
  - apply (s_rot_edited _ "D1"). vm_compute. reflexivity.
  - destruct (unrot_planar (args 3 3)) as (l & r & E & L & D & _); [cbn; lia|cbn; lia|]. exists r. split; [exact D|]. rewrite L. f_equal. unfold unrot33. now rewrite E.
  - apply (h_edited _ "D3"). vm_compute. reflexivity.
Qed.
Example C67_case : wf_inds (inds (fst (world_of rot34s))) /\ NoDup (labels (snd (world_of rot34s))) /\
  get_role rot34s "anc" = Ok (labels (snd (world_of rot34s))) /\ get_role unrot33h "anc" = Ok (labels (snd (world_of unrot33h))) /\
  wf_inds (inds (fst (world_of unrot33h))) /\ NoDup (labels (snd (world_of unrot33h))) /\
  number DETECTOR (out_of (ex_rep SRot rot34s 2 1 true)) = 39%nat /\ number DETECTOR (out_of (ex_rep SPipelined rot34s 2 2 false)) = 61%nat /\
  number DETECTOR (out_of (ex_rep HUnrot unrot33h 3 2 true)) = 90%nat /\ length (measured (out_of (ex_rep HUnrot unrot33h 3 2 true))) = 97%nat /\
  acting 0 (gates (out_of (ex_rep HUnrot unrot33h 3 0 true))) =
    on_qubit 0 [GR; GX; GH] ++ [G1 GH 0; G1 GH 0; G2 GCZ 5 0; G1 GH 0; G2 GCZ 1 0; G1 GH 0; G1 GH 0; G2 GSWAP 0 24; G1 GH 0; G2 GSWAP 0 24; G1 GH 0; G2 GSWAP 0 24] ++ on_qubit 0 [GM].
Proof.
  split; [apply wf_test; vm_compute; reflexivity|]. split; [nodup|]. split; [vm_compute; reflexivity|]. split; [vm_compute; reflexivity|].
  split; [apply wf_test; vm_compute; reflexivity|]. split; [nodup|].
  split; [vm_compute; reflexivity|]. split; [vm_compute; reflexivity|]. split; [vm_compute; reflexivity|]. split; [vm_compute; reflexivity|]. vm_compute. reflexivity.
Qed.
