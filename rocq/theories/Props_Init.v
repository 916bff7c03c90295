(** What the initialization and the final measurement do to each qubit (C61, C62).
    Vocabulary in SpecExp; any order [ord] of the Python sets; any layout that was loaded,
    possibly with attributes set afterwards. *)
From Coq Require Import QArith Qcanon.
From Verif Require Import SpecLayout LayoutP RotP Base StimM SetupM NoiseM SpecNoise LayoutM GenM DetM BlockM ExpM SpecGen SpecTrack SpecExp
  ExpP13 Props_Noise Props_Gen Props_Round Props_Exp.
Open Scope Z_scope.

(** C61 Initialization acts on a qubit by a reset if it is in the layout, X if its entry of
    data_init is not 0, and H if it is prepared in the X basis; and nothing else. The
    ancillas are then active, with no rounds. The logical measurement acts by H if the
    qubit is measured in the X basis and by a measurement if it is a data qubit; the
    ancillas are then inactive. *)
Theorem C61_init ord r l0 l (xz : bool) di rot w w' c : (forall n s, Permutation (ord n s) s) ->
  py_dicts r -> layout_init r = Ok l0 -> edited l0 l -> wf_inds (inds (fst w)) ->
  (if xz then init_qubits_xzzx ord else init_qubits ord) l di rot w = (w', Ok c) ->
  (forall q i, dget q (inds (fst w)) = Some i ->
     exists gs, acting i (gates c) = on_qubit i gs /\ preparation l xz rot di q gs) /\
  (forall a, has_role l "anc" a -> dget a (active (snd w')) = Some true /\ dget a (num_rounds (snd w')) = Some 0).
Proof. intros Hp P E Ed. exact (C61_init_lemma ord Hp xz l di rot w w' c (edited_wf _ _ Ed (loaded_wf _ _ P E))). Qed.
Print Assumptions C61_init.
Theorem C61_meas ord r l0 l (xz : bool) rot reset dets w w' c : (forall n s, Permutation (ord n s) s) ->
  py_dicts r -> layout_init r = Ok l0 -> edited l0 l -> wf_inds (inds (fst w)) ->
  (if xz then log_meas_xzzx ord else log_meas) l rot reset dets w = (w', Ok c) ->
  (forall q i, dget q (inds (fst w)) = Some i ->
     exists gs, acting i (gates c) = on_qubit i gs /\ readout l xz rot q gs) /\
  (forall a, has_role l "anc" a -> dget a (active (snd w')) = Some false).
Proof. intros Hp P E Ed. exact (C61_meas_lemma ord Hp xz l rot reset dets w w' c (edited_wf _ _ Ed (loaded_wf _ _ P E))). Qed.
Print Assumptions C61_meas.

(** C62 In a memory experiment a data qubit is prepared according to data_init and the
    basis, then goes through Clifford gates only, and at the end is read out. In Google's
    experiment, where the rounds also have X gates, the preparation is the same. *)
Theorem C62_memory ordt k r l0 l R di rot reset dets gauge w w' c q i : (forall t n s, Permutation (ordt t n s) s) ->
  py_dicts r -> layout_init r = Ok l0 -> edited l0 l -> wf_inds (inds (fst w)) -> NoDup (labels (snd w)) ->
  memory ordt k l R di rot reset dets gauge w = (w', Ok c) ->
  has_role l "data" q -> dget q (inds (fst w)) = Some i ->
  let xz := match k with Xzzx | XzzxPipelined => true | _ => false end in
  exists first mid last, acting i (gates c) = on_qubit i first ++ mid ++ on_qubit i last /\
    preparation l xz rot di q first /\ Forall clifford mid /\ readout l xz rot q last.
Proof. intros Hp P E Ed. exact (C62_lemma ordt k l R di rot reset dets gauge w w' c q i Hp (edited_wf _ _ Ed (loaded_wf _ _ P E))). Qed.
Print Assumptions C62_memory.
Theorem C62_google ordt r l0 l R di rot dets gauge w w' c q i : (forall t n s, Permutation (ordt t n s) s) ->
  py_dicts r -> layout_init r = Ok l0 -> edited l0 l -> wf_inds (inds (fst w)) -> NoDup (labels (snd w)) ->
  memory_google ordt l R di rot dets gauge w = (w', Ok c) -> dget q (inds (fst w)) = Some i ->
  exists first rest, acting i (gates c) = on_qubit i first ++ rest /\ preparation l true rot di q first.
Proof. intros Hp P E Ed. exact (C62_google_lemma ordt l R di rot dets gauge w w' c q i Hp (edited_wf _ _ Ed (loaded_wf _ _ P E))). Qed.
Print Assumptions C62_google.

(* the generated layouts are loaded ones *)
Example C61_layouts : exists r, py_dicts r /\ layout_init r = Ok rot21 /\ edited rot21 rot21.
Proof.
  destruct (rot_planar (args 2 1)) as (l & r & E & H & P & _); [cbn; lia|cbn; lia|].
  assert (K : Ok l = Ok rot21) by (rewrite <- E; vm_compute; reflexivity). injection K as ->. exists r. split; [exact P|]. split; [exact H|constructor].
Qed.
(* D1 is excited, in the basis X of the 2x1 code and in the XZZX code *)
Definition ex_init (f : layout -> dict string Z -> bool -> ST world circuit) : list (list (gate Z)) :=
  match f rot21 [("D1", 1); ("D2", 0)] true (new_circuit (fst (world_of rot21)), det_new (snd (world_of rot21))) with
  | (_, Ok c) => map (fun i => acting i (gates c)) [0; 1; 2]
  | _ => []
  end.
Example C61_case :
  ex_init (init_qubits ex_ord) = [on_qubit 0 [GR; GX; GH]; on_qubit 1 [GR; GH]; on_qubit 2 [GR]] /\
  ex_init (init_qubits_xzzx ex_ord) = [on_qubit 0 [GR; GX]; on_qubit 1 [GR]; on_qubit 2 [GR]].
Proof. vm_compute. auto. Qed.
Example C62_case :
  acting 0 (gates (ex_circuit XzzxPipelined rot33 1 true true)) =
    on_qubit 0 [GR; GX; GH] ++ [G1 GH 0; G2 GCZ 9 0; G1 GH 0; G2 GCZ 13 0] ++ on_qubit 0 [GH; GM] /\
  dget "D1" (inds (fst (world_of rot33))) = Some 0.
Proof. vm_compute. auto. Qed.
