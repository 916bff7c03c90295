(** Properties of class Layout and of layouts/operations.py (C22-C25, C51, C52). *)
From Coq Require Import QArith Qcanon.
From Verif Require Import Base StimM LayoutM SpecLayout LayoutP LayoutP2.
Open Scope Z_scope.

(** * A concrete description: two data qubits and one ancilla *)
Definition num (z : Z) : pyv := PNum (Q2Qc (inject_Z z)).
Definition entry (q role : string) (ind : list (string * pyv)) (r c : Z) (nb : list (string * pyv)) : attrs :=
  [("qubit", PStr q); ("role", PStr role); ("coords", PList [num r; num c]); ("neighbors", PDict nb)] ++ ind.
Definition ex_infos : list attrs :=
  [entry "D1" "data" [("ind", num 4)] 1 1 [("north_east", PStr "X1"); ("south_east", PNone)];
   entry "D2" "data" [("ind", num 2)] 1 3 [("north_west", PStr "X1")];
   entry "X1" "anc" [("ind", num 7); ("stab_type", PStr "x_type")] 2 2
         [("south_west", PStr "D1"); ("south_east", PStr "D2")]].
Definition ex_raw (infos : list attrs) : raw_layout :=
  {| rl_name := None; rl_code := Some "repetition"; rl_logs := Some ["L0"]; rl_distance := Some 2;
     rl_dz := None; rl_dx := None; rl_logz := Some [("L0", ["D1"])]; rl_logx := Some [("L0", ["D1"; "D2"])];
     rl_desc := None; rl_order := None; rl_layout := Some infos |}.
Definition ok {A} (d : A) (x : res A) : A := match x with Ok a => a | Err _ => d end.
Definition no_layout : layout :=
  {| l_name := PNone; l_code := ""; l_logs := []; l_distance := 0; l_dz := 0; l_dx := 0; l_logz := [];
     l_logx := []; l_desc := PNone; l_order := []; l_inds := []; l_nodes := []; l_adj := [] |}.
Definition ex : layout := ok no_layout (layout_init (ex_raw ex_infos)).
Example ex_loads : layout_init (ex_raw ex_infos) = Ok ex. Proof. vm_compute. reflexivity. Qed.
Example ex_dicts : py_dicts (ex_raw ex_infos).
Proof.
  intros infos a [= <-] Ha. split.
  - apply nodupb_spec. destruct Ha as [<-|[<-|[<-|[]]]]; reflexivity.
  - intros nd E. apply nodupb_spec. destruct Ha as [<-|[<-|[<-|[]]]]; injection E as <-; reflexivity.
Qed.

(** C22 Round trip: after any number of [set_param] calls on attributes other
    than the label and the index, the layout loaded from [to_dict] cannot be told
    apart from the original (the attribute "neighbors" itself excepted: [to_dict]
    recomputes it from the graph, see C51). *)
Theorem C22_layout_round_trip r l0 l : py_dicts r -> layout_init r = Ok l0 -> edited l0 l ->
  exists l', layout_init (to_dict l) = Ok l' /\ same_layout l l'.
Proof. exact (C22_lemma r l0 l). Qed.
Print Assumptions C22_layout_round_trip.
Definition ex' : layout := ok no_layout (lset_param ex "trans-h" "D1" (PDict [("swap", PStr "D2")])).
Example C22_hyp : py_dicts (ex_raw ex_infos) /\ layout_init (ex_raw ex_infos) = Ok ex /\ edited ex ex'.
Proof.
  split; [exact ex_dicts|]. split; [exact ex_loads|].
  apply (ed_step ex "trans-h" "D1" (PDict [("swap", PStr "D2")]) ex'); try discriminate;
    [vm_compute; reflexivity|constructor].
Qed.
Example C22_case : layout_init (to_dict ex') <> Ok ex' /\ layout_init (to_dict ex') <> Err ValueError.
Proof. vm_compute. split; intros [=]. Qed.

(** C23 In a loaded layout the labels are those of the description, in order, and
    distinct; [get_inds] is defined exactly on them and injective; either no index
    was given or all were, pairwise different, and these are the indices used. *)
Theorem C23_labels r l infos : layout_init r = Ok l -> rl_layout r = Some infos ->
  exists ls, Forall2 labelled infos ls /\ NoDup ls /\ get_qubits l [] = Ok ls.
Proof. exact (C23_labels_lemma r l infos). Qed.
Print Assumptions C23_labels.
Theorem C23_indices r l infos : layout_init r = Ok l -> rl_layout r = Some infos ->
  (forall q, In q (map fst (l_nodes l)) <-> exists i, lay_inds l [q] = Ok [i]) /\
  (forall q q' i, lay_inds l [q] = Ok [i] -> lay_inds l [q'] = Ok [i] -> q = q') /\
  (Forall no_index infos \/
   exists zs, Forall2 index_is infos zs /\ NoDup zs /\
     forall a q z, In a infos -> labelled a q -> index_is a z -> lay_inds l [q] = Ok [z]).
Proof.
  intros H Hi. split; [exact (C23_total_lemma r l H)|].
  split; [exact (C23_injective_lemma r l H)|exact (C23_indices_lemma r l infos H Hi)].
Qed.
Print Assumptions C23_indices.
Example C23_hyp : layout_init (ex_raw ex_infos) = Ok ex /\ rl_layout (ex_raw ex_infos) = Some ex_infos.
Proof. split; [exact ex_loads|reflexivity]. Qed.
Example C23_rejected :
  layout_init (ex_raw (ex_infos ++ [entry "D1" "data" [("ind", num 5)] 9 9 []])) = Err ValueError /\
  layout_init (ex_raw (ex_infos ++ [entry "D3" "data" [("ind", num 7)] 9 9 []])) = Err ValueError /\
  layout_init (ex_raw (ex_infos ++ [entry "D3" "data" [] 9 9 []])) = Err ValueError.
Proof. vm_compute. auto. Qed.

(** C24 [check_overlap_layouts] raises exactly when two of the layouts share a
    label, an index, coordinates or a logical label. *)
Theorem C24_overlap_exact ls : Forall loaded ls -> Forall all_coords ls ->
  (check_overlaps ls = Ok tt /\
     ~ (exists pre a mid b post, ls = pre ++ a :: mid ++ b :: post /\ share a b)) \/
  (check_overlaps ls = Err ValueError /\
     exists pre a mid b post, ls = pre ++ a :: mid ++ b :: post /\ share a b).
Proof. exact (overlaps_lemma ls). Qed.
Print Assumptions C24_overlap_exact.
Definition ex2_infos : list attrs :=
  [entry "E1" "data" [("ind", num 10)] 5 5 []; entry "E2" "data" [("ind", num 11)] 5 7 []].
Definition ex2_raw (i : list attrs) : raw_layout :=
  {| rl_name := None; rl_code := None; rl_logs := None; rl_distance := None; rl_dz := None; rl_dx := None;
     rl_logz := None; rl_logx := None; rl_desc := None; rl_order := None; rl_layout := Some i |}.
Definition ex2 : layout := ok no_layout (layout_init (ex2_raw ex2_infos)).
Example C24_hyp : Forall loaded [ex; ex2; ex] /\ Forall all_coords [ex; ex2; ex].
Proof.
  assert (L1 : loaded ex) by (exists (ex_raw ex_infos); exact ex_loads).
  assert (L2 : loaded ex2) by (exists (ex2_raw ex2_infos); vm_compute; reflexivity).
  assert (C1 : all_coords ex).
  { intros q [<-|[<-|[<-|[]]]]; [exists [Q2Qc 1; Q2Qc 1]|exists [Q2Qc 1; Q2Qc 3]|exists [Q2Qc 2; Q2Qc 2]];
      vm_compute; reflexivity. }
  assert (C2 : all_coords ex2).
  { intros q [<-|[<-|[]]]; [exists [Q2Qc 5; Q2Qc 5]|exists [Q2Qc 5; Q2Qc 7]]; vm_compute; reflexivity. }
  split; repeat constructor; assumption.
Qed.
Example C24_case : check_overlaps [ex; ex2] = Ok tt /\ check_overlaps [ex; ex2; ex] = Err ValueError.
Proof. vm_compute. auto. Qed.

(** C25 [index_coords] succeeds for every iteration order of the set of
    coordinates, is injective, uses exactly the indices 0, ..., n-1, and numbers
    the coordinates in that order (backwards if [reverse]). *)
Theorem C25_index_coords uniq coords reverse : set_order uniq coords ->
  exists is, index_coords uniq coords reverse = Ok (is, Z.of_nat (length uniq)) /\
    (exists f : Qc -> Z, is = map f coords /\
       (forall c c', In c coords -> In c' coords -> f c = f c' -> c = c') /\
       forall k c, nth_error uniq k = Some c ->
         f c = if reverse then Z.of_nat (length uniq) - 1 - Z.of_nat k else Z.of_nat k) /\
    (forall z, In z is <-> 0 <= z < Z.of_nat (length uniq)).
Proof. exact (C25_lemma uniq coords reverse). Qed.
Print Assumptions C25_index_coords.
(** In [expansion_matrix] two ancillas have the same cell exactly when they have
    the same coordinates. *)
Theorem C25_expansion ur uc l ancs m : loaded l -> get_role l "anc" = Ok ancs ->
  (NoDup ur /\ forall r, In r ur <-> exists q c, In q ancs /\ has_coord l q [r; c]) ->
  (NoDup uc /\ forall c, In c uc <-> exists q r, In q ancs /\ has_coord l q [r; c]) ->
  expansion_matrix ur uc l = Ok m ->
  forall q q' x x', In q ancs -> In q' ancs -> has_coord l q x -> has_coord l q' x' ->
  (exists cell, dget q m = Some cell) /\ (dget q m = dget q' m <-> x = x').
Proof. exact (C25_expansion_lemma ur uc l ancs m). Qed.
Print Assumptions C25_expansion.
Example C25_hyp : set_order [Q2Qc 3; Q2Qc 1; Q2Qc 2] [Q2Qc 1; Q2Qc 2; Q2Qc 1; Q2Qc 3].
Proof.
  split; [apply nodupb_spec; vm_compute; reflexivity|]. intros c; simpl; tauto.
Qed.
Example C25_case : index_coords [Q2Qc 3; Q2Qc 1; Q2Qc 2] [Q2Qc 1; Q2Qc 2; Q2Qc 1; Q2Qc 3] true = Ok ([1; 0; 1; 2], 3).
Proof. vm_compute. reflexivity. Qed.
Example C25_expansion_hyp : loaded ex /\ get_role ex "anc" = Ok ["X1"] /\
  expansion_matrix [Q2Qc 2] [Q2Qc 2] ex = Ok [("X1", (0, 0))].
Proof. split; [exists (ex_raw ex_infos); exact ex_loads|]. vm_compute. auto. Qed.
Example C25_orders_hyp : NoDup [Q2Qc 2] /\
  (forall r, In r [Q2Qc 2] <-> exists q c, In q ["X1"] /\ has_coord ex q [r; c]) /\
  (forall c, In c [Q2Qc 2] <-> exists q r, In q ["X1"] /\ has_coord ex q [r; c]).
Proof.
  assert (H : has_coord ex "X1" [Q2Qc 2; Q2Qc 2]) by (vm_compute; reflexivity).
  split; [repeat constructor; intros []|].
  split; intros x; (split; [intros [<-|[]]; exists "X1", (Q2Qc 2); split; [now left|exact H]|]);
    intros (q & y & [<-|[]] & H'); unfold has_coord in *; rewrite H in H'; cbn [map] in H'; injection H' as H1 H2; left; assumption.
Qed.

(** C51 [get_neighbors] gives exactly the neighbours of the description, without
    repetitions: for any direction, and for one direction provided that no qubit
    has the same neighbour in two directions. *)
Theorem C51_neighbors_partial r l infos qs d a b :
  py_dicts r -> layout_init r = Ok l -> rl_layout r = Some infos ->
  (In (a, b) (get_pairs l qs None) <-> In a qs /\ exists d, describes infos a d b) /\
  (one_direction infos -> (In (a, b) (get_pairs l qs (Some d)) <-> In a qs /\ describes infos a d b)) /\
  NoDup (get_pairs l qs None) /\ NoDup (get_pairs l qs (Some d)).
Proof.
  intros P H Hi. split; [exact (C51_none_lemma r l infos P H Hi qs a b)|].
  split; [exact (C51_dir_lemma r l infos P H Hi qs d a b)|].
  split; apply get_pairs_nodup; exact (loaded_wf r l P H).
Qed.
Print Assumptions C51_neighbors_partial.
Example C51_hyp : one_direction ex_infos /\ get_pairs ex ["X1"; "D1"; "X1"] (Some "south_east") = [("X1", "D2")].
Proof.
  split; [|vm_compute; reflexivity].
  intros q d d' nb (a & nd & Ha & La & Ea & Ia) (a' & nd' & Ha' & La' & Ea' & Ia').
  unfold labelled in La, La'.
  destruct Ha as [<-|[<-|[<-|[]]]]; injection La as <-; injection Ea as <-;
    destruct Ha' as [<-|[<-|[<-|[]]]]; try discriminate; injection Ea' as <-;
    repeat match goal with
           | H : In _ (_ :: _) |- _ => destruct H as [[=]|H]
           | H : In _ [] |- _ => destruct H
           end; congruence.
Qed.
(** The neighbour in the first direction is lost when the description gives the
    same neighbour in a second one. *)
Definition bad_infos : list attrs :=
  [entry "D1" "data" [] 1 1 [("north_east", PStr "X1"); ("north_west", PStr "X1")];
   entry "X1" "anc" [] 2 2 []].
Theorem C51_refuted : exists r l infos a d b,
  py_dicts r /\ layout_init r = Ok l /\ rl_layout r = Some infos /\
  describes infos a d b /\ get_pairs l [a] (Some d) = [].
Proof.
  exists (ex_raw bad_infos), (ok no_layout (layout_init (ex_raw bad_infos))), bad_infos, "D1", "north_east", "X1".
  split; [|split; [vm_compute; reflexivity|split; [reflexivity|split; [|vm_compute; reflexivity]]]].
  - intros infos a [= <-] Ha. split.
    + apply nodupb_spec. destruct Ha as [<-|[<-|[]]]; reflexivity.
    + intros nd E. apply nodupb_spec. destruct Ha as [<-|[<-|[]]]; injection E as <-; reflexivity.
  - eexists _, _. split; [left; reflexivity|]. split; [reflexivity|]. split; [reflexivity|now left].
Qed.
Print Assumptions C51_refuted.

(** C52 [get_qubits(conds)] returns exactly the qubits whose attributes have the
    given values, in layout order, and answers if every qubit has the attributes;
    the support and the projection matrix are the neighbour relation. *)
Theorem C52_get_qubits r l0 l conds : py_dicts r -> layout_init r = Ok l0 -> edited l0 l ->
  (forall qs, get_qubits l conds = Ok qs ->
     exists p, qs = filter p (map fst (l_nodes l)) /\
       forall q, In q (map fst (l_nodes l)) ->
                 (p q = true <-> forall k v, In (k, v) conds -> attribute l k v q)) /\
  ((forall q k v, In q (map fst (l_nodes l)) -> In (k, v) conds -> exists w, attribute l k w q) ->
   exists qs, get_qubits l conds = Ok qs).
Proof.
  intros P H E. assert (W : wf l) by exact (edited_wf l0 l E (loaded_wf r l0 P H)).
  split; [exact (fun qs => C52_lemma l conds qs W)|exact (C52_total_lemma l conds W)].
Qed.
Print Assumptions C52_get_qubits.
Theorem C52_support r l0 l ancs sup : py_dicts r -> layout_init r = Ok l0 -> edited l0 l ->
  support_from_adj l ancs = Ok sup ->
  forall a, In a ancs -> exists s, dget a sup = Some s /\ NoDup s /\
    forall b, In b s <-> In b (get_neighbors l [a] None).
Proof.
  intros P H E. exact (support_lemma l ancs sup (edited_wf l0 l E (loaded_wf r l0 P H))).
Qed.
Print Assumptions C52_support.
Theorem C52_projection r l0 l s m d row a x : py_dicts r -> layout_init r = Ok l0 -> edited l0 l ->
  projection_matrix l s = Ok m -> In (d, row) m -> In (a, x) row ->
  (x = true <-> In a (get_neighbors l [d] None)).
Proof.
  intros P H E Hm Hd Ha. exact (projection_lemma l s m d row a x (edited_wf l0 l E (loaded_wf r l0 P H)) Hm Hd Ha).
Qed.
Print Assumptions C52_projection.
Example C52_hyp : py_dicts (ex_raw ex_infos) /\ layout_init (ex_raw ex_infos) = Ok ex /\ edited ex ex' /\
  get_qubits ex' [("role", PStr "data")] = Ok ["D1"; "D2"] /\
  support_from_adj ex' ["X1"] = Ok [("X1", ["D1"; "D2"])] /\
  projection_matrix (ok no_layout (lset_param (ok no_layout (lset_param ex' "stab_type" "D1" (PStr ""))) "stab_type" "D2" (PStr ""))) "x_type"
  = Ok [("D1", [("X1", true)]); ("D2", [("X1", true)])].
Proof. split; [exact ex_dicts|]. split; [exact ex_loads|]. split; [apply C22_hyp|]. vm_compute. auto. Qed.
