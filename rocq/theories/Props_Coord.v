(** Properties of layouts/util.py (C78, C79). *)
From Coq Require Import QArith Qcanon.
From Verif Require Import Base StimM LayoutM SpecLayout LayoutP GenM SpecGen CoordM SpecCoord CoordP CoordP2 CoordP3 CoordP4 Props_Layout Props_Gen.
Open Scope Z_scope.

(** C78 Setting the coordinates of a layout. The loop ends on every loaded layout; if the
    qubits can be placed in the plane such that the neighbours lie in the four diagonal
    directions, the coordinates are these places, relative to the last qubit. *)
Theorem C78_set_coords_ends r l override q0 : py_dicts r -> layout_init r = Ok l -> last_qubit l q0 ->
  override = true \/ no_coords l -> exists l', gives (fun n => set_coords n l override) l'.
Proof. intros D L Q O. exact (set_ends l override q0 (loaded_wf r l D L) Q O). Qed.
Print Assumptions C78_set_coords_ends.
Theorem C78_set_coords_refuses n l q c : get_coords l [q] = Ok [c] -> set_coords n l false = Err ValueError.
Proof. exact (set_refuses n l q c). Qed.
Print Assumptions C78_set_coords_refuses.
Theorem C78_set_coords l override q0 place n l' : last_qubit l q0 ->
  override = true \/ no_coords l -> follows_directions l place -> set_coords n l override = Ok l' ->
  only_set "coords" l l' /\
  (forall q, reach l q0 q ->
     lparam l' "coords" q = Ok (PList (map PNum [Q2Qc (inject_Z (fst (place q) - fst (place q0))); Q2Qc (inject_Z (snd (place q) - snd (place q0)))]))) /\
  (forall q, ~ reach l q0 q -> lparam l' "coords" q = lparam l "coords" q).
Proof. intros Q O F S. exact (set_gives l override q0 Q O place n l' F S). Qed.
Print Assumptions C78_set_coords.
(* on a rotated code they are the coordinates of the generator, up to a translation *)
Theorem C78_rotated a l q0 : rot_surface_code_rectangle a = Ok l -> 1 <= ga_dx a -> 1 <= ga_dz a -> last_qubit l q0 ->
  exists l', gives (fun n => set_coords n l true) l' /\ only_set "coords" l l' /\
    forall q x y x0 y0, lparam l "coords" q = Ok (PList (map PNum [x; y])) -> lparam l "coords" q0 = Ok (PList (map PNum [x0; y0])) ->
      lparam l' "coords" q = Ok (PList (map PNum [(x - x0)%Qc; (y - y0)%Qc])).
Proof. exact (C78_rot_lemma a l q0). Qed.
Print Assumptions C78_rotated.
(* on an unrotated code the directions are single words: one number is left, and different
   qubits get the same *)
Theorem C78_unrotated_refuted : exists a l l' q q', unrot_surface_code_rectangle a = Ok l /\ 2 <= ga_dx a /\ 2 <= ga_dz a /\
  gives (fun n => set_coords n l true) l' /\ In q (map fst (l_nodes l)) /\ In q' (map fst (l_nodes l)) /\ q <> q' /\
  lparam l' "coords" q = Ok (PList (map PNum [Q2Qc (inject_Z (-2))])) /\ lparam l' "coords" q' = lparam l' "coords" q.
Proof.
  destruct (unrot_surface_code_rectangle (args 2 2)) as [l|] eqn:E; [|vm_compute in E; discriminate E].
  destruct (set_coords 100 l true) as [l'|] eqn:E'; [|vm_compute in E; injection E as <-; vm_compute in E'; discriminate E'].
  exists (args 2 2), l, l', "D2", "D3". split; [exact E|]. split; [discriminate|]. split; [discriminate|].
  split; [exact (more_fuel 100 l true l' E')|].
  vm_compute in E. injection E as <-. vm_compute in E'. injection E' as <-.
  split; [refine (proj1 (mem_In "D2" _) _); vm_compute; reflexivity|]. split; [refine (proj1 (mem_In "D3" _) _); vm_compute; reflexivity|].
  split; [discriminate|]. split; vm_compute; reflexivity.
Qed.
Print Assumptions C78_unrotated_refuted.
(* a case: three qubits without coordinates, two data qubits and an ancilla *)
Definition bare (q role : string) (nb : list (string * pyv)) : attrs := [("qubit", PStr q); ("role", PStr role); ("neighbors", PDict nb)].
Definition bare_raw : raw_layout := ex_raw
  [bare "D1" "data" [("north_east", PStr "X1")]; bare "D2" "data" [("north_west", PStr "X1")];
   bare "X1" "anc" [("south_west", PStr "D1"); ("south_east", PStr "D2")]].
Definition bare_l : layout := ok no_layout (layout_init bare_raw).
Definition bare_place (q : string) : Z * Z := if eqb q "D1" then (-1, -1) else if eqb q "D2" then (-1, 1) else (0, 0).
Example C78_case : py_dicts bare_raw /\ layout_init bare_raw = Ok bare_l /\ last_qubit bare_l "X1" /\ no_coords bare_l /\
  follows_directions bare_l bare_place /\ reach bare_l "X1" "D2" /\
  exists l', set_coords 5 bare_l false = Ok l' /\ lparam l' "coords" "D2" = Ok (PList (map PNum [Q2Qc (inject_Z (-1)); Q2Qc (inject_Z 1)])).
Proof.
  split; [|split; [vm_compute; reflexivity|]].
  { intros infos a [= <-] Ha. split.
    - apply nodupb_spec. destruct Ha as [<-|[<-|[<-|[]]]]; reflexivity.
    - intros nd E. apply nodupb_spec. destruct Ha as [<-|[<-|[<-|[]]]]; injection E as <-; reflexivity. }
  split; [exists ["D1"; "D2"]; vm_compute; reflexivity|]. split; [intros q c E; vm_compute in E; discriminate E|].
  split; [|split; [|eexists; split; vm_compute; reflexivity]].
  - intros q nb d H. apply nbr_row in H. unfold row_of in H.
    assert (A : l_adj bare_l = [("D1", [("X1", "north_east")]); ("D2", [("X1", "north_west")]); ("X1", [("D1", "south_west"); ("D2", "south_east")])]) by (vm_compute; reflexivity).
    rewrite A in H. cbn [dget] in H.
    destruct (eqb_spec q "D1") as [->|N1]; [|destruct (eqb_spec q "D2") as [->|N2]; [|destruct (eqb_spec q "X1") as [->|N3]; [|destruct H]]]; cbn [odef] in H.
    + destruct H as [[= <- <-]|[]]. exists 1, 1. split; [cbn; auto|reflexivity].
    + destruct H as [[= <- <-]|[]]. exists 1, (-1). split; [cbn; auto|reflexivity].
    + destruct H as [[= <- <-]|[[= <- <-]|[]]]; [exists (-1), (-1)|exists (-1), 1]; (split; [cbn; auto|reflexivity]).
  - apply (reach_next _ _ "X1"); [constructor|]. vm_compute. auto.
Qed.
Definition rot23 : layout := ok no_layout (rot_surface_code_rectangle (args 2 3)).
Example C78_rot_case : rot_surface_code_rectangle (args 2 3) = Ok rot23 /\ 1 <= ga_dx (args 2 3) /\ 1 <= ga_dz (args 2 3) /\ last_qubit rot23 "Z2" /\ set_coords 5 rot23 false = Err ValueError /\ exists c, get_coords rot23 ["D1"] = Ok [c].
Proof.
  split; [vm_compute; reflexivity|]. split; [discriminate|]. split; [discriminate|]. split.
  - exists (removelast (map fst (l_nodes rot23))). vm_compute. reflexivity.
  - split; [vm_compute; reflexivity|]. eexists. vm_compute. reflexivity.
Qed.

(** C79 Indexing a chain. The loop ends on every loaded layout: it fails if and only if a
    qubit that can be reached has no or more than two neighbours; otherwise the qubits that
    can be reached get different integers, and the others none. *)
Theorem C79_index_chain_ends r l init : py_dicts r -> layout_init r = Ok l -> In init (map fst (l_nodes l)) ->
  ((forall q, reach l init q -> (1 <= length (get_neighbors l [q] None) <= 2)%nat) -> exists l', gives (fun n => index_chain n l init) l') /\
  (forall q, reach l init q -> ~ (1 <= length (get_neighbors l [q] None) <= 2)%nat -> rejects (fun n => index_chain n l init)).
Proof. intros D L I. split; [exact (index_ok l init (loaded_wf r l D L) I)|exact (index_rejects l init (loaded_wf r l D L) I)]. Qed.
Print Assumptions C79_index_chain_ends.
Theorem C79_index_chain_unknown n l init : ~ In init (map fst (l_nodes l)) -> index_chain n l init = Err ValueError.
Proof. exact (index_unknown n l init). Qed.
Print Assumptions C79_index_chain_unknown.
Theorem C79_index_chain l init n l' : index_chain n l init = Ok l' ->
  only_set "chain_ind" l l' /\
  (forall q, reach l init q -> exists i, 0 <= i /\ chain_ind l' q i) /\
  (forall q q' i, reach l init q -> reach l init q' -> chain_ind l' q i -> chain_ind l' q' i -> q = q') /\
  (forall q, In q (map fst (l_nodes l)) -> ~ reach l init q -> lparam l' "chain_ind" q = Ok PNone).
Proof. exact (C79_lemma l init n l'). Qed.
Print Assumptions C79_index_chain.
(* along an open chain, from one end, the integers are the positions *)
Theorem C79_open_chain r l qs init : py_dicts r -> layout_init r = Ok l -> (2 <= length qs)%nat -> open_chain l qs ->
  (forall q, In q qs -> In q (map fst (l_nodes l))) -> nth_error qs 0 = Some init ->
  exists l', gives (fun n => index_chain n l init) l' /\ only_set "chain_ind" l l' /\
    (forall i q, nth_error qs i = Some q -> chain_ind l' q (Z.of_nat i)) /\
    forall q, In q (map fst (l_nodes l)) -> ~ In q qs -> lparam l' "chain_ind" q = Ok PNone.
Proof. intros D L N C I E. exact (open_index l qs (loaded_wf r l D L) C I N init E). Qed.
Print Assumptions C79_open_chain.
(* a rotated code with one row, or one column, is such a chain *)
Theorem C79_repetition_code a l init : rot_surface_code_rectangle a = Ok l ->
  lparam l "coords" init = Ok (PList (map PNum [fst (ga_pt a); snd (ga_pt a)])) ->
  (ga_dx a = 1 -> 2 <= ga_dz a -> exists l', gives (fun n => index_chain n l init) l' /\ only_set "chain_ind" l l' /\
     forall q x y, lparam l "coords" q = Ok (PList (map PNum [x; y])) -> exists i, y = (snd (ga_pt a) + Q2Qc (inject_Z i))%Qc /\ chain_ind l' q i) /\
  (ga_dz a = 1 -> 2 <= ga_dx a -> exists l', gives (fun n => index_chain n l init) l' /\ only_set "chain_ind" l l' /\
     forall q x y, lparam l "coords" q = Ok (PList (map PNum [x; y])) -> exists i, x = (fst (ga_pt a) + Q2Qc (inject_Z i))%Qc /\ chain_ind l' q i).
Proof. intros G I. split; intros A B; [exact (rep_lemma a l G true init (conj A B) I)|exact (rep_lemma a l G false init (conj A B) I)]. Qed.
Print Assumptions C79_repetition_code.
(* around a closed chain an integer is left out: a qubit is numbered twice *)
Definition ring_raw : raw_layout := ex_raw
  [bare "D1" "data" [("east", PStr "X1"); ("south", PStr "X2")]; bare "X1" "anc" [("west", PStr "D1"); ("south", PStr "D2")];
   bare "D2" "data" [("north", PStr "X1"); ("west", PStr "X2")]; bare "X2" "anc" [("north", PStr "D1"); ("east", PStr "D2")]].
Theorem C79_ring_refuted : exists r l l' init, py_dicts r /\ layout_init r = Ok l /\ gives (fun n => index_chain n l init) l' /\
  length (l_nodes l) = 4%nat /\ (forall q, In q (map fst (l_nodes l)) -> reach l init q) /\
  (forall q, In q (map fst (l_nodes l)) -> length (get_neighbors l [q] None) = 2%nat) /\
  (forall q, In q (map fst (l_nodes l)) -> ~ chain_ind l' q 3).
Proof.
  destruct (layout_init ring_raw) as [l|] eqn:E; [|vm_compute in E; discriminate E].
  destruct (index_chain 20 l "D1") as [l'|] eqn:E'; [|vm_compute in E; injection E as <-; vm_compute in E'; discriminate E'].
  exists ring_raw, l, l', "D1". split; [|split; [exact E|split; [exact (index_more 20 l "D1" l' E')|]]].
  { intros infos a [= <-] Ha. split.
    - apply nodupb_spec. destruct Ha as [<-|[<-|[<-|[<-|[]]]]]; reflexivity.
    - intros nd F. apply nodupb_spec. destruct Ha as [<-|[<-|[<-|[<-|[]]]]]; injection F as <-; reflexivity. }
  vm_compute in E. injection E as <-. vm_compute in E'. injection E' as <-.
  split; [reflexivity|]. split; [|split].
  - assert (X1 : forall l q, In q (get_neighbors l ["D1"] None) -> reach l "D1" q) by (intros l q H; apply (reach_next _ _ "D1"); [constructor|exact H]).
    intros q Hq. cbn [l_nodes map fst] in Hq. destruct Hq as [<-|[<-|[<-|[<-|[]]]]].
    + constructor.
    + apply X1. vm_compute. auto.
    + apply (reach_next _ _ "X1"); [apply X1|]; vm_compute; auto.
    + apply X1. vm_compute. auto.
  - intros q Hq. cbn [l_nodes map fst] in Hq. destruct Hq as [<-|[<-|[<-|[<-|[]]]]]; vm_compute; reflexivity.
  - intros q Hq. cbn [l_nodes map fst] in Hq. destruct Hq as [<-|[<-|[<-|[<-|[]]]]]; intros F; vm_compute in F; discriminate F.
Qed.
Print Assumptions C79_ring_refuted.
(* a case: the three qubits above from one end; from the middle they get 0, 1 and 2 too;
   the rotated 1x3 code *)
Definition rot13 : layout := ok no_layout (rot_surface_code_rectangle (args 1 3)).
Example C79_case : open_chain bare_l ["D1"; "X1"; "D2"] /\ is_ok (index_chain 5 bare_l "D1") = true /\ is_ok (index_chain 5 bare_l "X1") = true /\
  rot_surface_code_rectangle (args 1 3) = Ok rot13 /\ lparam rot13 "coords" "D1" = Ok (PList (map PNum [fst (ga_pt (args 1 3)); snd (ga_pt (args 1 3))])) /\
  is_ok (index_chain 10 rot13 "D1") = true /\ index_chain 10 rot23 "D1" = Err ValueError /\ index_chain 10 rot23 "D9" = Err ValueError.
Proof.
  split; [|repeat split; vm_compute; reflexivity]. split; [apply nodupb_spec; reflexivity|].
  assert (N1 : get_neighbors bare_l ["D1"] None = ["X1"]) by (vm_compute; reflexivity). assert (N2 : get_neighbors bare_l ["D2"] None = ["X1"]) by (vm_compute; reflexivity).
  assert (N3 : get_neighbors bare_l ["X1"] None = ["D1"; "D2"]) by (vm_compute; reflexivity).
  intros [|[|[|i]]] q E nb; [| | |destruct i; discriminate]; injection E as <-; rewrite ?N1, ?N2, ?N3; split.
  - intros [<-|[]]. exists 1%nat. auto.
  - intros (j & Ej & [-> |]); [|lia]. injection Ej as <-. now left.
  - intros [<-|[<-|[]]]; [exists 0%nat|exists 2%nat]; auto.
  - intros (j & Ej & [-> | H]); [injection Ej as <-; right; now left|]. injection H as <-. injection Ej as <-. now left.
  - intros [<-|[]]. exists 1%nat. auto.
  - intros (j & Ej & [-> | H]); [discriminate|]. injection H as <-. injection Ej as <-. now left.
Qed.
