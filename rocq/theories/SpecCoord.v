(** Vocabulary for the properties of set_coords and index_chain (C78, C79). *)
From Coq Require Import QArith Qcanon.
From Verif Require Import Base StimM LayoutM SpecLayout SpecGen.
Open Scope Z_scope.

(* the qubits that can be reached from [a] along the neighbours of a layout *)
Inductive reach (l : layout) (a : string) : string -> Prop :=
| reach_here : reach l a a
| reach_next b c : reach l a b -> In c (get_neighbors l [b] None) -> reach l a c.

(* [place] follows the directions of the neighbours, which are the four diagonal ones *)
Definition follows_directions (l : layout) (place : string -> Z * Z) : Prop :=
  forall q nb d, In nb (get_neighbors l [q] (Some d)) ->
    exists r c, In (d, (r, c)) diagonal /\ place nb = (fst (place q) + r, snd (place q) + c).

(* the qubit with the last entry of the description *)
Definition last_qubit (l : layout) (q : string) : Prop := exists pre, map fst (l_nodes l) = (pre ++ [q])%list.

(* no qubit has coordinates *)
Definition no_coords (l : layout) : Prop := forall q c, get_coords l [q] <> Ok [c].

(* only the attribute [p] was set *)
Inductive only_set (p : string) : layout -> layout -> Prop :=
| only_refl l : only_set p l l
| only_step l q v l' l'' : lset_param l p q v = Ok l' -> only_set p l' l'' -> only_set p l l''.

(* the while loop ends: with enough iterations the result is [l'], and more do not change it *)
Definition gives (f : nat -> res layout) (l' : layout) : Prop := exists n, forall m, (n <= m)%nat -> f m = Ok l'.
Definition rejects (f : nat -> res layout) : Prop := exists n, forall m, (n <= m)%nat -> f m = Err ValueError.

(* the qubits [qs] form an open chain: the neighbours of each are the ones next to it *)
Definition open_chain (l : layout) (qs : list string) : Prop :=
  NoDup qs /\ forall i q, nth_error qs i = Some q -> forall nb,
    In nb (get_neighbors l [q] None) <-> exists j, nth_error qs j = Some nb /\ (j = S i \/ i = S j).
Definition chain_ind (l : layout) (q : string) (i : Z) : Prop := lparam l "chain_ind" q = Ok (PNum (Q2Qc (inject_Z i))).
