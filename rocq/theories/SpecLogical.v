(** Vocabulary for the action of the transversal gates on the logical operators (C72). *)
From Coq Require Import QArith Qcanon.
From Verif Require Import Base StimM NoiseM LayoutM SpecGen SpecLog SpecSign SpecSpan.
Open Scope Z_scope.

Definition nothing (q : string) : bool := false.
(* the product of two operators of the same type *)
Definition times (f g : string -> bool) (q : string) : bool := xorb (f q) (g q).
(* the logical operators and the generators of a layout with the logical qubit [g] *)
Definition operators (l : layout) (g : string) (xs zs lx lz : list string) : Prop :=
  get_stabs l "x_type" = Ok xs /\ get_stabs l "z_type" = Ok zs /\ dget g (l_logx l) = Some lx /\ dget g (l_logz l) = Some lz.
(* a product of generators from the list *)
Definition some_of (gens all : list string) : Prop := NoDup gens /\ incl gens all.
