(** Vocabulary for the completeness of the stabilizer generators (C71): products of
    generators as sets of data qubits. *)
From Coq Require Import QArith Qcanon.
From Verif Require Import Base StimM LayoutM SpecLayout SpecGen.
Open Scope Z_scope.

(* the data qubits on which a product of generators of the same type acts *)
Definition product (l : layout) (gens : list string) (q : string) : bool :=
  Nat.odd (length (filter (fun a => mem q (support l a)) gens)).
(* The generators of a CSS code with one logical qubit are complete and independent. *)
Record complete (l : layout) (data xs zs lx lz : list string) : Prop := {
  (* an operator that commutes with the other generators is a product of generators, times
     the logical operator or not *)
  cp_z : forall op, (forall x, In x xs -> commutes op (support l x)) ->
    exists gens b, NoDup gens /\ incl gens zs /\ forall q, In q data -> op q = xorb (product l gens q) (b && on lz q);
  cp_x : forall op, (forall z, In z zs -> commutes op (support l z)) ->
    exists gens b, NoDup gens /\ incl gens xs /\ forall q, In q data -> op q = xorb (product l gens q) (b && on lx q);
  (* no product of generators is the identity *)
  ip_z : forall gens, NoDup gens -> incl gens zs -> (forall q, In q data -> product l gens q = false) -> gens = [];
  ip_x : forall gens, NoDup gens -> incl gens xs -> (forall q, In q data -> product l gens q = false) -> gens = [] }.
