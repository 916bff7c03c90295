(** Vocabulary for the properties of the generated layouts (C26-C33): positions,
    displacements, overlaps, weights and commutation, in terms of what a Layout
    answers. *)
From Coq Require Import QArith Qcanon.
From Verif Require Import Base StimM LayoutM SpecLayout.
Open Scope Z_scope.

(* the integer [z] as a coordinate *)
Definition coord (z : Z) : Qc := Q2Qc (inject_Z z).

(* unit displacement (rows, columns) of each direction *)
Definition diagonal : list (string * (Z * Z)) :=
  [("north_east", (1, 1)); ("north_west", (1, -1)); ("south_east", (-1, 1)); ("south_west", (-1, -1))].
Definition lattice : list (string * (Z * Z)) :=
  [("north", (0, 1)); ("south", (0, -1)); ("east", (1, 0)); ("west", (-1, 0))].
Definition opposite (shifts : list (string * (Z * Z))) (d d' : string) : Prop :=
  exists r c, In (d, (r, c)) shifts /\ In (d', (- r, - c)) shifts.

(* [b] is at displacement [s] from [a] *)
Definition displaced (l : layout) (a b : string) (s : Z * Z) : Prop :=
  exists r c, has_coord l a [r; c] /\ has_coord l b [(r + coord (fst s))%Qc; (c + coord (snd s))%Qc].

(* data-qubit operators of one type are sets of qubits *)
Definition weight (op : string -> bool) (qs : list string) : nat := length (filter op qs).
Definition support (l : layout) (a : string) : list string := get_neighbors l [a] None.
Definition commutes (op : string -> bool) (qs : list string) : Prop := Nat.even (weight op qs) = true.
Definition on (qs : list string) (q : string) : bool := mem q qs.

(* the layout of a CSS code with one logical qubit [g] *)
Record css_code (l : layout) (g : string) (data xs zs lx lz : list string) : Prop := {
  cc_data : get_role l "data" = Ok data;
  cc_x : get_stabs l "x_type" = Ok xs;
  cc_z : get_stabs l "z_type" = Ok zs;
  cc_anc : exists ancs, get_role l "anc" = Ok ancs /\ forall a, In a ancs <-> In a xs \/ In a zs;
  cc_logs : l_logs l = [g];
  cc_lx : dget g (l_logx l) = Some lx;
  cc_lz : dget g (l_logz l) = Some lz;
  (* stabilizers and logical operators are sets of data qubits *)
  cc_nodup : NoDup data /\ NoDup lx /\ NoDup lz;
  cc_sup : forall a, In a xs \/ In a zs -> NoDup (support l a) /\ incl (support l a) data;
  cc_log : incl lx data /\ incl lz data;
  (* everything commutes, but the two logical operators *)
  cc_stab : forall x z, In x xs -> In z zs -> commutes (on (support l z)) (support l x);
  cc_lzx : forall x, In x xs -> commutes (on lz) (support l x);
  cc_lxz : forall z, In z zs -> commutes (on lx) (support l z);
  cc_anti : ~ commutes (on lx) lz }.

(* minimum weights of the logical operators of the code *)
Record has_distances (l : layout) (data xs zs lx lz : list string) (dx dz : nat) : Prop := {
  hd_x : forall op, (forall z, In z zs -> commutes op (support l z)) -> ~ commutes op lz -> (dx <= weight op data)%nat;
  hd_z : forall op, (forall x, In x xs -> commutes op (support l x)) -> ~ commutes op lx -> (dz <= weight op data)%nat;
  hd_lx : weight (on lx) data = dx;
  hd_lz : weight (on lz) data = dz }.
