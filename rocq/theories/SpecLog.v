(** Vocabulary for the transversal gates (C41, C46-C48). Nothing here is used by the
    model of the code. *)
From Coq Require Import QArith Qcanon.
From Verif Require Import Base StimM NoiseM SpecNoise LayoutM SpecGen DetM BlockM SpecTrack.
Open Scope Z_scope.

(* The operator with X factors [xs] and Z factors [zs] before the circuit is, up to
   sign, the operator with X factors [xs'] and Z factors [zs'] after it. *)
Definition turns (qi : dict string Z) (c : circuit) (xs zs xs' zs' : string -> bool) : Prop :=
  forall P, represents qi xs' zs' P ->
  exists P', back (gates c) (fun _ => false) P = Some P' /\ represents qi xs zs P'.

(* the factors of a product of stabilizer generators *)
Definition prod_x (st : stabilizers) (gens : list string) (q : string) : bool :=
  Nat.odd (length (filter (fun a => mem q (fst (st a))) gens)).
Definition prod_z (st : stabilizers) (gens : list string) (q : string) : bool :=
  Nat.odd (length (filter (fun a => mem q (snd (st a))) gens)).

(* The circuit turns the generator of [a] into the product of the generators of [new]
   and the product of the generators of [new] into the one of [a]. *)
Definition conjugates (qi : dict string Z) (st : stabilizers) (c : circuit) (a : string) (new : list string) : Prop :=
  turns qi c (prod_x st [a]) (prod_z st [a]) (prod_x st new) (prod_z st new) /\
  turns qi c (prod_x st new) (prod_z st new) (prod_x st [a]) (prod_z st [a]).

(* Applying a map from generators to products of generators twice is the identity. *)
Definition involutive_map (nd : dict string (list string)) : Prop :=
  forall a new, dget a nd = Some new ->
    (forall b, In b new -> dmem b nd = true) /\
    forall b, Nat.odd (count b (flat_map (fun x => odef [] (dget x nd)) new)) = eqb b a.

(* Attributes other than [keep] were set. *)
Inductive annotated (keep : list string) : layout -> layout -> Prop :=
| an_refl l : annotated keep l l
| an_step l p q v l' l'' : ~ In p keep -> lset_param l p q v = Ok l' -> annotated keep l' l'' -> annotated keep l l''.
(* the attributes that say what a qubit is, where it is and what it is next to *)
Definition structure : list string := ["role"; "stab_type"; "coords"; "neighbors"; "ind"; "qubit"].

(** Transversal CNOT: what the matcher of networkx returns is a set of dictionaries from
    nodes of the control to nodes of the target that use every node of the target once,
    and every edge of the target joins the images of joined nodes. *)
Record monomorphism (lc lt : layout) (m : dict string string) : Prop := {
  mo_keys : NoDup (dkeys m);
  mo_from : incl (dkeys m) (dkeys (l_nodes lc));
  mo_values : NoDup (map snd m);
  mo_onto : forall t, In t (map snd m) <-> In t (dkeys (l_nodes lt));
  mo_edges : forall c t c' t', In (c, t) m -> In (c', t') m ->
    In t' (get_neighbors lt [t] None) -> In c' (get_neighbors lc [c] None) }.
(* the stabilizer generators of two codes, given by the labels of their ancillas *)
Definition joint (st st' : stabilizers) : stabilizers := fun a => (fst (st a) ++ fst (st' a), snd (st a) ++ snd (st' a)).

(** What a transversal gate must do: the detectors are told the map [nd] between the
    stabilizer generators of the ancillas [anc], the circuit acts like that map, and
    applying the map twice is the identity. *)
Definition follows (st : stabilizers) (anc : list string) (nd : dict string (list string)) (w w' : world) (c : circuit) : Prop :=
  update_from_dict nd (snd w) = (snd w', Ok tt) /\ involutive_map nd /\
  forall a, In a anc -> exists new, dget a nd = Some new /\ conjugates (inds (fst w)) st c a new.

(** Gate k of a repeated CNOT experiment: the layouts are exchanged or not. *)
Definition exchanged_if (b : bool) (lc lt : layout) : layout * layout := if b then (lt, lc) else (lc, lt).
