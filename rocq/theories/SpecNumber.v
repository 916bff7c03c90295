(** Vocabulary of the statements about the numbering of the qubits (C84). *)
From Coq Require Import QArith Qcanon.
From Verif Require Import Base StimM SetupM NoiseM.
Open Scope Z_scope.

(* the circuit on renumbered qubits *)
Definition renumber_target (f : Z -> Z) (t : target) : target :=
  match t with TQ i => TQ (f i) | TR r => TR r end.
Definition renumber_instr (f : Z -> Z) (i : instr) : instr := Instr (nm i) (map (renumber_target f) (tg i)) (ar i).
Definition renumber (f : Z -> Z) (c : circuit) : circuit := map (renumber_instr f) c.
(* the same for a call that may raise *)
Definition renumber_res (f : Z -> Z) (r : res circuit) : res circuit :=
  match r with Ok c => Ok (renumber f c) | Err e => Err e end.

(* two noise models of the same class with the same setup and the same records, whose qubits
   have the same labels (the dictionaries may list them in another order) and index i of
   the first is f(i) in the second *)
Definition renumbered (f : Z -> Z) (m m' : model) : Prop :=
  kind m' = kind m /\ stp m' = stp m /\ num m' = num m /\
  (forall q, dget q (inds m') = option_map f (dget q (inds m))) /\
  (forall q, dget q (order m') = dget q (order m)) /\
  (forall q r i j, dget q (inds m) = Some i -> dget r (inds m) = Some j -> f i = f j -> i = j).
