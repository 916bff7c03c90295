(** Vocabulary of the theorems about repeated CNOT experiments that are built without an
    exception (C81). *)
From Coq Require Import QArith Qcanon.
From Verif Require Import Base Lib StimM SetupM NoiseM LayoutM DetM SpecOk.
Open Scope Z_scope.

(* the parameters of the pairs of qubits are the same for all pairs *)
Definition uniform_pairs (s : setup) : Prop := forall p q q' r r', param s p [q; q'] = param s p [r; r'].

(* arguments of an experiment on [lc] and [lt] that fit together *)
Record fits_two (lc lt : layout) (dets : option (list string)) (m : model) (d : detectors) : Prop := {
  f2_inds : NoDup (dkeys (inds m)) /\ NoDup (dvals (inds m));
  f2_qubits : incl (dkeys (l_nodes lc)) (dkeys (inds m)) /\ incl (dkeys (l_nodes lt)) (dkeys (inds m));
  f2_ready : ready m;
  f2_made : made d;
  f2_labels : exists ac at_, get_role lc "anc" = Ok ac /\ get_role lt "anc" = Ok at_ /\ incl ac (labels d) /\ incl at_ (labels d) /\
    forall ds, dets = Some ds -> forall q, In q ds -> In q ac \/ In q at_ }.
