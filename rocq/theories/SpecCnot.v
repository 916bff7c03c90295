(** Vocabulary of the theorems about the repeated CNOT experiment. *)
From Coq Require Import QArith Qcanon.
From Verif Require Import Base StimM LayoutM DetM GenM LogM SpecLog.

(* The layouts [lc] and [lt] have the attributes of the transversal CNOT from [lc] to [lt]:
   they are [lc0] and [lt0] with attributes, among them those of a call of set_trans_cnot
   on the two layouts, which were not written again afterwards. *)
Definition cnot_set (set : list (dict string string) -> layout -> layout -> res (layout * layout)) (gate : string) (lc0 lt0 lc lt : layout) : Prop :=
  exists monos l l' l1 l1', annotated structure lc0 l /\ annotated structure lt0 l' /\ Forall (monomorphism l l') monos /\
    set monos l l' = Ok (l1, l1') /\ annotated (gate :: structure) l1 lc /\ annotated (gate :: structure) l1' lt.
(* the name of the attribute *)
Definition cnot_gate (a a' : gen_args) : string := ("trans-cnot_" ++ ga_log a ++ "_" ++ ga_log a')%string.
