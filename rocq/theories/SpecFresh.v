(** Vocabulary of the statements about repeated use of one noise model and one Detectors
    object (C82). *)
From Coq Require Import QArith Qcanon.
From Verif Require Import Base StimM SetupM NoiseM LayoutM DetM BlockM ExpM MergeM SpecDet.
Open Scope Z_scope.

(* the experiments and their arguments *)
Inductive experiment :=
| EMemory (k : memory_kind) (l : layout) (num_rounds : Z) (data_init : dict string Z) (rot_basis anc_reset : bool)
          (dets : option (list string)) (gauge : bool)
| EGoogle (l : layout) (num_rounds : Z) (data_init : dict string Z) (rot_basis : bool)
          (dets : option (list string)) (gauge : bool)
| EGates (k : repeated_kind) (l : layout) (num_gates rounds_per_gate : Z) (data_init : dict string Z)
         (rot_basis anc_reset : bool) (dets : option (list string)) (gauge : bool)
| ECnots (rotated : bool) (lc lt : layout) (num_gates rounds_per_gate : Z) (data_init : dict string Z)
         (orientation : string) (rot_basis anc_reset : bool) (dets : option (list string)) (gauge : bool).

(* what is left open about Python and stim, see ExpM and MergeM *)
Record open_facts := {
  of_fuse : bool; of_show : arg -> arg;
  of_ordt : nat -> nat -> list string -> list string;
  of_ordp : nat -> nat -> list (string * string) -> list (string * string) }.

Definition build (f : open_facts) (e : experiment) : ST world circuit :=
  match e with
  | EMemory k l R di rot reset dets gauge => memory (of_ordt f) k l R di rot reset dets gauge
  | EGoogle l R di rot dets gauge => memory_google (of_ordt f) l R di rot dets gauge
  | EGates k l n R di rot reset dets gauge => repeated (of_ordt f) (of_ordp f) k l n R di rot reset dets gauge
  | ECnots true lc lt n R di ori rot reset dets gauge =>
      repeated_cnot_rot_css (of_fuse f) (of_show f) (of_ordt f) (of_ordp f) lc lt n R di ori rot reset dets gauge
  | ECnots false lc lt n R di ori rot reset dets gauge =>
      repeated_cnot_unrot_css (of_fuse f) (of_show f) (of_ordt f) (of_ordp f) lc lt n R di ori rot reset dets gauge
  end.

(* uses of the two objects: a method of the model that returns a circuit, its
   new_circuit, a method of the detectors (which may be given the model's meas_target), an
   experiment *)
Inductive use :=
| UGate (o : op) (qs : list string)
| UNew
| UDet (o : model -> dop)
| UExp (f : open_facts) (e : experiment).
Definition perform (u : use) : ST world circuit :=
  match u with
  | UGate o qs => onm (apply o qs)
  | UNew => onm (fun m => (new_circuit m, Ok []))
  | UDet o => ond (fun m => SpecDet.call (o m))
  | UExp f e => build f e
  end.
(* the states after any number of uses, also of ones that raise *)
Inductive after (w : world) : world -> Prop :=
| after_none : after w w
| after_use w1 u w2 r : after w w1 -> perform u w1 = (w2, r) -> after w w2.
