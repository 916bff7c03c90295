(** C80: which experiments with repeated transversal gates are built without an exception.
    Vocabulary in SpecOk. [ordt t], [ordp t] are the orders in which Python sets are
    iterated in the t-th block: any permutations. *)
From Coq Require Import QArith Qcanon.
From Verif Require Import Base StimM SetupM NoiseM LayoutM GenM LogM DetM BlockM ExpM SpecLog SpecOk OkRepP3
  Props_Noise Props_Gen Props_Round Props_Exp Props_Ok Props_Log.
Open Scope Z_scope.

(** The experiments with repeated S or H gates return a circuit for every generated layout
    on which the gate has been set, every accepted number of gates and every number of
    rounds, if the arguments fit together. Missing from the full statement: the noise
    models whose idling needs a duration, see C80_duration_refuted. *)
Theorem C80_repeated_partial ordt ordp k a l0 l l1 l2 dq n R di rot reset dets gauge w :
  (forall t i s, Permutation (ordt t i s) s) -> (forall t i s, Permutation (ordp t i s) s) ->
  rep_generates k a = Ok l0 -> annotated structure l0 l -> rep_sets k l dq = Ok l1 -> annotated (rep_label k a :: structure) l1 l2 ->
  fits l2 di dets (fst w) (snd w) -> 0 <= R -> gates_ok k n -> returns (repeated ordt ordp k l2 n R di rot reset dets gauge w).
Proof. exact (C80_lemma ordt ordp k a l0 l l1 l2 dq n R di rot reset dets gauge w). Qed.
Print Assumptions C80_repeated_partial.
(** The other numbers of rounds and gates are rejected before anything else happens. *)
Theorem C80_numbers ordt ordp k l n R di rot reset dets gauge w :
  R < 0 \/ ~ gates_ok k n -> repeated ordt ordp k l n R di rot reset dets gauge w = (w, Err ValueError).
Proof. exact (rep_raises ordt ordp k l n R di rot reset dets gauge w). Qed.
Print Assumptions C80_numbers.
(** These experiments raise for every layout, setup and argument if idling of the model
    needs a duration. *)
Theorem C80_duration_refuted ordt ordp k l n R di rot reset dets gauge w :
  timed (fst w) -> raises (repeated ordt ordp k l n R di rot reset dets gauge w).
Proof. exact (rep_timed ordt ordp k l n R di rot reset dets gauge w). Qed.
Print Assumptions C80_duration_refuted.

Example C80_case :
  rep_generates SPipelined (args 3 4) = Ok rot34 /\ rep_sets SPipelined rot34 "D1" = Ok rot34s /\
  rep_generates SUnrot (args 3 3) = Ok unrot33 /\ rep_sets SUnrot unrot33 "D1" = Ok unrot33s /\
  rep_generates HUnrot (args 3 3) = Ok unrot33 /\ rep_sets HUnrot unrot33 "D3" = Ok unrot33h /\
  annotated structure rot34 rot34 /\ annotated (rep_label SRot (args 3 4) :: structure) rot34s rot34s /\
  gates_ok SPipelined 4 /\ gates_ok HUnrot 3 /\ ~ gates_ok SUnrot 3 /\
  Forall (fun l => fits l [("D1", 1); ("D2", 0)] (Some ["Z1"; "X1"]) (fst (world_of l)) (snd (world_of l))) [rot34s; unrot33s; unrot33h] /\
  timed (fst (with_kind (Decoh false) (world_of rot34s))).
Proof.
  do 6 (split; [vm_compute; reflexivity|]). split; [apply an_refl|]. split; [apply an_refl|].
  split; [split; [discriminate|reflexivity]|]. split; [split; [discriminate|exact I]|]. split; [intros [_ H]; discriminate|]. split; [|exact I].
  apply Forall_cons; [apply fits_check; vm_compute; reflexivity|]. apply Forall_cons; [apply fits_check; vm_compute; reflexivity|].
  apply Forall_cons; [apply fits_check; vm_compute; reflexivity|]. apply Forall_nil.
Qed.
