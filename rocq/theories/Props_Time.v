(** C83: the rounds of a memory experiment after the third one repeat. Vocabulary in
    SpecTime. [ordt t] is the order in which Python iterates sets in the t-th block; the
    rounds are the blocks 3, 4, ... . *)
From Coq Require Import QArith Qcanon.
From Verif Require Import Base StimM SetupM NoiseM LayoutM GenM DetM BlockM ExpM SpecExp SpecTime TimeP4
  Props_Noise Props_Gen Props_Round Props_Exp Props_Log.
Open Scope Z_scope.

(** If sets are iterated in the same order in all rounds and the experiment with four rounds
    returns, the circuits with 3 + n rounds are all of the form
    [a; REPEAT n { b; one round later }; m, n rounds later] with the same a, b and m, for
    every noise model, frame, reset convention, subset of detectors and earlier use of the
    objects. *)
Theorem C83_memory ordt k l di rot reset dets gauge w w1 c :
  (forall r, ordt (3 + r)%nat = ordt 3%nat) -> memory ordt k l 4 di rot reset dets gauge w = (w1, Ok c) ->
  exists a b m, forall n,
    snd (memory ordt k l (3 + Z.of_nat n) di rot reset dets gauge w) = Ok (a ++ tiles n b ++ map (later (Z.of_nat n)) m).
Proof. intros H. exact (C83_lemma ordt H k l di rot reset dets gauge w w1 c). Qed.
Print Assumptions C83_memory.
(** Google's experiment measures the data qubits in its last round. *)
Theorem C83_google ordt l di rot dets gauge w w1 c :
  (forall r, ordt (3 + r)%nat = ordt 3%nat) -> memory_google ordt l 5 di rot dets gauge w = (w1, Ok c) ->
  exists a b m, forall n,
    snd (memory_google ordt l (4 + Z.of_nat n) di rot dets gauge w) = Ok (a ++ tiles n b ++ map (later (Z.of_nat n)) m).
Proof. intros H. exact (C83_google_lemma ordt H l di rot dets gauge w w1 c). Qed.
Print Assumptions C83_google.

Example C83_case :
  (forall r, ex_ordt (3 + r)%nat = ex_ordt 3%nat) /\
  Forall (fun k => exists w1 c, memory ex_ordt k rot34 4 [("D1", 1)] true false None false (world_of rot34) = (w1, Ok c) /\ number DETECTOR c = 50%nat)
    [RotCss; CssPipelined; XzzxPipelined] /\
  (exists w1 c, memory_google ex_ordt rot34 5 [("D1", 1)] true None false (world_of rot34) = (w1, Ok c)).
Proof.
  split; [reflexivity|]. split; [|eexists; eexists; vm_compute; reflexivity].
  repeat (apply Forall_cons; [eexists; eexists; split; vm_compute; reflexivity|]). apply Forall_nil.
Qed.
