(** C87: the initial bitstring only changes the initialization.
    Vocabulary in SpecStart (with SpecFresh). *)
From Coq Require Import QArith Qcanon.
From Verif Require Import Base StimM SetupM NoiseM LayoutM GenM DetM BlockM ExpM MergeM SpecFresh SpecStart StartP
  Props_Noise Props_Gen Props_Round Props_Exp Props_Log Props_Merge Props_Fresh.
Open Scope Z_scope.

(** Two experiments that differ only in data_init return circuits that differ in one part, the
    initialization, which has no measurements, detectors and observables. What precedes and follows it is the same, and so is the state of the noise
    model and the detectors at the end. *)
Theorem C87_bitstring f e di w w1 c w1' c' : build f e w = (w1, Ok c) -> build f (starting di e) w = (w1', Ok c') ->
  w1' = w1 /\ exists p x x' r, c = p ++ x ++ r /\ c' = p ++ x' ++ r /\ checkless x /\ checkless x' /\
    measured x = [] /\ measured x' = [].
Proof. exact (C87_lemma f e di w w1 c w1' c'). Qed.
Print Assumptions C87_bitstring.
(** The record, the detectors and the observables are the same. *)
Theorem C87_records f e di w w1 c w1' c' : build f e w = (w1, Ok c) -> build f (starting di e) w = (w1', Ok c') ->
  measured c' = measured c /\ checks c' = checks c.
Proof. exact (C87_records_lemma f e di w w1 c w1' c'). Qed.
Print Assumptions C87_records.
Example C87_case :
  exists c c', snd (build ex_facts ex_exp (world_of rot34)) = Ok c /\
    snd (build ex_facts (starting [("D1", 0); ("D2", 1); ("D3", 1)] ex_exp) (world_of rot34)) = Ok c' /\
    eqb (map tg c) (map tg c') = false /\ (100 <? Z.of_nat (length c)) = true /\ (20 <? Z.of_nat (length (checks c))) = true.
Proof.
  eexists. eexists. split; [vm_compute; reflexivity|]. split; [vm_compute; reflexivity|]. split; [vm_compute; reflexivity|]. split; vm_compute; reflexivity.
Qed.
(* and with transversal CNOTs *)
Definition ex_start (a b : Z) : dict string Z :=
  [("D1", a); ("D2", 0); ("D3", 0); ("D4", 0); ("D101", 0); ("D102", b); ("D103", 0); ("D104", 0)].
Definition ex_cnots : experiment := ECnots true (fst ex_both) (snd ex_both) 2 1 (ex_start 1 0) "alternating" false true None true.
Example C87_cnot_case :
  exists c c', snd (build ex_facts ex_cnots (ex_world Circ ex_setup ex_layouts)) = Ok c /\
    snd (build ex_facts (starting (ex_start 0 1) ex_cnots) (ex_world Circ ex_setup ex_layouts)) = Ok c' /\
    eqb (map tg c) (map tg c') = false /\ (100 <? Z.of_nat (length c)) = true /\ (20 <? Z.of_nat (length (checks c))) = true.
Proof.
  eexists. eexists. split; [vm_compute; reflexivity|]. split; [vm_compute; reflexivity|]. split; [vm_compute; reflexivity|]. split; vm_compute; reflexivity.
Qed.
