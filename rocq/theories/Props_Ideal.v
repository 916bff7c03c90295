(** C85: the noise model of an experiment only adds noise.
    Vocabulary in SpecIdeal (with SpecFresh and SpecNoise). *)
From Coq Require Import QArith Qcanon.
From Verif Require Import Base StimM SetupM NoiseM LayoutM GenM DetM BlockM ExpM MergeM SpecNoise SpecFresh SpecIdeal IdealP2
  Props_Noise Props_Gen Props_Round Props_Exp Props_Log Props_Fresh.
Open Scope Z_scope.

(** If an experiment on one layout returns a circuit with some noise model, it returns one
    with every noiseless model of the same qubits, whatever the setup of the latter and the
    earlier uses of both. Without noise, idling and readout flip probabilities the two
    circuits are the same: same gates, resets, measurements, detectors and observables, on
    the same targets in the same order. Both record the same measurements and leave the
    detectors in the same state. *)
Theorem C85_noiseless fa e m m' d m1 d1 c : one_layout e -> kind m' = Noiseless -> inds m' = inds m ->
  build fa e (m, d) = ((m1, d1), Ok c) ->
  exists m2 c0, build fa e (m', d) = ((m2, d1), Ok c0) /\ noise_of c0 = [] /\ ideal c = ideal c0 /\ measured c = measured c0 /\
    order m2 = order m1 /\ num m2 = num m1.
Proof. exact (C85_lemma fa e m m' d m1 d1 c). Qed.
Print Assumptions C85_noiseless.
(** So any two noise models, of any classes and with any setups, give the same circuit up to
    noise. *)
Theorem C85_any_two fa e m m' d c c' : one_layout e -> inds m' = inds m ->
  snd (build fa e (m, d)) = Ok c -> snd (build fa e (m', d)) = Ok c' ->
  ideal c = ideal c' /\ measured c = measured c' /\ snd (fst (build fa e (m, d))) = snd (fst (build fa e (m', d))).
Proof. exact (C85_two_lemma fa e m m' d c c'). Qed.
Print Assumptions C85_any_two.

(* circuit noise and phenomenological noise, used before *)
Definition ex_phenom : model :=
  {| kind := Phenom; stp := ex_setup; inds := inds (fst (world_of rot34)); order := []; num := 7 |}.
Example C85_case :
  one_layout ex_exp /\ inds ex_phenom = inds (fst (world_of rot34)) /\
  exists c c', snd (build ex_facts ex_exp (world_of rot34)) = Ok c /\
    snd (build ex_facts ex_exp (ex_phenom, snd (world_of rot34))) = Ok c' /\
    (100 <? Z.of_nat (length (ideal c))) = true /\ (length (noise_of c) <> length (noise_of c'))%nat /\
    (0 <? Z.of_nat (length (noise_of c'))) = true.
Proof.
  split; [exact I|]. split; [reflexivity|]. eexists. eexists. split; [vm_compute; reflexivity|]. split; [vm_compute; reflexivity|].
  split; [vm_compute; reflexivity|]. split; [vm_compute; discriminate|vm_compute; reflexivity].
Qed.
