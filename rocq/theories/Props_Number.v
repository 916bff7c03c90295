(** C84: the numbering of the qubits only renames the targets of the circuits.
    Vocabulary in SpecNumber (and SpecFresh for the experiments). *)
From Coq Require Import QArith Qcanon.
From Verif Require Import Base StimM SetupM NoiseM LayoutM GenM DetM BlockM ExpM MergeM SpecFresh SpecNumber NumberP3
  Props_Noise Props_Gen Props_Round Props_Exp Props_Log Props_Fresh.
Open Scope Z_scope.

(** An experiment on the renumbered qubits is the same experiment with renumbered targets:
    the same instructions with the same arguments, detectors and observables in the same
    order, or the same exception. It leaves the detectors in the same state and the noise
    models related as before. *)
Theorem C84_experiment f fa e m m' d : renumbered f m m' ->
  snd (build fa e (m', d)) = renumber_res f (snd (build fa e (m, d))) /\
  renumbered f (fst (fst (build fa e (m, d)))) (fst (fst (build fa e (m', d)))) /\
  snd (fst (build fa e (m', d))) = snd (fst (build fa e (m, d))).
Proof. exact (C84_build f fa e m m' d). Qed.
Print Assumptions C84_experiment.
(** The same for every operation of every noise model, whether it returns or raises. *)
Theorem C84_operation f o qs m m' : renumbered f m m' ->
  snd (apply o qs m') = renumber_res f (snd (apply o qs m)) /\ renumbered f (fst (apply o qs m)) (fst (apply o qs m')).
Proof. exact (C84_gate f o qs m m'). Qed.
Print Assumptions C84_operation.
(** Any two numberings of the same labels by distinct numbers are related in this way. *)
Theorem C84_numberings k s qi qi' : NoDup (dvals qi) -> NoDup (dvals qi') ->
  (forall q, In q (dkeys qi) <-> In q (dkeys qi')) ->
  exists f, renumbered f (model_init k s qi) (model_init k s qi').
Proof. intros A B C. exists (index_of qi qi'). exact (C84_two k s qi qi' A B C). Qed.
Print Assumptions C84_numberings.

(* the numbers 3, 10, 17, ... in another order of the labels *)
Definition ex_numbers : dict string Z :=
  rev (map (fun kv => (fst kv, 3 + 7 * snd kv)) (inds (fst (world_of rot34)))).
Definition ex_renumbered : model := model_init Circ ex_setup ex_numbers.
Definition ex_f (i : Z) : Z := 3 + 7 * i.
Example C84_case :
  renumbered ex_f (fst (world_of rot34)) ex_renumbered /\
  (exists c, snd (build ex_facts ex_exp (world_of rot34)) = Ok c /\ (100 <? Z.of_nat (length c)) = true /\
     snd (build ex_facts ex_exp (ex_renumbered, snd (world_of rot34))) = Ok (renumber ex_f c) /\
     eqb (map tg (renumber ex_f c)) (map tg c) = false).
Proof.
  assert (G : forall q l, dget q (map (fun kv : string * Z => (fst kv, 3 + 7 * snd kv)) l) = option_map ex_f (dget q l)).
  { induction l as [|[k v] l IH]; [reflexivity|]. cbn [map fst snd dget]. destruct (eqb q k); [reflexivity|exact IH]. }
  assert (N : NoDup (dkeys (inds (fst (world_of rot34))))) by (apply nodupb_spec; vm_compute; reflexivity).
  assert (R : forall (V : Type) q (l : dict string V), NoDup (dkeys l) -> dget q (rev l) = dget q l).
  { intros V q l Nl. destruct (dget q l) as [v|] eqn:E.
    - apply In_dget; [unfold dkeys; rewrite map_rev; apply (Permutation_NoDup (Permutation_rev _)); exact Nl|].
      apply in_rev. rewrite rev_involutive. now apply dget_In.
    - apply dget_None. apply dget_None in E. intro X. apply E. unfold dkeys in *. rewrite map_rev in X. now apply in_rev in X. }
  assert (X : renumbered ex_f (fst (world_of rot34)) ex_renumbered).
  { unfold renumbered. split; [reflexivity|split; [reflexivity|split; [reflexivity|]]]. split; [|split].
    - intros q. change (inds ex_renumbered) with ex_numbers. unfold ex_numbers. rewrite R; [apply G|].
      unfold dkeys. rewrite map_map. exact N.
    - intros q. change (order ex_renumbered) with (map (fun kv : string * Z => (fst kv, @nil Z)) ex_numbers). unfold ex_numbers.
      rewrite map_rev, R; [|unfold dkeys; rewrite !map_map; exact N]. rewrite map_map. reflexivity.
    - intros q r i j _ _ E. unfold ex_f in E. lia. }
  split; [exact X|].
  assert (B : exists c, snd (build ex_facts ex_exp (world_of rot34)) = Ok c /\ (100 <? Z.of_nat (length c)) = true /\
     eqb (map tg (renumber ex_f c)) (map tg c) = false) by (eexists; split; [vm_compute; reflexivity|split; vm_compute; reflexivity]).
  destruct B as (c & B & L & D). exists c. split; [exact B|split; [exact L|split; [|exact D]]].
  destruct (C84_experiment ex_f ex_facts ex_exp _ _ (snd (world_of rot34)) X) as [Y _]. rewrite Y.
  change (fst (world_of rot34), snd (world_of rot34)) with (world_of rot34). rewrite B. reflexivity.
Qed.
