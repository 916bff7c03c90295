(** C82: experiments do not depend on earlier uses of the noise model and the detectors.
    Vocabulary in SpecFresh. *)
From Coq Require Import QArith Qcanon.
From Verif Require Import Base StimM SetupM NoiseM LayoutM GenM DetM BlockM ExpM MergeM SpecDet SpecFresh FreshP
  Props_Noise Props_Gen Props_Round Props_Exp Props_Log.
Open Scope Z_scope.

(** Whatever was done with the two objects before, also calls and experiments that raised an
    exception, an experiment returns the same circuit or raises the same exception as
    without it; and if it returns, it leaves the two objects in the same state. ([w] may be
    the state of new objects.) *)
Theorem C82_history f e w w' : after w w' ->
  snd (build f e w') = snd (build f e w) /\ (forall c, snd (build f e w) = Ok c -> build f e w' = build f e w).
Proof. exact (C82_lemma f e w w'). Qed.
Print Assumptions C82_history.
(** No use changes what the objects were made with. *)
Theorem C82_attributes w w' : after w w' ->
  kind (fst w') = kind (fst w) /\ stp (fst w') = stp (fst w) /\ inds (fst w') = inds (fst w) /\
  labels (snd w') = labels (snd w) /\ dfr (snd w') = dfr (snd w) /\ dcoords (snd w') = dcoords (snd w).
Proof. intros H. destruct (after_alike _ _ H) as [(A & B & C) (D & E & F)]. auto 10. Qed.
Print Assumptions C82_attributes.

(* a measurement, one of an unknown qubit that raises, a second activation that raises, a gate in the detectors' frame, a
   round of detectors, an experiment, and one that raises after its first blocks *)
Definition ex_facts : open_facts := {| of_fuse := true; of_show := fun x => x; of_ordt := ex_ordt; of_ordp := fun _ => ex_ordp |}.
Definition ex_uses : list use :=
  [UGate OM ["Z1"; "X1"]; UGate OM ["D2"; "none"]; UDet (fun _ => DAct ["Z1"]);
   UDet (fun _ => DUpdD [("Z1", ["Z1"; "X1"])]); UDet (fun m => DAnc (meas_target m) true (Some ["Z1"]));
   UExp ex_facts (EMemory Xzzx rot34 2 [] true false None false);
   UExp ex_facts (EGates SRot rot34 2 1 [] true false None false)].
Definition ex_used : world := fold_left (fun w u => fst (perform u w)) ex_uses (world_of rot34).
(* which of them return *)
Fixpoint returning (l : list use) (w : world) : list bool :=
  match l with
  | [] => []
  | u :: r => match snd (perform u w) with Ok _ => true | Err _ => false end :: returning r (fst (perform u w))
  end.
Definition ex_exp : experiment := EMemory RotCss rot34 2 [("D1", 1)] true false None false.
Example C82_case :
  after (world_of rot34) ex_used /\ num (fst ex_used) <> num (fst (world_of rot34)) /\
  total (snd ex_used) <> 0 /\
  returning ex_uses (world_of rot34) = [true; false; false; true; true; true; false] /\
  (exists c, snd (build ex_facts ex_exp ex_used) = Ok c /\ (100 <? Z.of_nat (length c)) = true).
Proof.
  split.
  { assert (G : forall l w w1, after w w1 -> after w (fold_left (fun w u => fst (perform u w)) l w1)).
    { induction l as [|u l IH]; intros w w1 H; [exact H|]. cbn [fold_left]. apply IH.
      exact (after_use w w1 u _ _ H (surjective_pairing (perform u w1))). }
    apply G, after_none. }
  split; [intro E; vm_compute in E; discriminate E|]. split; [intro E; vm_compute in E; discriminate E|].
  split; [vm_compute; reflexivity|]. eexists. split; vm_compute; reflexivity.
Qed.
