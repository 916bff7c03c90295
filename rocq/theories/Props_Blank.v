(** C86: the requested detectors only decide which detectors are empty.
    Vocabulary in SpecBlank (with SpecFresh). *)
From Coq Require Import QArith Qcanon Permutation.
From Verif Require Import Base StimM SetupM NoiseM LayoutM GenM DetM BlockM ExpM MergeM SpecFresh SpecBlank BlankP
  Props_Noise Props_Gen Props_Round Props_Exp Props_Log Props_Merge Props_Fresh.
Open Scope Z_scope.

(** If fewer detectors are requested, an experiment still returns a circuit. It
    has the same instructions at the same places, except that the detectors of the ancillas
    that are no longer requested have no targets; all other detectors keep theirs. The noise
    model and the detectors are left in the same state. *)
Theorem C86_fewer f e D D' w w1 c : (forall t n s, Permutation (of_ordt f t n s) s) -> asks_for e D -> incl D' D ->
  build f e w = (w1, Ok c) ->
  exists c', build f (asking (Some D') (gauge_of e) e) w = (w1, Ok c') /\ Forall2 (kept_only D' (dcoords (snd w))) c c'.
Proof. exact (C86_fewer_lemma f e D D' w w1 c). Qed.
Print Assumptions C86_fewer.
(** Without gauge detectors nothing but detectors of ancillas of the other stabilizer type is
    emptied. *)
Theorem C86_gauge f e s w w1 c : (forall t n s, Permutation (of_ordt f t n s) s) -> gauge_of e = true ->
  stabs_of e = Ok s ->
  build f e w = (w1, Ok c) ->
  exists c', build f (asking (dets_of e) false e) w = (w1, Ok c') /\ Forall2 (fun i j => j = i \/ kept_only s (dcoords (snd w)) i j) c c'.
Proof. exact (C86_gauge_lemma f e s w w1 c). Qed.
Print Assumptions C86_gauge.
(** The order and repetitions of the requested ancillas do not matter, and to name all
    ancillas is the same as to name none. *)
Theorem C86_set f e D D' w w1 c : (forall t n s, Permutation (of_ordt f t n s) s) -> asks_for e D -> (forall a, In a D' <-> In a D) ->
  build f e w = (w1, Ok c) -> build f (asking (Some D') (gauge_of e) e) w = (w1, Ok c).
Proof. exact (C86_set_lemma f e D D' w w1 c). Qed.
Print Assumptions C86_set.

(* a memory experiment with gauge detectors; one ancilla, and no gauge detectors *)
Definition ex_gauge : experiment := EMemory RotCss rot34 2 [("D1", 1)] true false None true.
Definition ex_plain : open_facts := {| of_fuse := true; of_show := fun x => x; of_ordt := fun _ _ s => s; of_ordp := fun _ => ex_ordp |}.
Example C86_case :
  (forall t n s, Permutation (of_ordt ex_plain t n s) s) /\
  (exists D, asks_for ex_gauge D /\ incl ["X1"] D /\ eqb (rev D) D = false /\ forall a, In a (rev D) <-> In a D) /\
  (exists s, stabs_of ex_gauge = Ok s /\ In "X1" s) /\
  (exists w1 c, build ex_plain ex_gauge (world_of rot34) = (w1, Ok c) /\
    (exists c', snd (build ex_plain (asking (Some ["X1"]) true ex_gauge) (world_of rot34)) = Ok c' /\ eqb (map tg c) (map tg c') = false) /\
    (exists c', snd (build ex_plain (asking None false ex_gauge) (world_of rot34)) = Ok c' /\ eqb (map tg c) (map tg c') = false)).
Proof.
  split; [intros; apply Permutation_refl|]. split.
  { eexists. split; [vm_compute; reflexivity|]. split; [intros a [<-|[]]; vm_compute; tauto|].
    split; [vm_compute; reflexivity|]. intros a. symmetry. apply in_rev. }
  split; [eexists; split; [vm_compute; reflexivity|vm_compute; tauto]|].
  eexists. eexists. split; [vm_compute; reflexivity|].
  split; (eexists; split; [vm_compute; reflexivity|vm_compute; reflexivity]).
Qed.
(* an experiment with transversal CNOTs and gauge detectors; the ancillas of one layout *)
Definition ex_gauges : experiment :=
  ECnots true (fst ex_both) (snd ex_both) 2 1 (map (fun q => (q, 0)) ["D1"; "D2"; "D3"; "D4"; "D101"; "D102"; "D103"; "D104"]) "alternating" false true None true.
Example C86_cnot_case :
  (exists D, asks_for ex_gauges D /\ incl ["X1"; "X2"; "Z1"] D /\ eqb (rev D) D = false) /\
  (exists s, stabs_of ex_gauges = Ok s /\ In "Z101" s) /\
  (exists w1 c, build ex_plain ex_gauges (ex_world Circ ex_setup ex_layouts) = (w1, Ok c) /\
    (exists c', snd (build ex_plain (asking (Some ["X1"; "X2"; "Z1"]) true ex_gauges) (ex_world Circ ex_setup ex_layouts)) = Ok c' /\ eqb (map tg c) (map tg c') = false) /\
    (exists c', snd (build ex_plain (asking None false ex_gauges) (ex_world Circ ex_setup ex_layouts)) = Ok c' /\ eqb (map tg c) (map tg c') = false)).
Proof.
  split.
  { eexists. split; [vm_compute; reflexivity|]. split; [intros a [<-|[<-|[<-|[]]]]; vm_compute; tauto|]. vm_compute; reflexivity. }
  split; [eexists; split; [vm_compute; reflexivity|vm_compute; tauto]|].
  eexists. eexists. split; [vm_compute; reflexivity|].
  split; (eexists; split; [vm_compute; reflexivity|vm_compute; reflexivity]).
Qed.
