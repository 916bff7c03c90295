(** Properties of setting the transversal gates (C77). Attributes may have been set
    before, except the ones of [structure]. [monos] is what the matcher of networkx finds:
    it must find every monomorphism, in any order and with the items in any order. *)
From Coq Require Import QArith Qcanon.
From Verif Require Import Base Lib StimM SetupM NoiseM SpecNoise LayoutM SpecLayout GenM DetM BlockM MergeM LogM SpecGen SpecTrack SpecMerge SpecLog
  LayoutP2 SetOkP5 SetOkP6 Props_Noise Props_Gen Props_Round Props_Merge Props_Log.
Open Scope Z_scope.

(** C77 Transversal gates can be set *)
Theorem C77_s_rot a l0 l dq : rot_surface_code_rectangle a = Ok l0 -> annotated structure l0 l ->
  (exists l1, set_trans_s_rot l dq = Ok l1) <->
  ga_dz a = ga_dx a + 1 /\ 2 <= ga_dx a /\ has_coord l0 dq [fst (ga_pt a); snd (ga_pt a)].
Proof. intros G A. exact (C77_s_rot_lemma a l0 l dq A G). Qed.
Print Assumptions C77_s_rot.
Theorem C77_s_unrot a l0 l dq : unrot_surface_code_rectangle a = Ok l0 -> annotated structure l0 l ->
  (exists l1, set_trans_s_unrot l dq = Ok l1) <->
  ga_dz a = ga_dx a /\ 2 <= ga_dx a /\
  exists r c, (r = 0 \/ r = 2 * (ga_dx a - 1)) /\ (c = 0 \/ c = 2 * (ga_dx a - 1)) /\
    has_coord l0 dq [(fst (ga_pt a) + coord r)%Qc; (snd (ga_pt a) + coord c)%Qc].
Proof. intros G A. exact (C77_s_unrot_lemma a l0 l dq A G). Qed.
Print Assumptions C77_s_unrot.
Theorem C77_h_corner a l0 l dq r c : unrot_surface_code_rectangle a = Ok l0 -> annotated structure l0 l ->
  ga_dz a = ga_dx a -> 2 <= ga_dx a -> (r = 0 \/ r = 2 * (ga_dx a - 1)) -> (c = 0 \/ c = 2 * (ga_dx a - 1)) ->
  has_coord l0 dq [(fst (ga_pt a) + coord r)%Qc; (snd (ga_pt a) + coord c)%Qc] ->
  exists l1, set_trans_h l dq = Ok l1.
Proof. intros G A D B Hr Hc H. exact (C77_h_lemma a l0 l dq A G D B (ex_intro _ r (ex_intro _ c (conj Hr (conj Hc H))))). Qed.
Print Assumptions C77_h_corner.
Theorem C77_cnot_rot a a' lc0 lc lt0 lt monos : rot_surface_code_rectangle a = Ok lc0 -> rot_surface_code_rectangle a' = Ok lt0 ->
  annotated structure lc0 lc -> annotated structure lt0 lt -> 1 <= ga_dx a -> 1 <= ga_dz a ->
  (forall m, In m monos -> monomorphism lc lt m) -> (forall m, monomorphism lc lt m -> exists m', In m' monos /\ Permutation m m') ->
  (exists lc1 lt1, set_trans_cnot_rot monos lc lt = Ok (lc1, lt1)) <->
  ga_dx a' = ga_dx a /\ ga_dz a' = ga_dz a /\ ~ share lc0 lt0.
Proof. intros G G' A A' X Z M C. exact (C77_cnot_rot_lemma a a' lc0 lc lt0 lt monos A A' M C X Z G G'). Qed.
Print Assumptions C77_cnot_rot.
Theorem C77_cnot_unrot a a' lc0 lc lt0 lt monos : unrot_surface_code_rectangle a = Ok lc0 -> unrot_surface_code_rectangle a' = Ok lt0 ->
  annotated structure lc0 lc -> annotated structure lt0 lt -> 1 <= ga_dx a -> 1 <= ga_dz a ->
  (forall m, In m monos -> monomorphism lc lt m) -> (forall m, monomorphism lc lt m -> exists m', In m' monos /\ Permutation m m') ->
  (exists lc1 lt1, set_trans_cnot_unrot monos lc lt = Ok (lc1, lt1)) <->
  ga_dx a' = ga_dx a /\ ga_dz a' = ga_dz a /\ ~ share lc0 lt0.
Proof. intros G G' A A' X Z M C. exact (C77_cnot_unrot_lemma a a' lc0 lc lt0 lt monos A A' M C X Z G G'). Qed.
Print Assumptions C77_cnot_unrot.

(* a case: the first corner of the 3x4 rotated code; the corner D3 of the 3x3 unrotated
   one, and a data qubit that is no corner *)
Example C77_one_case :
  rot_surface_code_rectangle (args 3 4) = Ok rot34 /\ annotated structure rot34 rot34 /\
  has_coord rot34 "D1" [fst (ga_pt (args 3 4)); snd (ga_pt (args 3 4))] /\ is_ok (set_trans_s_rot rot34 "D1") = true /\
  is_ok (set_trans_s_rot rot34 "D4") = false /\
  unrot_surface_code_rectangle (args 3 3) = Ok unrot33 /\ annotated structure unrot33 unrot33 /\
  has_coord unrot33 "D3" [(fst (ga_pt (args 3 3)) + coord 0)%Qc; (snd (ga_pt (args 3 3)) + coord 4)%Qc] /\
  is_ok (set_trans_s_unrot unrot33 "D3") = true /\ is_ok (set_trans_h unrot33 "D3") = true /\ is_ok (set_trans_s_unrot unrot33 "D7") = false.
Proof. repeat split; try (apply an_refl); try (vm_compute; reflexivity). Qed.
(* a case: two rotated codes of distance 2; two with a label in common *)
Example C77_two_case :
  rot_surface_code_rectangle (args 2 2) = Ok rot22 /\ rot_surface_code_rectangle (args2 2 2) = Ok rot22' /\
  (forall m, In m (all_monos rot22 rot22') -> monomorphism rot22 rot22' m) /\
  (forall m, monomorphism rot22 rot22' m -> exists m', In m' (all_monos rot22 rot22') /\ Permutation m m') /\
  ~ share rot22 rot22' /\ share rot22 rot22.
Proof.
  split; [vm_compute; reflexivity|]. split; [vm_compute; reflexivity|].
  destruct (all_monos_ok rot22 rot22') as [A B]; [|split; [exact A|]; split; [exact B|]; split].
  - assert (E : dedup (dkeys (l_nodes rot22')) = dkeys (l_nodes rot22')) by (vm_compute; reflexivity). rewrite <- E. apply TrackP.dedup_NoDup.
  - apply (rot_apart (args 2 2) (args2 2 2)); vm_compute; reflexivity.
  - left. exists "D1". split; refine (proj1 (mem_In "D1" (map fst (l_nodes rot22))) _); vm_compute; reflexivity.
Qed.
