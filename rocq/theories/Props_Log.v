(** Properties of the transversal gates (C41, C46-C48). Vocabulary in SpecLog: [follows]
    says that the map given to the detectors is how the circuit transforms the stabilizer
    generators, up to signs. [ord] and [ordp] are the orders in which Python iterates
    sets, [monos] what the matcher of networkx finds. Attributes may be set before and
    after the call of set_trans_*, except the ones it relies on. *)
From Coq Require Import QArith Qcanon.
From Verif Require Import Base Lib StimM SetupM NoiseM SpecNoise LayoutM GenM DetM BlockM MergeM LogM SpecGen SpecTrack SpecMerge SpecLog LogP13
  Props_Noise Props_Gen Props_Round Props_Merge.
Open Scope Z_scope.

Definition get_layout (r : res layout) : layout := match r with Ok l => l | Err _ => no_layout end.
Definition ex_ordp (k : nat) (s : list (string * string)) : list (string * string) := if Nat.even k then s else rev s.
Lemma ex_ordp_perm k s : Permutation (ex_ordp k s) s.
Proof. unfold ex_ordp. destruct (Nat.even k); [apply Permutation_refl|apply Permutation_sym, Permutation_rev]. Qed.

(** C46 Transversal CNOT *)
Theorem C46_rot ord ordp a a' lc0 lc lc1 lc2 lt0 lt lt1 lt2 monos w w' c : (forall k s, Permutation (ordp k s) s) ->
  let gate := ("trans-cnot_" ++ ga_log a ++ "_" ++ ga_log a')%string in
  rot_surface_code_rectangle a = Ok lc0 -> rot_surface_code_rectangle a' = Ok lt0 ->
  annotated structure lc0 lc -> annotated structure lt0 lt -> Forall (monomorphism lc lt) monos ->
  set_trans_cnot_rot monos lc lt = Ok (lc1, lt1) ->
  annotated (gate :: structure) lc1 lc2 -> annotated (gate :: structure) lt1 lt2 ->
  wf_inds (inds (fst w)) -> log_trans_cnot ord ordp lc2 lt2 w = (w', Ok c) ->
  exists ac at_ nc nt, get_role lc0 "anc" = Ok ac /\ get_role lt0 "anc" = Ok at_ /\
    new_stab_dict lc2 gate = Ok nc /\ new_stab_dict lt2 gate = Ok nt /\
    follows (joint (css lc0) (css lt0)) (ac ++ at_) (dupdate nc nt) w w' c.
Proof. intros Hp gate G G' A A' M S B B' W H. exact (C46_rot_lemma ord ordp Hp a a' lc0 lc lc1 lc2 lt0 lt lt1 lt2 monos w w' c A A' M B B' W H G G' S). Qed.
Print Assumptions C46_rot.
Theorem C46_unrot ord ordp a a' lc0 lc lc1 lc2 lt0 lt lt1 lt2 monos w w' c : (forall k s, Permutation (ordp k s) s) ->
  let gate := ("trans-cnot_" ++ ga_log a ++ "_" ++ ga_log a')%string in
  unrot_surface_code_rectangle a = Ok lc0 -> unrot_surface_code_rectangle a' = Ok lt0 ->
  annotated structure lc0 lc -> annotated structure lt0 lt -> Forall (monomorphism lc lt) monos ->
  set_trans_cnot_unrot monos lc lt = Ok (lc1, lt1) ->
  annotated (gate :: structure) lc1 lc2 -> annotated (gate :: structure) lt1 lt2 ->
  wf_inds (inds (fst w)) -> log_trans_cnot ord ordp lc2 lt2 w = (w', Ok c) ->
  exists ac at_ nc nt, get_role lc0 "anc" = Ok ac /\ get_role lt0 "anc" = Ok at_ /\
    new_stab_dict lc2 gate = Ok nc /\ new_stab_dict lt2 gate = Ok nt /\
    follows (joint (css lc0) (css lt0)) (ac ++ at_) (dupdate nc nt) w w' c.
Proof. intros Hp gate G G' A A' M S B B' W H. exact (C46_unrot_lemma ord ordp Hp a a' lc0 lc lc1 lc2 lt0 lt lt1 lt2 monos w w' c A A' M B B' W H G G' S). Qed.
Print Assumptions C46_unrot.
(* a case: two codes of distance 2, the matcher finds the translation *)
Definition translation (lc lt : layout) : dict string string := combine (dkeys (l_nodes lc)) (dkeys (l_nodes lt)).
Definition is_mono (lc lt : layout) (m : dict string string) : bool :=
  eqb (dedup (dkeys m)) (dkeys m) && forallb (fun q => mem q (dkeys (l_nodes lc))) (dkeys m) && eqb (dedup (map snd m)) (map snd m) &&
  forallb (fun t => mem t (dkeys (l_nodes lt))) (map snd m) && forallb (fun t => mem t (map snd m)) (dkeys (l_nodes lt)) &&
  forallb (fun ct => forallb (fun ct' => negb (mem (snd ct') (get_neighbors lt [snd ct] None)) || mem (fst ct') (get_neighbors lc [fst ct] None)) m) m.
Lemma is_mono_ok lc lt m : is_mono lc lt m = true -> monomorphism lc lt m.
Proof.
  unfold is_mono. intros H. apply andb_prop in H as [H H6]. apply andb_prop in H as [H H5]. apply andb_prop in H as [H H4].
  apply andb_prop in H as [H H3]. apply andb_prop in H as [H1 H2].
  rewrite forallb_forall in H2, H4, H5, H6. constructor.
  - apply (Bool.reflect_iff _ _ (eqb_spec _ _)) in H1. rewrite <- H1. apply TrackP.dedup_NoDup.
  - intros q I. apply mem_In. now apply H2.
  - apply (Bool.reflect_iff _ _ (eqb_spec _ _)) in H3. rewrite <- H3. apply TrackP.dedup_NoDup.
  - intros t. split; intros I; apply mem_In; [now apply H4|now apply H5].
  - intros c t c' t' I I' N. specialize (H6 _ I). rewrite forallb_forall in H6. specialize (H6 _ I'). cbn [fst snd] in H6.
    apply mem_In in N. rewrite N in H6. now apply mem_In.
Qed.
Definition ex_cnot : layout * layout :=
  match set_trans_cnot_rot [translation rot22 rot22'] rot22 rot22' with Ok p => p | Err _ => (no_layout, no_layout) end.
Definition ex_cnot_run := log_trans_cnot ex_ord ex_ordp (fst ex_cnot) (snd ex_cnot) (ex_world Circ ex_setup ex_layouts).
Example C46_case :
  rot_surface_code_rectangle (args 2 2) = Ok rot22 /\ rot_surface_code_rectangle (args2 2 2) = Ok rot22' /\
  Forall (monomorphism rot22 rot22') [translation rot22 rot22'] /\
  set_trans_cnot_rot [translation rot22 rot22'] rot22 rot22' = Ok ex_cnot /\
  wf_inds (inds (fst (ex_world Circ ex_setup ex_layouts))) /\ snd ex_cnot_run = Ok (ex_of ex_cnot_run) /\
  (do d <- new_stab_dict (fst ex_cnot) "trans-cnot_L0_L1"; Ok (map (fun x => dget x d) ["X1"; "Z1"])) = Ok [Some ["X1"; "X101"]; Some ["Z1"]].
Proof.
  split; [vm_compute; reflexivity|]. split; [vm_compute; reflexivity|]. split.
  { constructor; [|constructor]. apply is_mono_ok. vm_compute. reflexivity. }
  split; [vm_compute; reflexivity|]. split; [apply ex_wf|]. split; vm_compute; reflexivity.
Qed.

(** C47 Transversal S *)
Theorem C47_rot ord ordp a l0 l l1 l2 dq w w' c : (forall k s, Permutation (ord k s) s) -> (forall k s, Permutation (ordp k s) s) ->
  let gate := ("trans-s_" ++ ga_log a)%string in
  rot_surface_code_rectangle a = Ok l0 -> annotated structure l0 l -> set_trans_s_rot l dq = Ok l1 -> annotated (gate :: structure) l1 l2 ->
  wf_inds (inds (fst w)) -> log_trans_s ord ordp l2 w = (w', Ok c) ->
  exists anc nd, get_role l0 "anc" = Ok anc /\ new_stab_dict l2 gate = Ok nd /\ follows (css l0) anc nd w w' c.
Proof. intros Ho Hp gate G A S B W H. exact (C47_rot_lemma ord ordp Ho Hp a l0 l l1 l2 dq w w' c A G S B W H). Qed.
Print Assumptions C47_rot.
Theorem C47_unrot ord ordp a l0 l l1 l2 dq w w' c : (forall k s, Permutation (ord k s) s) -> (forall k s, Permutation (ordp k s) s) ->
  let gate := ("trans-s_" ++ ga_log a)%string in
  unrot_surface_code_rectangle a = Ok l0 -> annotated structure l0 l -> set_trans_s_unrot l dq = Ok l1 -> annotated (gate :: structure) l1 l2 ->
  wf_inds (inds (fst w)) -> log_trans_s ord ordp l2 w = (w', Ok c) ->
  exists anc nd, get_role l0 "anc" = Ok anc /\ new_stab_dict l2 gate = Ok nd /\ follows (css l0) anc nd w w' c.
Proof. intros Ho Hp gate G A S B W H. exact (C47_unrot_lemma ord ordp Ho Hp a l0 l l1 l2 dq w w' c A G S B W H). Qed.
Print Assumptions C47_unrot.
Definition rot34 : layout := get_layout (rot_surface_code_rectangle (args 3 4)).
Definition unrot33 : layout := get_layout (unrot_surface_code_rectangle (args 3 3)).
Definition rot34s : layout := get_layout (set_trans_s_rot rot34 "D1").
Definition unrot33s : layout := get_layout (set_trans_s_unrot unrot33 "D1").
Example C47_case :
  rot_surface_code_rectangle (args 3 4) = Ok rot34 /\ set_trans_s_rot rot34 "D1" = Ok rot34s /\ wf_inds (inds (fst (world_of rot34))) /\
  runs (log_trans_s ex_ord ex_ordp rot34s) rot34 = true /\
  unrot_surface_code_rectangle (args 3 3) = Ok unrot33 /\ set_trans_s_unrot unrot33 "D1" = Ok unrot33s /\ wf_inds (inds (fst (world_of unrot33))) /\
  runs (log_trans_s ex_ord ex_ordp unrot33s) unrot33 = true /\
  (do d <- new_stab_dict unrot33s "trans-s_L0"; Ok (map (fun x => dget x d) ["X1"; "Z1"])) = Ok [Some ["X1"; "Z1"]; Some ["Z1"]].
Proof.
  split; [vm_compute; reflexivity|]. split; [vm_compute; reflexivity|]. split; [apply wf_test; vm_compute; reflexivity|]. split; [vm_compute; reflexivity|].
  split; [vm_compute; reflexivity|]. split; [vm_compute; reflexivity|]. split; [apply wf_test; vm_compute; reflexivity|]. split; vm_compute; reflexivity.
Qed.

(** C48 Transversal H *)
Theorem C48_unrot ord ordp a l0 l l1 l2 dq w w' c : (forall k s, Permutation (ord k s) s) -> (forall k s, Permutation (ordp k s) s) ->
  let gate := ("trans-h_" ++ ga_log a)%string in
  unrot_surface_code_rectangle a = Ok l0 -> annotated structure l0 l -> set_trans_h l dq = Ok l1 -> annotated (gate :: structure) l1 l2 ->
  wf_inds (inds (fst w)) -> log_trans_h ord ordp l2 w = (w', Ok c) ->
  exists anc nd, get_role l0 "anc" = Ok anc /\ new_stab_dict l2 gate = Ok nd /\ follows (css l0) anc nd w w' c.
Proof. intros Ho Hp gate G A S B W H. exact (C48_lemma ord ordp Ho Hp a l0 l l1 l2 dq w w' c A G S B W H). Qed.
Print Assumptions C48_unrot.
Definition unrot33h : layout := get_layout (set_trans_h unrot33 "D3").
Example C48_case :
  unrot_surface_code_rectangle (args 3 3) = Ok unrot33 /\ set_trans_h unrot33 "D3" = Ok unrot33h /\ wf_inds (inds (fst (world_of unrot33))) /\
  runs (log_trans_h ex_ord ex_ordp unrot33h) unrot33 = true /\
  (do d <- new_stab_dict unrot33h "trans-h_L0"; Ok (map (fun x => dget x d) ["X1"; "Z1"])) = Ok [Some ["Z6"]; Some ["X6"]].
Proof.
  split; [vm_compute; reflexivity|]. split; [vm_compute; reflexivity|]. split; [apply wf_test; vm_compute; reflexivity|]. split; vm_compute; reflexivity.
Qed.

(** C41 The orientation of the gates of a repeated CNOT experiment: for "constant" the
    control is always the first layout. For "alternating" it is so for gates 0, 3, 4, 7, 8, ... *)
Theorem C41_orientations_partial fuse show ordt ordp it lc lt num_gates rounds data_init orientation rot reset dets gauge w w' c :
  repeated_cnot_with fuse show ordt ordp it lc lt num_gates rounds data_init orientation rot reset dets gauge w = (w', Ok c) ->
  exists before parts after, c = before ++ concat (map (fun p => fst p ++ snd p) parts) ++ after /\ Z.of_nat (length parts) = num_gates /\
    forall k g r, nth_error parts k = Some (g, r) -> exists w1 w2 o op,
      let b := eqb orientation "alternating" && (Nat.eqb (k mod 4) 1 || Nat.eqb (k mod 4) 2) in
      log_trans_cnot (ordt o) (ordp op) (fst (exchanged_if b lc lt)) (snd (exchanged_if b lc lt)) w1 = (w2, Ok g).
Proof. exact (C41_lemma fuse show ordt ordp it lc lt num_gates rounds data_init orientation rot reset dets gauge w w' c). Qed.
Print Assumptions C41_orientations_partial.
(* the gates are not alternating: the third one has the orientation of the second *)
Definition ex_both : layout * layout :=
  match set_trans_cnot_rot [translation rot22' rot22] (snd ex_cnot) (fst ex_cnot) with Ok p => (snd p, fst p) | Err _ => (no_layout, no_layout) end.
Definition cnots (c : circuit) : list (list target) := map (fun a => snd (fst a)) (filter (fun a => eqb (name_of a) GCX) (applications c)).
Theorem C41_refuted : exists lc lt w w' c,
  repeated_cnot_rot_css true (fun x => x) (fun _ => ex_ord) (fun _ => ex_ordp) lc lt 3 0
    (map (fun q => (q, 0)) ["D1"; "D2"; "D3"; "D4"; "D101"; "D102"; "D103"; "D104"]) "alternating" false true None true w = (w', Ok c) /\
  let pairs x y := map (fun k => [TQ (x + k); TQ (y + k)]) [0; 1; 2; 3] in
  cnots c = pairs 0 7 ++ pairs 7 0 ++ pairs 7 0.
Proof.
  exists (fst ex_both), (snd ex_both), (ex_world Circ ex_setup ex_layouts). do 2 eexists. split; vm_compute; reflexivity.
Qed.
Print Assumptions C41_refuted.
