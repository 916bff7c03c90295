(** Properties of the transversal gates with signs (C70). Vocabulary in SpecSign: a Pauli
    operator has a power of i, [carries qi st c k a new] says that i^k times the generator
    of [a] before the circuit is the product of the generators of [new] after it. [ord],
    [ordp] and [monos] as in Props_Log. *)
From Coq Require Import QArith Qcanon.
From Verif Require Import Base Lib StimM SetupM NoiseM SpecNoise LayoutM GenM DetM BlockM MergeM LogM SpecGen SpecTrack SpecMerge SpecLog SpecSign SignP3
  Props_Noise Props_Gen Props_Round Props_Merge Props_Log.
Open Scope Z_scope.

(** C70 The map given to the detectors is right with signs. *)
Theorem C70_cnot_rot ord ordp a a' lc0 lc lc1 lc2 lt0 lt lt1 lt2 monos w w' c : (forall k s, Permutation (ordp k s) s) ->
  let gate := ("trans-cnot_" ++ ga_log a ++ "_" ++ ga_log a')%string in
  rot_surface_code_rectangle a = Ok lc0 -> rot_surface_code_rectangle a' = Ok lt0 ->
  annotated structure lc0 lc -> annotated structure lt0 lt -> Forall (monomorphism lc lt) monos ->
  set_trans_cnot_rot monos lc lt = Ok (lc1, lt1) ->
  annotated (gate :: structure) lc1 lc2 -> annotated (gate :: structure) lt1 lt2 ->
  wf_inds (inds (fst w)) -> log_trans_cnot ord ordp lc2 lt2 w = (w', Ok c) ->
  exists ac at_ nc nt, get_role lc0 "anc" = Ok ac /\ get_role lt0 "anc" = Ok at_ /\
    new_stab_dict lc2 gate = Ok nc /\ new_stab_dict lt2 gate = Ok nt /\
    forall x, In x (ac ++ at_) -> exists new, dget x (dupdate nc nt) = Some new /\ carries (inds (fst w)) (joint (css lc0) (css lt0)) c 0 x new.
Proof. intros Hp gate G G' A A' M S B B' W H. exact (C70_cnot_rot_lemma ord ordp Hp a a' lc0 lc lc1 lc2 lt0 lt lt1 lt2 monos w w' c A A' M B B' W H G G' S). Qed.
Print Assumptions C70_cnot_rot.
Theorem C70_cnot_unrot ord ordp a a' lc0 lc lc1 lc2 lt0 lt lt1 lt2 monos w w' c : (forall k s, Permutation (ordp k s) s) ->
  let gate := ("trans-cnot_" ++ ga_log a ++ "_" ++ ga_log a')%string in
  unrot_surface_code_rectangle a = Ok lc0 -> unrot_surface_code_rectangle a' = Ok lt0 ->
  annotated structure lc0 lc -> annotated structure lt0 lt -> Forall (monomorphism lc lt) monos ->
  set_trans_cnot_unrot monos lc lt = Ok (lc1, lt1) ->
  annotated (gate :: structure) lc1 lc2 -> annotated (gate :: structure) lt1 lt2 ->
  wf_inds (inds (fst w)) -> log_trans_cnot ord ordp lc2 lt2 w = (w', Ok c) ->
  exists ac at_ nc nt, get_role lc0 "anc" = Ok ac /\ get_role lt0 "anc" = Ok at_ /\
    new_stab_dict lc2 gate = Ok nc /\ new_stab_dict lt2 gate = Ok nt /\
    forall x, In x (ac ++ at_) -> exists new, dget x (dupdate nc nt) = Some new /\ carries (inds (fst w)) (joint (css lc0) (css lt0)) c 0 x new.
Proof. intros Hp gate G G' A A' M S B B' W H. exact (C70_cnot_unrot_lemma ord ordp Hp a a' lc0 lc lc1 lc2 lt0 lt lt1 lt2 monos w w' c A A' M B B' W H G G' S). Qed.
Print Assumptions C70_cnot_unrot.
Theorem C70_s_unrot ord ordp a l0 l l1 l2 dq w w' c : (forall k s, Permutation (ord k s) s) -> (forall k s, Permutation (ordp k s) s) ->
  let gate := ("trans-s_" ++ ga_log a)%string in
  unrot_surface_code_rectangle a = Ok l0 -> annotated structure l0 l -> set_trans_s_unrot l dq = Ok l1 -> annotated (gate :: structure) l1 l2 ->
  wf_inds (inds (fst w)) -> log_trans_s ord ordp l2 w = (w', Ok c) ->
  exists anc nd, get_role l0 "anc" = Ok anc /\ new_stab_dict l2 gate = Ok nd /\
    forall x, In x anc -> exists new, dget x nd = Some new /\ carries (inds (fst w)) (css l0) c 0 x new.
Proof. intros Ho Hp gate G A S B W H. exact (C70_s_unrot_lemma ord ordp Ho Hp a l0 l l1 l2 dq w w' c A W G S B H). Qed.
Print Assumptions C70_s_unrot.
Theorem C70_h_unrot ord ordp a l0 l l1 l2 dq w w' c : (forall k s, Permutation (ord k s) s) -> (forall k s, Permutation (ordp k s) s) ->
  let gate := ("trans-h_" ++ ga_log a)%string in
  unrot_surface_code_rectangle a = Ok l0 -> annotated structure l0 l -> set_trans_h l dq = Ok l1 -> annotated (gate :: structure) l1 l2 ->
  wf_inds (inds (fst w)) -> log_trans_h ord ordp l2 w = (w', Ok c) ->
  exists anc nd, get_role l0 "anc" = Ok anc /\ new_stab_dict l2 gate = Ok nd /\
    forall x, In x anc -> exists new, dget x nd = Some new /\ carries (inds (fst w)) (css l0) c 0 x new.
Proof. intros Ho Hp gate G A S B W H. exact (C70_h_lemma ord ordp Ho Hp a l0 l l1 l2 dq w w' c A W G S B H). Qed.
Print Assumptions C70_h_unrot.
(* S of the rotated code: one data qubit [q0] has an S_DAG gate, and the sign is wrong for
   one generator, an X-type generator that acts on [q0]. *)
Theorem C70_s_rot_partial ord ordp a l0 l l1 l2 dq w w' c : (forall k s, Permutation (ord k s) s) -> (forall k s, Permutation (ordp k s) s) ->
  let gate := ("trans-s_" ++ ga_log a)%string in
  rot_surface_code_rectangle a = Ok l0 -> annotated structure l0 l -> set_trans_s_rot l dq = Ok l1 -> annotated (gate :: structure) l1 l2 ->
  wf_inds (inds (fst w)) -> log_trans_s ord ordp l2 w = (w', Ok c) ->
  exists anc data nd q0 x0, get_role l0 "anc" = Ok anc /\ get_role l0 "data" = Ok data /\ new_stab_dict l2 gate = Ok nd /\
    In q0 data /\ (forall q, In q data -> local_gate l2 gate q = Some (PStr "S_DAG") <-> q = q0) /\
    In x0 anc /\ In q0 (fst (css l0 x0)) /\
    forall x, In x anc -> exists new, dget x nd = Some new /\ carries (inds (fst w)) (css l0) c (if eqb x x0 then 2 else 0) x new.
Proof. intros Ho Hp gate G A S B W H. exact (C70_s_rot_lemma ord ordp Ho Hp a l0 l l1 l2 dq w w' c A W G S B H). Qed.
Print Assumptions C70_s_rot_partial.
Theorem C70_s_rot_refuted : exists ord ordp a l0 l1 dq w w' c nd x new,
  (forall k s, Permutation (ord k s) s) /\ (forall k s, Permutation (ordp k s) s) /\
  rot_surface_code_rectangle a = Ok l0 /\ set_trans_s_rot l0 dq = Ok l1 /\ wf_inds (inds (fst w)) /\ log_trans_s ord ordp l1 w = (w', Ok c) /\
  new_stab_dict l1 ("trans-s_" ++ ga_log a) = Ok nd /\ dget x nd = Some new /\ ~ carries (inds (fst w)) (css l0) c 0 x new.
Proof.
  assert (E0 : rot_surface_code_rectangle (args 3 4) = Ok rot34) by (vm_compute; reflexivity).
  assert (E1 : set_trans_s_rot rot34 "D1" = Ok rot34s) by (vm_compute; reflexivity).
  assert (W : wf_inds (inds (fst (world_of rot34)))) by (apply wf_test; vm_compute; reflexivity).
  assert (R : runs (log_trans_s ex_ord ex_ordp rot34s) rot34 = true) by (vm_compute; reflexivity).
  unfold runs in R. destruct (log_trans_s ex_ord ex_ordp rot34s (world_of rot34)) as [w' [c|e]] eqn:E; [|discriminate R]. clear R.
  destruct (C70_s_rot_partial ex_ord ex_ordp (args 3 4) rot34 rot34 rot34s rot34s "D1" (world_of rot34) w' c ex_ord_perm ex_ordp_perm E0 (an_refl _ _) E1 (an_refl _ _) W E)
    as (anc & data & nd & q0 & x0 & _ & _ & En & _ & _ & I0 & _ & K).
  destruct (K x0 I0) as (new & Ex & C). rewrite eqb_refl in C.
  exists ex_ord, ex_ordp, (args 3 4), rot34, rot34s, "D1", (world_of rot34), w', c, nd, x0, new.
  do 8 (split; [first [exact ex_ord_perm|exact ex_ordp_perm|assumption]|]). intros C0. pose proof (becomes_sign _ _ _ _ _ _ _ _ _ W C C0) as N. discriminate N.
Qed.
Print Assumptions C70_s_rot_refuted.
(* the hypotheses are those of C46-C48; the generators X1 and Z1 of the S gate *)
Example C70_case :
  rot_surface_code_rectangle (args 3 4) = Ok rot34 /\ set_trans_s_rot rot34 "D1" = Ok rot34s /\
  runs (log_trans_s ex_ord ex_ordp rot34s) rot34 = true /\
  (do d <- new_stab_dict unrot33s "trans-s_L0"; Ok (map (fun x => dget x d) ["X1"; "Z1"])) = Ok [Some ["X1"; "Z1"]; Some ["Z1"]] /\
  prod_phase (css unrot33) ["X1"; "Z1"] = 0 /\ prod_phase (css unrot33) ["Z1"; "X1"] = 4 /\
  sback [G1 GS 0; G2 GCZ 0 1] (0, Pauli (fun q => eqb q 0) (fun _ => false)) <> None.
Proof.
  split; [vm_compute; reflexivity|]. split; [vm_compute; reflexivity|]. split; [vm_compute; reflexivity|]. split; [vm_compute; reflexivity|].
  split; [vm_compute; reflexivity|]. split; [vm_compute; reflexivity|]. intro E; vm_compute in E; discriminate E.
Qed.
