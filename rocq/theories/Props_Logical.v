(** Action of the transversal gates on the logical operators (C72). Vocabulary in SpecSign,
    SpecSpan and SpecLogical: [becomes qi c k xs zs k' xs' zs'] says that the operator
    i^k X^xs Z^zs before the circuit is the operator i^k' X^xs' Z^zs' after it. [ord], [ordp]
    and [monos] as in Props_Log. *)
From Coq Require Import QArith Qcanon.
From Verif Require Import Base Lib StimM SetupM NoiseM SpecNoise LayoutM GenM DetM BlockM MergeM LogM SpecGen SpecTrack SpecMerge SpecLog SpecSign SpecSpan SpecLogical LogicalP
  Props_Noise Props_Gen Props_Round Props_Merge Props_Log.
Open Scope Z_scope.

(** C72 CNOT: X of the control spreads to the target, Z of the target to the control, and
    the other two stay. *)
Theorem C72_cnot_rot ord ordp a a' lc0 lc lc1 lc2 lt0 lt lt1 lt2 monos w w' c : (forall k s, Permutation (ordp k s) s) ->
  let gate := ("trans-cnot_" ++ ga_log a ++ "_" ++ ga_log a')%string in let qi := inds (fst w) in
  rot_surface_code_rectangle a = Ok lc0 -> rot_surface_code_rectangle a' = Ok lt0 -> 1 <= ga_dx a -> 1 <= ga_dz a ->
  annotated structure lc0 lc -> annotated structure lt0 lt -> Forall (monomorphism lc lt) monos ->
  set_trans_cnot_rot monos lc lt = Ok (lc1, lt1) ->
  annotated (gate :: structure) lc1 lc2 -> annotated (gate :: structure) lt1 lt2 ->
  wf_inds qi -> log_trans_cnot ord ordp lc2 lt2 w = (w', Ok c) ->
  exists xc zc lxc lzc xt zt lxt lzt, operators lc0 (ga_log a) xc zc lxc lzc /\ operators lt0 (ga_log a') xt zt lxt lzt /\
    becomes qi c 0 (on lxc) nothing 0 (times (on lxc) (on lxt)) nothing /\
    becomes qi c 0 nothing (on lzc) 0 nothing (on lzc) /\
    becomes qi c 0 (on lxt) nothing 0 (on lxt) nothing /\
    becomes qi c 0 nothing (on lzt) 0 nothing (times (on lzc) (on lzt)).
Proof. intros Hp gate qi G G' D1 D2 A A' M S B B' W H. exact (C72_cnot_rot_lemma ord ordp Hp a a' lc0 lc lc1 lc2 lt0 lt lt1 lt2 monos w w' c A A' M B B' W H G G' D1 D2 S). Qed.
Print Assumptions C72_cnot_rot.
Theorem C72_cnot_unrot ord ordp a a' lc0 lc lc1 lc2 lt0 lt lt1 lt2 monos w w' c : (forall k s, Permutation (ordp k s) s) ->
  let gate := ("trans-cnot_" ++ ga_log a ++ "_" ++ ga_log a')%string in let qi := inds (fst w) in
  unrot_surface_code_rectangle a = Ok lc0 -> unrot_surface_code_rectangle a' = Ok lt0 -> 1 <= ga_dx a -> 1 <= ga_dz a ->
  annotated structure lc0 lc -> annotated structure lt0 lt -> Forall (monomorphism lc lt) monos ->
  set_trans_cnot_unrot monos lc lt = Ok (lc1, lt1) ->
  annotated (gate :: structure) lc1 lc2 -> annotated (gate :: structure) lt1 lt2 ->
  wf_inds qi -> log_trans_cnot ord ordp lc2 lt2 w = (w', Ok c) ->
  exists xc zc lxc lzc xt zt lxt lzt, operators lc0 (ga_log a) xc zc lxc lzc /\ operators lt0 (ga_log a') xt zt lxt lzt /\
    becomes qi c 0 (on lxc) nothing 0 (times (on lxc) (on lxt)) nothing /\
    becomes qi c 0 nothing (on lzc) 0 nothing (on lzc) /\
    becomes qi c 0 (on lxt) nothing 0 (on lxt) nothing /\
    becomes qi c 0 nothing (on lzt) 0 nothing (times (on lzc) (on lzt)).
Proof. intros Hp gate qi G G' D1 D2 A A' M S B B' W H. exact (C72_cnot_unrot_lemma ord ordp Hp a a' lc0 lc lc1 lc2 lt0 lt lt1 lt2 monos w w' c A A' M B B' W H G G' D1 D2 S). Qed.
Print Assumptions C72_cnot_unrot.
(** C72 S: Z stays and X becomes Y = i X Z; exactly in the rotated code, up to a product of
    Z-type generators in the unrotated one. *)
Theorem C72_s_rot ord ordp a l0 l l1 l2 dq w w' c : (forall k s, Permutation (ord k s) s) -> (forall k s, Permutation (ordp k s) s) ->
  let gate := ("trans-s_" ++ ga_log a)%string in let qi := inds (fst w) in
  rot_surface_code_rectangle a = Ok l0 -> annotated structure l0 l -> set_trans_s_rot l dq = Ok l1 -> annotated (gate :: structure) l1 l2 ->
  wf_inds qi -> log_trans_s ord ordp l2 w = (w', Ok c) ->
  exists xs zs lx lz, operators l0 (ga_log a) xs zs lx lz /\
    becomes qi c 0 nothing (on lz) 0 nothing (on lz) /\
    becomes qi c 0 (on lx) nothing 1 (on lx) (on lz).
Proof. intros Ho Hp gate qi G A S B W H. exact (C72_s_rot_lemma ord ordp Ho Hp a l0 l l1 l2 dq w w' c A W G S B H). Qed.
Print Assumptions C72_s_rot.
Theorem C72_s_unrot ord ordp a l0 l l1 l2 dq w w' c : (forall k s, Permutation (ord k s) s) -> (forall k s, Permutation (ordp k s) s) ->
  let gate := ("trans-s_" ++ ga_log a)%string in let qi := inds (fst w) in
  unrot_surface_code_rectangle a = Ok l0 -> annotated structure l0 l -> set_trans_s_unrot l dq = Ok l1 -> annotated (gate :: structure) l1 l2 ->
  wf_inds qi -> log_trans_s ord ordp l2 w = (w', Ok c) ->
  exists xs zs lx lz gens, operators l0 (ga_log a) xs zs lx lz /\ some_of gens zs /\
    becomes qi c 0 nothing (on lz) 0 nothing (on lz) /\
    becomes qi c 0 (on lx) nothing 1 (on lx) (times (on lz) (product l0 gens)).
Proof. intros Ho Hp gate qi G A S B W H. exact (C72_s_unrot_lemma ord ordp Ho Hp a l0 l l1 l2 dq w w' c A W G S B H). Qed.
Print Assumptions C72_s_unrot.
(** C72 H: X and Z are exchanged, up to products of generators. *)
Theorem C72_h_unrot ord ordp a l0 l l1 l2 dq w w' c : (forall k s, Permutation (ord k s) s) -> (forall k s, Permutation (ordp k s) s) ->
  let gate := ("trans-h_" ++ ga_log a)%string in let qi := inds (fst w) in
  unrot_surface_code_rectangle a = Ok l0 -> annotated structure l0 l -> set_trans_h l dq = Ok l1 -> annotated (gate :: structure) l1 l2 ->
  wf_inds qi -> log_trans_h ord ordp l2 w = (w', Ok c) ->
  exists xs zs lx lz gz gx, operators l0 (ga_log a) xs zs lx lz /\ some_of gz zs /\ some_of gx xs /\
    becomes qi c 0 (on lx) nothing 0 nothing (times (on lz) (product l0 gz)) /\
    becomes qi c 0 nothing (on lz) 0 (times (on lx) (product l0 gx)) nothing.
Proof. intros Ho Hp gate qi G A S B W H. exact (C72_h_lemma ord ordp Ho Hp a l0 l l1 l2 dq w w' c A W G S B H). Qed.
Print Assumptions C72_h_unrot.
(* the hypotheses are those of C46-C48. The S gate of the 3x4 rotated code: log_x is the
   first column, log_z the first row, and X on the column becomes Y on the corner, X on the
   rest of the column and Z on the rest of the row. With the reflection corner D3 of the
   unrotated code log_z comes back as the last row. *)
Example C72_case :
  rot_surface_code_rectangle (args 3 4) = Ok rot34 /\ set_trans_s_rot rot34 "D1" = Ok rot34s /\ wf_inds (inds (fst (world_of rot34))) /\
  runs (log_trans_s ex_ord ex_ordp rot34s) rot34 = true /\
  dget "L0" (l_logx rot34) = Some ["D1"; "D5"; "D9"] /\ dget "L0" (l_logz rot34) = Some ["D1"; "D2"; "D3"; "D4"] /\
  unrot_surface_code_rectangle (args 3 3) = Ok unrot33 /\ set_trans_h unrot33 "D3" = Ok unrot33h /\
  runs (log_trans_h ex_ord ex_ordp unrot33h) unrot33 = true /\
  forallb (fun q => Bool.eqb (on ["D11"; "D12"; "D13"] q) (times (on ["D1"; "D2"; "D3"]) (product unrot33 ["Z1"; "Z2"; "Z3"; "Z4"; "Z5"; "Z6"]) q)) (map fst (l_inds unrot33)) = true.
Proof.
  do 2 (split; [vm_compute; reflexivity|]). split; [apply wf_test; vm_compute; reflexivity|]. do 6 (split; [vm_compute; reflexivity|]). vm_compute; reflexivity.
Qed.
