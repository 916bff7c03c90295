(** Repeated CNOT experiments (C68, C69). Vocabulary in SpecExp, SpecLog and SpecCnot.
    [ordt] and [ordp] are the orders in which Python iterates sets in the blocks; [fuse] and
    [show] stand for two facts about stim, see MergeM. *)
From Coq Require Import QArith Qcanon.
From Verif Require Import Base Lib StimM SetupM NoiseM SpecNoise LayoutM GenM DetM BlockM LogM ExpM MergeM SpecGen SpecTrack SpecLog SpecExp SpecMerge SpecDet SpecCnot DetP MergeP6 CnotP11 CnotP12
  Props_Noise Props_Gen Props_Round Props_Exp Props_Merge Props_Log Props_Rep.
Open Scope Z_scope.

(** C68 A repeated CNOT experiment on any layouts, in any frame, with or without gauge detectors.
    The order: initialization of both layouts and one merged round, num_gates times the gate
    and its merged rounds, the merged measurement. "alternating" exchanges the layouts for
    gates 1, 2, 5, 6, 9, ..., their rounds, and the measurement if the last gate was one of them. *)
Lemma init_part_eq l di dc : init_part l di = Ok dc -> dc = filter (fun kv => mem (fst kv) (dkeys (l_nodes l))) di.
Proof. unfold init_part, get_qubits. cbn [bind]. now intros [= <-]. Qed.
Theorem C68_sequence fuse show ordt ordp it lc lt n R di ori rot reset dets gauge w w' c : (forall t k s, Permutation (ordt t k s) s) ->
  repeated_cnot_with fuse show ordt ordp it lc lt n R di ori rot reset dets gauge w = (w', Ok c) ->
  let exchange b := exchanged_if (eqb ori "alternating" && b) lc lt in
  let round w1 x y ds w2 r := exists o, merge_qec_rounds fuse (fun p => it (ordt (o + p)%nat)) [x; y] reset (Some ds) w1 = (w2, Ok r) in
  let values l d := forall q v, In (q, v) d <-> In (q, v) di /\ In q (dkeys (l_nodes l)) in
  exists dd coords ic it_ init first parts last,
    c = coords ++ init ++ first ++ concat (map (fun p => fst p ++ concat (snd p)) parts) ++ last /\
    (match dets with Some d => dd = d | None => exists a b, get_role lc "anc" = Ok a /\ get_role lt "anc" = Ok b /\ dd = a ++ b end) /\
    (ori = "constant" \/ ori = "alternating") /\ Z.of_nat (length parts) = n /\
    (exists dc dt w1 w2 w3 o o', values lc dc /\ values lt dt /\ exp_start [lc; lt] w = (w1, Ok coords) /\
      init_qubits (ordt o) lc dc rot w1 = (w2, Ok ic) /\ init_qubits (ordt o') lt dt rot w2 = (w3, Ok it_) /\ merge_circuits show true [ic; it_] = Ok init /\
      exists ds w4, round w3 lc lt ds w4 first /\
        if gauge then ds = dd else exists s s', get_stabs lc (if rot then "x_type" else "z_type") = Ok s /\ get_stabs lt (if rot then "x_type" else "z_type") = Ok s' /\
          forall a, In a ds <-> In a dd /\ (In a s \/ In a s')) /\
    (forall k g rs, nth_error parts k = Some (g, rs) -> let (x, y) := exchange (Nat.eqb (k mod 4) 1 || Nat.eqb (k mod 4) 2) in
      (exists o w1 w2, log_trans_cnot (ordt o) (ordp o) x y w1 = (w2, Ok g)) /\ Z.of_nat (length rs) = R /\ forall r, In r rs -> exists w1 w2, round w1 x y dd w2 r) /\
    (let (x, y) := exchange (Nat.leb 2 (Z.to_nat n mod 4)) in
      exists w1, merge_log_meas fuse (fun _ => log_meas_blocks) [x; y] [rot; rot] reset (Some dd) w1 = (w', Ok last)).
Proof.
  intros Hp H. cbv zeta.
  destruct (cnot_sequence fuse show ordt ordp it lc lt n R di ori rot reset dets gauge w w' c Hp H) as (dd & coords & ic & it_ & init & first & parts & last & E1 & E2 & E3 & E4 & E5 & E6 & E7).
  exists dd, coords, ic, it_, init, first, parts, last. split; [exact E1|]. split; [exact E2|]. split; [exact E3|]. split; [exact E4|]. split; [|split; [|exact E7]].
  - destruct E5 as (dc & dt & w1 & w2 & w3 & o & o' & K1 & K2 & K3 & K4 & K5 & K6 & ds & o2 & w4 & K7 & K8).
    assert (V : forall l d, init_part l di = Ok d -> forall q v, In (q, v) d <-> In (q, v) di /\ In q (dkeys (l_nodes l))).
    { intros l d E q v. rewrite (init_part_eq _ _ _ E), filter_In, mem_In. reflexivity. }
    exists dc, dt, w1, w2, w3, o, o'. split; [now apply V|]. split; [now apply V|]. do 4 (split; [assumption|]). exists ds, w4. split; [eauto|exact K7].
  - intros k g rs Hk. pose proof (E6 k g rs Hk) as K. match goal with |- let (_, _) := ?P in _ => change (let (x, y) := P in (exists o w1 w2, log_trans_cnot (ordt o) (ordp o) x y w1 = (w2, Ok g)) /\ Z.of_nat (length rs) = R /\ forall r, In r rs -> merged_round fuse ordt it dd reset [x; y] r) in K; destruct P as [x y] end. destruct K as (K1 & K2 & K3). split; [exact K1|]. split; [exact K2|].
    intros r Hr. destruct (K3 r Hr) as (o & w1 & w2 & K). eauto.
Qed.
Print Assumptions C68_sequence.
(* One detector per ancilla and round, one per stabilizer of the basis in both layouts, one
   observable per logical qubit. *)
Theorem C68_counts fuse show ordt ordp it lc lt n R di ori rot reset dets gauge w w' c a b : (forall t k s, Permutation (ordt t k s) s) ->
  wf_inds (inds (fst w)) -> NoDup (labels (snd w)) -> get_role lc "anc" = Ok a -> get_role lt "anc" = Ok b -> Permutation (labels (snd w)) (a ++ b) ->
  repeated_cnot_with fuse show ordt ordp it lc lt n R di ori rot reset dets gauge w = (w', Ok c) ->
  exists s s', get_stabs lc (if rot then "x_type" else "z_type") = Ok s /\ get_stabs lt (if rot then "x_type" else "z_type") = Ok s' /\
    number DETECTOR c = (S (Z.to_nat n * Z.to_nat R) * length (a ++ b) + length s + length s')%nat /\
    number OBSERVABLE_INCLUDE c = (length (l_logs lc) + length (l_logs lt))%nat.
Proof. intros Hp W N Ea Eb P H. exact (cnot_counts fuse show ordt ordp it lc lt n R di ori rot reset dets gauge w w' c Hp H a b W N Ea Eb P). Qed.
Print Assumptions C68_counts.
(* The merged round and the merged measurement of any number of layouts. *)
Theorem C68_round_counts fuse it ls reset dets w w' c : wf_det (snd w) -> merge_qec_rounds fuse it ls reset dets w = (w', Ok c) ->
  number DETECTOR c = length (labels (snd w)) /\ number OBSERVABLE_INCLUDE c = 0%nat.
Proof. intros W H. destruct (merged_round_counts fuse it ls reset dets w w' c W H) as (A & B & _). auto. Qed.
Print Assumptions C68_round_counts.
Definition ex_rep_cnot0 (n R : Z) (ori : string) (rot reset gauge : bool) (w : world) :=
  repeated_cnot_rot_css true (fun x => x) (fun _ => ex_ord) (fun _ => ex_ordp) (fst ex_both) (snd ex_both) n R [("D1", 1); ("D2", 0); ("D3", 0); ("D4", 0); ("D101", 0); ("D102", 1); ("D103", 0); ("D104", 0)] ori rot reset None gauge w.
Lemma ex_det_wf : wf_det (snd (ex_world Circ ex_setup ex_layouts)).
Proof.
  unfold ex_world. cbn [snd]. match goal with |- context [det_init ?a ?f ?g] => destruct (det_init a f g) as [d|e] eqn:E end; [|vm_compute in E; discriminate E].
  match goal with |- context [activate ?a d] => destruct (activate a d) as [d' r] eqn:E' end.
  exact (proj1 (keeps_activate _ _ _ _ E' (proj1 (det_init_wf _ _ _ _ E)))).
Qed.
Example C68_case : (let w := ex_world Circ ex_setup ex_layouts in wf_inds (inds (fst w)) /\ NoDup (labels (snd w)) /\ wf_det (snd w) /\
  get_role (fst ex_both) "anc" = Ok ["X1"; "X2"; "Z1"] /\ get_role (snd ex_both) "anc" = Ok ["X101"; "X102"; "Z101"] /\ labels (snd w) = ["X1"; "X2"; "Z1"; "X101"; "X102"; "Z101"] /\
  number DETECTOR (out_of (ex_rep_cnot0 2 3 "alternating" false true true w)) = 44%nat /\
  number OBSERVABLE_INCLUDE (out_of (ex_rep_cnot0 2 3 "alternating" false true true w)) = 2%nat).
Proof.
  cbv zeta. split; [apply ex_wf|]. split; [nodup|]. split; [exact ex_det_wf|].
  split; [vm_compute; reflexivity|]. split; [vm_compute; reflexivity|]. split; [vm_compute; reflexivity|]. split; vm_compute; reflexivity.
Qed.

(** C69 Without gauge detectors, and in a frame that follows the gates, every detector and
    both observables are deterministic, if the noise parameters are the same for all qubits. *)
Theorem C69_rot_partial fuse show ordt ordp a a' lc0 lt0 lc lt n R di ori rot reset dets w w' c :
  (forall t k s, Permutation (ordt t k s) s) -> (forall t k s, Permutation (ordp t k s) s) ->
  rot_surface_code_rectangle a = Ok lc0 -> rot_surface_code_rectangle a' = Ok lt0 ->
  1 <= ga_dx a -> 2 <= ga_dz a -> 1 <= ga_dx a' -> 2 <= ga_dz a' ->
  cnot_set set_trans_cnot_rot (cnot_gate a a') lc0 lt0 lc lt ->
  (ori = "constant" \/ cnot_set set_trans_cnot_rot (cnot_gate a' a) lt0 lc0 lt lc) ->
  wf_inds (inds (fst w)) -> uniform (stp (fst w)) -> NoDup (labels (snd w)) -> dfr (snd w) <> GateIndep ->
  repeated_cnot_rot_css fuse show ordt ordp lc lt n R di ori rot reset dets false w = (w', Ok c) -> all_deterministic c.
Proof. intros Hp Hpp G G' X Z X' Z' S O W U N F H. exact (C69_rot_lemma fuse show ordt ordp Hp Hpp a a' lc0 lt0 lc lt n R di ori rot reset dets w w' c W U N F X Z X' Z' G G' S O H). Qed.
Print Assumptions C69_rot_partial.
Theorem C69_unrot_partial fuse show ordt ordp a a' lc0 lt0 lc lt n R di ori rot reset dets w w' c :
  (forall t k s, Permutation (ordt t k s) s) -> (forall t k s, Permutation (ordp t k s) s) ->
  unrot_surface_code_rectangle a = Ok lc0 -> unrot_surface_code_rectangle a' = Ok lt0 ->
  1 <= ga_dx a -> 2 <= ga_dz a -> 1 <= ga_dx a' -> 2 <= ga_dz a' ->
  cnot_set set_trans_cnot_unrot (cnot_gate a a') lc0 lt0 lc lt ->
  (ori = "constant" \/ cnot_set set_trans_cnot_unrot (cnot_gate a' a) lt0 lc0 lt lc) ->
  wf_inds (inds (fst w)) -> uniform (stp (fst w)) -> NoDup (labels (snd w)) -> dfr (snd w) <> GateIndep ->
  repeated_cnot_unrot_css fuse show ordt ordp lc lt n R di ori rot reset dets false w = (w', Ok c) -> all_deterministic c.
Proof. intros Hp Hpp G G' X Z X' Z' S O W U N F H. exact (C69_unrot_lemma fuse show ordt ordp Hp Hpp a a' lc0 lt0 lc lt n R di ori rot reset dets w w' c W U N F X Z X' Z' G G' S O H). Qed.
Print Assumptions C69_unrot_partial.
(* a case: two codes of distance 2, with the attributes for both directions *)
Lemma set_params_annotated keep g value qs : ~ In g keep -> forall l l', set_params g value qs l = Ok l' -> annotated keep l l'.
Proof.
  intros Hg. induction qs as [|q qs IH]; intros l l' H; cbn [set_params foldM] in H; [injection H as <-; apply an_refl|].
  apply bind_ok in H as (l1 & H1 & H). apply bind_ok in H1 as (v & _ & H1). eapply an_step; [exact Hg|exact H1|]. apply IH. exact H.
Qed.
Lemma annotated_trans keep l l' l'' : annotated keep l l' -> annotated keep l' l'' -> annotated keep l l''.
Proof. induction 1 as [|? ? ? ? ? ? Hn E A IH]; intros B; [exact B|eapply an_step; eauto]. Qed.
Lemma set_trans_annotated keep code monos lc lt lc1 lt1 g : cnot_label lc lt = Ok g -> ~ In g keep -> set_trans_cnot code monos lc lt = Ok (lc1, lt1) ->
  annotated keep lc lc1 /\ annotated keep lt lt1.
Proof.
  unfold set_trans_cnot. intros E Hg H. destruct (_ || _); [discriminate|]. destruct (_ || _); [discriminate|]. rewrite E in H.
  apply bind_ok in H as (u & _ & H). cbn [bind] in H. destruct (Nat.eqb _ _); [discriminate|].
  apply bind_ok in H as (o & _ & H). apply bind_ok in H as (m & _ & H). apply bind_ok in H as (dc & _ & H). apply bind_ok in H as (dt & _ & H).
  apply bind_ok in H as (l1 & A1 & H). apply bind_ok in H as (l2 & A2 & H).
  do 4 (apply bind_ok in H as (? & _ & H)). do 4 (apply bind_ok in H as (? & _ & H)). do 2 (apply bind_ok in H as (? & _ & H)).
  apply bind_ok in H as (l3 & A3 & H). apply bind_ok in H as (l4 & A4 & H). injection H as <- <-.
  split; eapply annotated_trans; eapply set_params_annotated; eauto.
Qed.
(* both directions, one after the other *)
Lemma both_set code set monos monos' a a' lc0 lt0 lc1 lt1 lc2 lt2 : (forall m l l', set m l l' = set_trans_cnot code m l l') ->
  cnot_label lc0 lt0 = Ok (cnot_gate a a') -> cnot_label lt1 lc1 = Ok (cnot_gate a' a) -> cnot_gate a a' <> cnot_gate a' a ->
  ~ In (cnot_gate a a') structure -> ~ In (cnot_gate a' a) structure -> Forall (monomorphism lc0 lt0) monos -> Forall (monomorphism lt1 lc1) monos' ->
  set monos lc0 lt0 = Ok (lc1, lt1) -> set monos' lt1 lc1 = Ok (lt2, lc2) ->
  cnot_set set (cnot_gate a a') lc0 lt0 lc2 lt2 /\ cnot_set set (cnot_gate a' a) lt0 lc0 lt2 lc2.
Proof.
  intros Hs E E' Hg N N' M M' S S'. pose proof S as S1. pose proof S' as S2. rewrite Hs in S1, S2.
  destruct (set_trans_annotated structure _ _ _ _ _ _ _ E N S1) as [A1 A2].
  assert (N2 : ~ In (cnot_gate a' a) (cnot_gate a a' :: structure)) by (intros [K|K]; [exact (Hg K)|exact (N' K)]).
  destruct (set_trans_annotated _ _ _ _ _ _ _ _ E' N2 S2) as [B1 B2]. split.
  - exists monos, lc0, lt0, lc1, lt1. repeat (split; [solve [apply an_refl|assumption]|]). assumption.
  - exists monos', lt1, lc1, lt2, lc2. repeat (split; [solve [apply an_refl|assumption]|]). apply an_refl.
Qed.
Definition unrot22 : layout := match unrot_surface_code_rectangle (args 2 2) with Ok l => l | Err _ => no_layout end.
Definition unrot22' : layout := match unrot_surface_code_rectangle (args2 2 2) with Ok l => l | Err _ => no_layout end.
Definition ex_cnotu : layout * layout :=
  match set_trans_cnot_unrot [translation unrot22 unrot22'] unrot22 unrot22' with Ok p => p | Err _ => (no_layout, no_layout) end.
Definition ex_bothu : layout * layout :=
  match set_trans_cnot_unrot [translation unrot22' unrot22] (snd ex_cnotu) (fst ex_cnotu) with Ok p => (snd p, fst p) | Err _ => (no_layout, no_layout) end.
Definition world2 (f : string) (s : setup) (ls : list layout) : world :=
  let qs := flat_map (fun l => map fst (l_nodes l)) ls in
  let ancs := flat_map (fun l => match get_role l "anc" with Ok a => a | Err _ => [] end) ls in
  (new_circuit (model_init Circ s (combine qs (range (Z.of_nat (length qs))))),
   match det_init ancs f None with
   | Ok d => fst (activate ancs d)
   | Err _ => Build_detectors [] PostGate [] [] [] [] [] 0
   end).
Definition ex_init (l l' : layout) : dict string Z :=
  map (fun q => (q, 0)) (flat_map (fun l => match get_role l "data" with Ok a => a | Err _ => [] end) [l; l']).
Definition ex_rep_cnot (n R : Z) (ori : string) (rot reset : bool) (w : world) :=
  repeated_cnot_rot_css true (fun x => x) (fun _ => ex_ord) (fun _ => ex_ordp) (fst ex_both) (snd ex_both) n R (ex_init rot22 rot22') ori rot reset None false w.
Definition ex_rep_cnotu (n R : Z) (ori : string) (rot reset : bool) (w : world) :=
  repeated_cnot_unrot_css true (fun x => x) (fun _ => ex_ord) (fun _ => ex_ordp) (fst ex_bothu) (snd ex_bothu) n R (ex_init unrot22 unrot22') ori rot reset None false w.
Definition ex_dets (r : world * res circuit) : option (nat * nat) := match snd r with Ok c => Some (number DETECTOR c, number OBSERVABLE_INCLUDE c) | _ => None end.
Ltac no_eq := let E := fresh in intro E; vm_compute in E; discriminate E.
Ltac not_in := let E := fresh in intro E; vm_compute in E; intuition discriminate.
Example C69_case :
  rot_surface_code_rectangle (args 2 2) = Ok rot22 /\ rot_surface_code_rectangle (args2 2 2) = Ok rot22' /\
  (cnot_set set_trans_cnot_rot (cnot_gate (args 2 2) (args2 2 2)) rot22 rot22' (fst ex_both) (snd ex_both) /\
   cnot_set set_trans_cnot_rot (cnot_gate (args2 2 2) (args 2 2)) rot22' rot22 (snd ex_both) (fst ex_both)) /\
  unrot_surface_code_rectangle (args 2 2) = Ok unrot22 /\ unrot_surface_code_rectangle (args2 2 2) = Ok unrot22' /\
  (cnot_set set_trans_cnot_unrot (cnot_gate (args 2 2) (args2 2 2)) unrot22 unrot22' (fst ex_bothu) (snd ex_bothu) /\
   cnot_set set_trans_cnot_unrot (cnot_gate (args2 2 2) (args 2 2)) unrot22' unrot22 (snd ex_bothu) (fst ex_bothu)) /\
  (let w := world2 "post-gate" ex_setup [rot22; rot22'] in wf_inds (inds (fst w)) /\ uniform (stp (fst w)) /\ NoDup (labels (snd w)) /\ dfr (snd w) <> GateIndep /\
   ex_dets (ex_rep_cnot 3 2 "alternating" true false w) = Some (46, 2)%nat) /\
  (let w := world2 "pre-gate" ex_setup [unrot22; unrot22'] in wf_inds (inds (fst w)) /\ uniform (stp (fst w)) /\ NoDup (labels (snd w)) /\ dfr (snd w) <> GateIndep /\
   ex_dets (ex_rep_cnotu 2 1 "constant" false true w) = Some (28, 2)%nat).
Proof.
  split; [vm_compute; reflexivity|]. split; [vm_compute; reflexivity|]. split.
  { apply (both_set "rotated_surface_code" _ [translation rot22 rot22'] [translation rot22' rot22] _ _ _ _ (fst ex_cnot) (snd ex_cnot)).
    - intros. reflexivity.
    - vm_compute. reflexivity.
    - vm_compute. reflexivity.
    - no_eq.
    - not_in.
    - not_in.
    - constructor; [|constructor]. apply is_mono_ok. vm_compute. reflexivity.
    - constructor; [|constructor]. apply is_mono_ok. vm_compute. reflexivity.
    - vm_compute. reflexivity.
    - vm_compute. reflexivity. }
  split; [vm_compute; reflexivity|]. split; [vm_compute; reflexivity|]. split.
  { apply (both_set "unrotated_surface_code" _ [translation unrot22 unrot22'] [translation unrot22' unrot22] _ _ _ _ (fst ex_cnotu) (snd ex_cnotu)).
    - intros. reflexivity.
    - vm_compute. reflexivity.
    - vm_compute. reflexivity.
    - no_eq.
    - not_in.
    - not_in.
    - constructor; [|constructor]. apply is_mono_ok. vm_compute. reflexivity.
    - constructor; [|constructor]. apply is_mono_ok. vm_compute. reflexivity.
    - vm_compute. reflexivity.
    - vm_compute. reflexivity. }
  split; cbv zeta.
  - split; [apply wf_test; vm_compute; reflexivity|]. split; [apply uniform_global; vm_compute; reflexivity|]. split; [nodup|]. split; [no_eq|]. vm_compute. reflexivity.
  - split; [apply wf_test; vm_compute; reflexivity|]. split; [apply uniform_global; vm_compute; reflexivity|]. split; [nodup|]. split; [no_eq|]. vm_compute. reflexivity.
Qed.
(* The restrictions are needed. In the gate-independent frame a gate leaves random
   detectors; with a readout error of its own for one ancilla of each code the detectors of
   the merged rounds name wrong outcomes (C44), here already without a gate. *)
Definition ex_bad (n : Z) (w : world) := ex_rep_cnot n 1 "constant" false true w.
Theorem C69_gate_independent_refuted : exists a a' lc0 lt0 lc lt n R di rot reset dets w w' c,
  rot_surface_code_rectangle a = Ok lc0 /\ rot_surface_code_rectangle a' = Ok lt0 /\ cnot_set set_trans_cnot_rot (cnot_gate a a') lc0 lt0 lc lt /\
  wf_inds (inds (fst w)) /\ uniform (stp (fst w)) /\ NoDup (labels (snd w)) /\ dfr (snd w) = GateIndep /\
  repeated_cnot_rot_css true (fun x => x) (fun _ => ex_ord) (fun _ => ex_ordp) lc lt n R di "constant" rot reset dets false w = (w', Ok c) /\ ~ all_deterministic c.
Proof.
  pose (w := world2 "gate-independent" ex_setup [rot22; rot22']). destruct C69_case as (G & G' & [S _] & _).
  exists (args 2 2), (args2 2 2), rot22, rot22', (fst ex_both), (snd ex_both), 1, 1, (ex_init rot22 rot22'), false, true, None, w, (fst (ex_bad 1 w)), (out_of (ex_bad 1 w)).
  split; [exact G|]. split; [exact G'|]. split; [exact S|]. clear. subst w.
  split; [apply wf_test; vm_compute; reflexivity|]. split; [apply uniform_global; vm_compute; reflexivity|]. split; [nodup|].
  split; [vm_compute; reflexivity|]. split; [vm_compute; reflexivity|]. apply (not_deterministic _ 120 0). vm_compute. reflexivity.
Qed.
Print Assumptions C69_gate_independent_refuted.
Theorem C69_per_qubit_refuted : exists a a' lc0 lt0 lc lt n R di rot reset dets w w' c,
  rot_surface_code_rectangle a = Ok lc0 /\ rot_surface_code_rectangle a' = Ok lt0 /\ cnot_set set_trans_cnot_rot (cnot_gate a a') lc0 lt0 lc lt /\
  wf_inds (inds (fst w)) /\ NoDup (labels (snd w)) /\ dfr (snd w) <> GateIndep /\
  repeated_cnot_rot_css true (fun x => x) (fun _ => ex_ord) (fun _ => ex_ordp) lc lt n R di "constant" rot reset dets false w = (w', Ok c) /\ ~ all_deterministic c.
Proof.
  pose (w := world2 "post-gate" per_qubit [rot22; rot22']). destruct C69_case as (G & G' & [S _] & _).
  exists (args 2 2), (args2 2 2), rot22, rot22', (fst ex_both), (snd ex_both), 0, 1, (ex_init rot22 rot22'), false, true, None, w, (fst (ex_bad 0 w)), (out_of (ex_bad 0 w)).
  split; [exact G|]. split; [exact G'|]. split; [exact S|]. clear. subst w.
  split; [apply wf_test; vm_compute; reflexivity|]. split; [nodup|].
  split; [no_eq|]. split; [vm_compute; reflexivity|]. apply (not_deterministic _ 67 0). vm_compute. reflexivity.
Qed.
Print Assumptions C69_per_qubit_refuted.
