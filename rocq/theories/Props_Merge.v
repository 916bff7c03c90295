(** Properties of merged circuits, QEC rounds and logical measurements (C42-C45, C63-C65).
    Vocabulary in SpecMerge. [fuse] and [show] stand for two facts about stim, see MergeM;
    the statements hold for both values of [fuse] and every [show]. *)
From Coq Require Import QArith Qcanon.
From Verif Require Import Base Lib StimM SetupM NoiseM SpecNoise LayoutM GenM DetM BlockM ExpM SpecGen SpecTrack SpecExp MergeM SpecMerge
  OneP MergeP MergeP3 MergeP4 MergeP5 MergeP6 MergeP7 Props_Noise Props_Gen Props_Round.
Open Scope Z_scope.

(* cases used below: two codes of distance 2 with different labels *)
Definition args2 (dx dz : Z) : gen_args :=
  {| ga_dx := dx; ga_dz := dz; ga_log := "L1"; ga_pt := (coord 1, coord 20); ga_data := 101; ga_zanc := 101; ga_xanc := 101; ga_ind := 107 |}.
Definition no_layout : layout := Build_layout (PStr "") "" [] 0 0 0 [] [] PNone [] [] [] [].
Definition rot22 : layout := match rot_surface_code_rectangle (args 2 2) with Ok l => l | Err _ => no_layout end.
Definition rot22' : layout := match rot_surface_code_rectangle (args2 2 2) with Ok l => l | Err _ => no_layout end.
Definition ex_world (k : mkind) (s : setup) (ls : list layout) : world :=
  let qs := flat_map (fun l => map fst (l_nodes l)) ls in
  let ancs := flat_map (fun l => match get_role l "anc" with Ok a => a | Err _ => [] end) ls in
  (new_circuit (model_init k s (combine qs (range (Z.of_nat (length qs))))),
   match det_init ancs "post-gate" None with
   | Ok d => fst (activate ancs d)
   | Err _ => Build_detectors [] PostGate [] [] [] [] [] 0
   end).
Definition ex_layouts : list layout := [rot22; rot22'].
Definition ex_round (k : mkind) (s : setup) := merge_qec_rounds true (fun _ => css_round ex_ord "rotated_surface_code") ex_layouts true None (ex_world k s ex_layouts).
Definition ex_meas (k : mkind) (s : setup) (ls : list layout) (rots : list bool) :=
  merge_log_meas true (fun _ => log_meas_blocks) ls rots true None (ex_world k s ls).
Definition ex_of (r : world * res circuit) : circuit := match snd r with Ok c => c | Err _ => [] end.
Lemma apart_two l l' : existsb (fun q => mem q (dkeys (l_nodes l'))) (dkeys (l_nodes l)) = false -> apart [l; l'].
Proof.
  intros E k k' a b q qs qs' H H' Hq Hq' I I'. injection Hq as <-. injection Hq' as <-.
  assert (N : forall q, In q (dkeys (l_nodes l)) -> In q (dkeys (l_nodes l')) -> False).
  { intros x X Y. enough (existsb (fun q => mem q (dkeys (l_nodes l'))) (dkeys (l_nodes l)) = true) by congruence. apply existsb_exists. exists x. split; [exact X|now apply mem_In]. }
  destruct k as [|[|[|k]]]; try discriminate; destruct k' as [|[|[|k']]]; try discriminate; try reflexivity; exfalso; cbn in H, H'; injection H as <-; injection H' as <-; eauto.
Qed.
Lemma ex_apart : apart ex_layouts.
Proof. apply apart_two. vm_compute. reflexivity. Qed.
Lemma wf_test (qi : dict string Z) : dedup (dkeys qi) = dkeys qi -> dedup (dvals qi) = dvals qi -> wf_inds qi.
Proof. intros H H'. split; [rewrite <- H|rewrite <- H']; apply TrackP.dedup_NoDup. Qed.
Lemma ex_wf k s : wf_inds (inds (fst (ex_world k s ex_layouts))).
Proof. apply wf_test; vm_compute; reflexivity. Qed.

(** C42 merge_circuits keeps every instruction in its TICK block. *)
Theorem C42_blocks show check cs c : Forall even_targets cs -> merge_circuits show check cs = Ok c ->
  (forall c', In c' cs -> number TICK c = number TICK c') /\
  forall k, Permutation (applications (at_tick k c)) (map (printed show) (flat_map (fun c' => applications (at_tick k c')) cs)).
Proof. exact (C42_lemma show check cs c). Qed.
Print Assumptions C42_blocks.
(* it raises exactly then; also for the empty list *)
Theorem C42_raises show check cs e : no_shift cs ->
  merge_circuits show check cs = Err e <->
  e = ValueError /\ (cs = [] \/ (exists c c', In c cs /\ In c' cs /\ number TICK c <> number TICK c') \/
    check = true /\ exists c c' k k', In c cs /\ In c' cs /\ measures_at c k /\ measures_at c' k' /\ k <> k').
Proof. exact (C42_raises_lemma show check cs e). Qed.
Print Assumptions C42_raises.
Definition ex_a : circuit := [Instr GH [TQ 0; TQ 1] []; Instr TICK [] []; Instr GM [TQ 0] []; Instr GI [TQ 1] []].
Definition ex_b : circuit := [Instr GCX [TQ 2; TQ 3] []; Instr TICK [] []; Instr GM [TQ 2] []; Instr GX [TQ 3] []].
Example C42_case : Forall even_targets [ex_a; ex_b] /\ no_shift [ex_a; ex_b] /\
  merge_circuits (fun x => x) true [ex_a; ex_b] =
  Ok [Instr GCX [TQ 2; TQ 3] []; Instr GH [TQ 0; TQ 1] []; Instr TICK [] []; Instr GI [TQ 1] []; Instr GM [TQ 0; TQ 2] []; Instr GX [TQ 3] []] /\
  merge_circuits (fun x => x) true [ex_a; tick ++ ex_b] = Err ValueError /\
  merge_circuits (fun x => x) true [ex_a ++ tick; tick ++ ex_b] = Err ValueError /\
  merge_circuits (fun x => x) false [ex_a ++ tick; tick ++ ex_b] <> Err ValueError.
Proof. split; [repeat constructor; discriminate|]. split; [repeat constructor; discriminate|]. vm_compute. repeat split; discriminate. Qed.

(** C43 The order of the operations on a qubit is kept in a block exactly if their names
    are in alphabetical order. *)
Theorem C43_order_partial show check l1 c0 l2 c q k : Forall even_targets (l1 ++ c0 :: l2) ->
  merge_circuits show check (l1 ++ c0 :: l2) = Ok c ->
  (forall c', In c' (l1 ++ l2) -> on_index q (applications (at_tick k c')) = []) ->
  on_index q (applications (at_tick k c)) = map (printed show) (on_index q (applications (at_tick k c0))) <->
  StronglySorted alphabetical (on_index q (applications (at_tick k c0))).
Proof. exact (C43_iff show check l1 c0 l2 c q k). Qed.
Print Assumptions C43_order_partial.
Example C43_case : (forall c', In c' [ex_b] -> on_index 0 (applications (at_tick 1 c')) = []) /\
  StronglySorted alphabetical (on_index 0 (applications (at_tick 1 ex_a))) /\ on_index 0 (applications (at_tick 1 ex_a)) = [(GM, [TQ 0], [])].
Proof. split; [intros c' [<-|[]]; reflexivity|]. split; [|reflexivity]. vm_compute. repeat constructor. Qed.
(* The operations of the noise models are not in this order: merging a measurement of the
   circuit noise model puts its error after it. *)
Definition on_both (a b : circuit) : Prop := exists q, on_index q (applications a) <> [] /\ on_index q (applications b) <> [].
Theorem C43_refuted : exists m o qs m' c0 c1 c q, apply o qs m = (m', Ok c0) /\ ~ on_both c0 c1 /\
  merge_circuits (fun x => x) true [c0; c1] = Ok c /\ on_index q (applications c) <> on_index q (applications c0) ++ on_index q (applications c1).
Proof.
  exists (ex_model Circ), OM, ["D1"]. do 2 eexists. exists [Instr GH [TQ 0] []]. eexists. exists 3.
  split; [vm_compute; reflexivity|]. split; [|split; [vm_compute; reflexivity|vm_compute; discriminate]].
  intros (q & H & H'). destruct (Z.eq_dec q 0) as [->|N]; [apply H; vm_compute; reflexivity|]. apply H'.
  assert (E : mem (TQ q) [TQ 0] = false) by (apply not_true_is_false; intros M; apply mem_In in M as [M|[]]; congruence).
  unfold on_index, applications. cbn [flat_map app uses nm tg ar not_fusable is_two map filter fst snd]. now rewrite E.
Qed.
Print Assumptions C43_refuted.

(** C63 The measurements of the merged circuit are those of the circuits, one circuit
    after the other, if all are of the same kind. *)
Theorem C63_record_partial show cs c g : no_shift cs -> merge_circuits show true cs = Ok c ->
  (forall c' i, In c' cs -> In i c' -> is_meas (nm i) = true -> nm i = g) ->
  measured c = flat_map measured cs.
Proof. exact (C63_lemma show cs c g). Qed.
Print Assumptions C63_record_partial.
Example C63_case : (forall c' i, In c' [ex_a; ex_b] -> In i c' -> is_meas (nm i) = true -> nm i = GM) /\
  flat_map measured [ex_a; ex_b] = [TQ 0; TQ 2].
Proof. split; [|reflexivity]. intros c' i [<-|[<-|[]]] I M; cbn in I; repeat (destruct I as [<-|I]; [try reflexivity; discriminate|]); contradiction. Qed.
(* otherwise the order changes, also of the measurements of one circuit *)
Theorem C63_refuted : exists cs c, no_shift cs /\ merge_circuits (fun x => x) true cs = Ok c /\ measured c <> flat_map measured cs.
Proof.
  exists [[Instr GMX [TQ 0] []; Instr GM [TQ 1] []]; [Instr GM [TQ 2] []]]. eexists. split; [repeat constructor; discriminate|]. split; [vm_compute; reflexivity|].
  vm_compute. discriminate.
Qed.
Print Assumptions C63_refuted.

(** C44 The record after operations, merged rounds and merged logical measurements, for
    parameters of single qubits that do not depend on the qubit: rec[-j] returned for
    (q, -k) is the k-th last measurement of q. The generators must be in lockstep; those
    of the library are if the merge succeeds, below. *)
Theorem C44_aligned_partial fuse m c q i k : past fuse m c -> uniform (stp m) -> dget q (inds m) = Some i ->
  1 <= k <= Z.of_nat (count (TQ i) (measured c)) ->
  exists j, meas_target m q (- k) = Ok (TR (- j)) /\ kth_last (measured c) (TQ i) k j.
Proof. exact (C44_lemma fuse m c q i k). Qed.
Print Assumptions C44_aligned_partial.
Theorem C44_rounds_in_lockstep fuse it ls reset dets w w' c :
  (forall k l, (exists ord code, it k l reset = css_round ord code l reset) \/ (exists ord, it k l reset = xzzx_round ord l reset)) ->
  merge_qec_rounds fuse it ls reset dets w = (w', Ok c) -> lockstep (map (fun kl => it (fst kl) (snd kl) reset) (enumerate ls)).
Proof. exact (lock_round fuse it ls reset dets w w' c). Qed.
Print Assumptions C44_rounds_in_lockstep.
Theorem C44_meas_in_lockstep fuse ls rot n reset dets w w' c :
  merge_log_meas fuse (fun _ => log_meas_blocks) ls (repeat rot n) reset dets w = (w', Ok c) ->
  lockstep (map (fun klr => log_meas_blocks (fst (snd klr)) (snd (snd klr))) (enumerate (combine ls (repeat rot n)))).
Proof. exact (lock_meas fuse ls rot n reset dets w w' c). Qed.
Print Assumptions C44_meas_in_lockstep.
Theorem C44_xzzx_meas_in_lockstep fuse ord ls rots reset dets w w' c :
  merge_log_meas fuse (fun k => log_meas_xzzx_blocks (ord k)) ls rots reset dets w = (w', Ok c) ->
  lockstep (map (fun klr => log_meas_xzzx_blocks (ord (fst klr)) (fst (snd klr)) (snd (snd klr))) (enumerate (combine ls rots))).
Proof. exact (lock_meas_xzzx fuse ord ls rots reset dets w w' c). Qed.
Print Assumptions C44_xzzx_meas_in_lockstep.
(* a round of the two codes, then their measurement *)
Definition ex_ok (r : world * res circuit) : bool := match snd r with Ok _ => true | Err _ => false end.
Definition ex_next (w : world) := merge_log_meas true (fun _ => log_meas_blocks) ex_layouts [true; true] true None w.
Lemma ex_past k s : ex_ok (ex_round k s) = true -> past true (fst (fst (ex_round k s))) (ex_of (ex_round k s)).
Proof.
  unfold ex_round. destruct (merge_qec_rounds _ _ _ _ _ _) as [w' [c|e]] eqn:E; [|discriminate]. intros _.
  apply (past_round true (ex_world k s ex_layouts) [] (fun _ => css_round ex_ord "rotated_surface_code") ex_layouts true None w' c); [| |exact E].
  2: { apply (lock_round true (fun _ => css_round ex_ord "rotated_surface_code") ex_layouts true None (ex_world k s ex_layouts) w' c); [intros; left; eauto|exact E]. }
  apply (past_new true (model_init k s (inds (fst (ex_world k s ex_layouts))))). apply ex_wf.
Qed.
Lemma ex_past2 w c : past true (fst w) c -> ex_ok (ex_next w) = true -> past true (fst (fst (ex_next w))) (c ++ ex_of (ex_next w)).
Proof.
  unfold ex_next. destruct (merge_log_meas _ _ _ _ _ _ _) as [w' [c1|e]] eqn:E; [|discriminate]. intros P _.
  apply (past_meas true w c (fun _ => log_meas_blocks) ex_layouts [true; true] true None w' c1 P); [|exact E]. exact (lock_meas true ex_layouts true 2 true None w w' c1 E).
Qed.
Example C44_case : exists m c, past true m c /\ uniform (stp m) /\ dget "Z101" (inds m) = Some 13 /\ dget "D101" (inds m) = Some 7 /\
  count (TQ 13) (measured c) = 1%nat /\ meas_target m "Z101" (-1) = Ok (TR (-9)) /\
  count (TQ 7) (measured c) = 1%nat /\ meas_target m "D101" (-1) = Ok (TR (-4)).
Proof.
  exists (fst (fst (ex_next (fst (ex_round Circ ex_setup))))), (ex_of (ex_round Circ ex_setup) ++ ex_of (ex_next (fst (ex_round Circ ex_setup)))). split; [|split].
  - apply ex_past2; [apply ex_past|]; vm_compute; reflexivity.
  - apply uniform_global. vm_compute. reflexivity.
  - repeat (split; [vm_compute; reflexivity|]). vm_compute. reflexivity.
Qed.
(* With a readout error of its own for one ancilla of each code, the measurements of the
   codes are interleaved, but not in the model: the last outcome of X101 would be one of Z1. *)
Definition per_qubit : setup :=
  match setup_init {| r_name := VNone; r_desc := VNone; r_durations := None;
    r_params := Some [[("sq_error_prob", VNum (Q2Qc (1#100))); ("tq_error_prob", VNum (Q2Qc (1#100)));
                       ("assign_error_flag", VBool true); ("assign_error_prob", VNum (Q2Qc (1#100)))];
                      [("qubit", VStr "X1"); ("assign_error_prob", VNum (Q2Qc (2#100)))];
                      [("qubit", VStr "X101"); ("assign_error_prob", VNum (Q2Qc (2#100)))]] |} with
  | Ok s => s | Err _ => ex_setup end.
Theorem C44_refuted : exists m c q i j, past true m c /\ dget q (inds m) = Some i /\ count (TQ i) (measured c) = 1%nat /\
  meas_target m q (-1) = Ok (TR (- j)) /\ ~ kth_last (measured c) (TQ i) 1 j.
Proof.
  exists (fst (fst (ex_round Circ per_qubit))), (ex_of (ex_round Circ per_qubit)), "X101", 11, 3. split; [|split; [|split; [|split]]].
  - apply ex_past. vm_compute. reflexivity.
  - vm_compute. reflexivity.
  - vm_compute. reflexivity.
  - vm_compute. reflexivity.
  - intros K. vm_compute in K. intuition discriminate.
Qed.
Print Assumptions C44_refuted.

(** C64 On each qubit, a merged round has the operations of the round of its layout alone. *)
Theorem C64_round_alone fuse it ls reset dets w w' c k l q i m2 own : wf_inds (inds (fst w)) -> dget q (inds (fst w)) = Some i ->
  lockstep (map (fun kl => it (fst kl) (snd kl) reset) (enumerate ls)) -> nth_error ls k = Some l ->
  (forall k' l' b, nth_error ls k' = Some l' -> k' <> k -> In (Ok b) (it k' l' reset) -> ~ In q (operands b)) ->
  run_blocks (it k l reset) (fst w) = (m2, Ok own) -> merge_qec_rounds fuse it ls reset dets w = (w', Ok c) ->
  on_index i (applications c) = on_index i (applications own).
Proof. exact (C64_round fuse it ls reset dets w w' c k l q i m2 own). Qed.
Print Assumptions C64_round_alone.
(* for the CSS rounds of generated codes with different labels *)
Theorem C64_rot_css fuse ord ls reset dets w w' c k l q i : (forall k n s, Permutation (ord k n s) s) ->
  (forall l, In l ls -> exists a, 0 <= ga_dx a /\ 0 <= ga_dz a /\ rot_surface_code_rectangle a = Ok l) -> apart ls ->
  wf_inds (inds (fst w)) -> nth_error ls k = Some l -> In q (dkeys (l_nodes l)) -> dget q (inds (fst w)) = Some i ->
  merge_qec_rounds fuse (fun k => css_round (ord k) "rotated_surface_code") ls reset dets w = (w', Ok c) ->
  exists m2 own, run_blocks (css_round (ord k) "rotated_surface_code" l reset) (fst w) = (m2, Ok own) /\
    on_index i (applications c) = on_index i (applications own).
Proof.
  intros Hp G A W N Q D H. eapply C64_css'; eauto. intros k' l' N'. destruct (G l' (nth_error_In _ _ N')) as (a & Hx & Hz & E). eapply rot_css_one; eauto.
Qed.
Print Assumptions C64_rot_css.
Theorem C64_unrot_css fuse ord ls reset dets w w' c k l q i : (forall k n s, Permutation (ord k n s) s) ->
  (forall l, In l ls -> exists a, 0 <= ga_dx a /\ 0 <= ga_dz a /\ unrot_surface_code_rectangle a = Ok l) -> apart ls ->
  wf_inds (inds (fst w)) -> nth_error ls k = Some l -> In q (dkeys (l_nodes l)) -> dget q (inds (fst w)) = Some i ->
  merge_qec_rounds fuse (fun k => css_round (ord k) "unrotated_surface_code") ls reset dets w = (w', Ok c) ->
  exists m2 own, run_blocks (css_round (ord k) "unrotated_surface_code" l reset) (fst w) = (m2, Ok own) /\
    on_index i (applications c) = on_index i (applications own).
Proof.
  intros Hp G A W N Q D H. eapply C64_css'; eauto. intros k' l' N'. destruct (G l' (nth_error_In _ _ N')) as (a & Hx & Hz & E). eapply unrot_css_one; eauto.
Qed.
Print Assumptions C64_unrot_css.
(* and for the logical measurements in one basis *)
Theorem C64_log_meas fuse ls rot n reset dets w w' c k l q i : apart ls ->
  wf_inds (inds (fst w)) -> nth_error ls k = Some l -> In q (dkeys (l_nodes l)) -> dget q (inds (fst w)) = Some i ->
  merge_log_meas fuse (fun _ => log_meas_blocks) ls (repeat rot n) reset dets w = (w', Ok c) ->
  exists m2 own, run_blocks (log_meas_blocks l rot) (fst w) = (m2, Ok own) /\ on_index i (applications c) = on_index i (applications own).
Proof. intros A W N Q D. exact (C64_log' fuse ls rot n reset dets w w' c k l q i W D A N Q). Qed.
Print Assumptions C64_log_meas.
Example C64_case : apart ex_layouts /\ wf_inds (inds (fst (ex_world Circ ex_setup ex_layouts))) /\
  (forall l, In l ex_layouts -> exists a, 0 <= ga_dx a /\ 0 <= ga_dz a /\ rot_surface_code_rectangle a = Ok l) /\
  nth_error ex_layouts 1 = Some rot22' /\ In "D101" (dkeys (l_nodes rot22')) /\ dget "D101" (inds (fst (ex_world Circ ex_setup ex_layouts))) = Some 7 /\
  filter (fun g => mem g [GH; GCZ]) (map name_of (on_index 7 (applications (ex_of (ex_round Circ ex_setup))))) = [GH; GCZ; GH; GCZ].
Proof.
  split; [exact ex_apart|]. split; [apply ex_wf|]. split.
  { intros l [<-|[<-|[]]]; [exists (args 2 2)|exists (args2 2 2)]; (split; [discriminate|]; split; [discriminate|vm_compute; reflexivity]). }
  split; [reflexivity|]. split.
  { assert (H : mem "D101" (dkeys (l_nodes rot22')) = true) by (vm_compute; reflexivity). exact (proj1 (mem_In "D101" (dkeys (l_nodes rot22'))) H). }
  split; vm_compute; reflexivity.
Qed.

(** C65 A merged logical measurement in one basis measures every data qubit of every layout. *)
Theorem C65_measured_partial fuse ls rot n reset dets w w' c k l data q i : apart ls ->
  wf_inds (inds (fst w)) -> nth_error ls k = Some l -> get_role l "data" = Ok data -> In q data -> dget q (inds (fst w)) = Some i ->
  merge_log_meas fuse (fun _ => log_meas_blocks) ls (repeat rot n) reset dets w = (w', Ok c) -> In (TQ i) (measured c).
Proof. intros A W N Hd Q D. exact (C65_lemma fuse ls rot n reset dets w w' c k l data q i W D A N Hd Q). Qed.
Print Assumptions C65_measured_partial.
Example C65_case : measured (ex_of (ex_meas Circ ex_setup ex_layouts [true; true])) = map TQ [0; 1; 2; 3; 7; 8; 9; 10].
Proof. vm_compute. reflexivity. Qed.
(* In different bases the measurement of one layout is lost, while the model has recorded it. *)
Theorem C65_refuted : exists s ls rots w' c l data q i, merge_log_meas true (fun _ => log_meas_blocks) ls rots true None (ex_world Noiseless s ls) = (w', Ok c) /\
  apart ls /\ wf_inds (inds (fst (ex_world Noiseless s ls))) /\ In l ls /\ get_role l "data" = Ok data /\ In q data /\ dget q (inds (fst w')) = Some i /\ ~ In (TQ i) (measured c) /\
  meas_target (fst w') q (-1) = Ok (TR (-4)).
Proof.
  exists ex_setup, ex_layouts, [true; false]. do 2 eexists. exists rot22, ["D1"; "D2"; "D3"; "D4"], "D1", 0.
  split; [vm_compute; reflexivity|]. split; [exact ex_apart|]. split; [apply ex_wf|]. split; [now left|]. split; [vm_compute; reflexivity|]. split; [now left|].
  split; [vm_compute; reflexivity|]. split; [vm_compute; intuition discriminate|vm_compute; reflexivity].
Qed.
Print Assumptions C65_refuted.

(** C45 Observables of layouts with the same number of logical qubits: 0, 1, 2, ... *)
Theorem C45_indices_partial fuse it ls rots reset dets w w' c n : merge_log_meas fuse it ls rots reset dets w = (w', Ok c) ->
  (forall l, In l ls -> length (l_logs l) = n) ->
  observable_args c = map (fun j => [ANum (zq (Z.of_nat j))]) (seq 0 (length ls * n)).
Proof. exact (C45_lemma fuse it ls rots reset dets w w' c n). Qed.
Print Assumptions C45_indices_partial.
(* the observable of a logical qubit has the last outcomes of its support *)
Theorem C45_supports_of_logicals fuse it ls rots reset dets w w' c k l r j q : merge_log_meas fuse it ls rots reset dets w = (w', Ok c) ->
  nth_error ls k = Some l -> nth_error rots k = Some r -> nth_error (l_logs l) j = Some q ->
  exists qs ts, dget q (if r then l_logx l else l_logz l) = Some qs /\ mapM (fun x => meas_target (fst w') x (-1)) qs = Ok ts /\
    In (Instr OBSERVABLE_INCLUDE ts [ANum (zq (Z.of_nat (k * length (l_logs l) + j)))]) c.
Proof. exact (C45_supports fuse it ls rots reset dets w w' c k l r j q). Qed.
Print Assumptions C45_supports_of_logicals.
Example C45_case : snd (ex_meas Circ ex_setup ex_layouts [false; false]) = Ok (ex_of (ex_meas Circ ex_setup ex_layouts [false; false])) /\
  (forall l, In l ex_layouts -> length (l_logs l) = 1%nat) /\ observable_args (ex_of (ex_meas Circ ex_setup ex_layouts [false; false])) = [[ANum (zq 0)]; [ANum (zq 1)]].
Proof. split; [vm_compute; reflexivity|]. split; [intros l [<-|[<-|[]]]; vm_compute; reflexivity|vm_compute; reflexivity]. Qed.
(* a layout with two logical qubits and one with one: both codes have an observable 1 *)
Definition two_logicals : layout :=
  {| l_name := l_name rot22; l_code := l_code rot22; l_logs := ["L0"; "L2"]; l_distance := l_distance rot22; l_dz := l_dz rot22; l_dx := l_dx rot22;
     l_logz := [("L0", ["D1"; "D2"]); ("L2", ["D3"; "D4"])]; l_logx := [("L0", ["D1"; "D3"]); ("L2", ["D2"; "D4"])];
     l_desc := l_desc rot22; l_order := l_order rot22; l_inds := l_inds rot22; l_nodes := l_nodes rot22; l_adj := l_adj rot22 |}.
Theorem C45_refuted : exists w ls rots w' c, merge_log_meas true (fun _ => log_meas_blocks) ls rots true None w = (w', Ok c) /\ ~ NoDup (observable_args c).
Proof.
  exists (ex_world Circ ex_setup [two_logicals; rot22']), [two_logicals; rot22'], [false; false]. do 2 eexists. split; [vm_compute; reflexivity|].
  intros N. vm_compute in N. inversion N as [|? ? _ N1]; subst. inversion N1 as [|? ? N2 _]; subst. apply N2. now left.
Qed.
Print Assumptions C45_refuted.
