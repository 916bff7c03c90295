(** Proofs of C05 (histories), C06, C07, C08. *)
From Coq Require Import QArith Qcanon.
From Verif Require Import Base Lib StimM MatM MatP DetM SpecDet DetP DetCountP DetLinP.
Open Scope Z_scope.

(** * C08: the generators stay a basis *)
Lemma identity_invertible ls : NoDup ls -> invertible ls (identity ls).
Proof.
  intros Hn w Hw j Hj. destruct (nth_error ls j) as [a|] eqn:E; [|apply nth_error_None in E; lia].
  specialize (Hw a (nth_error_In _ _ E)). etransitivity; [|exact Hw]. symmetry.
  rewrite (xorl_ext _ (fun i => eqb i j && w i)).
  - apply (xorl_single j w); [apply seq_NoDup|apply in_seq; lia].
  - intros i Hi. apply in_seq in Hi. f_equal. unfold gen_entry. rewrite (dget_identity ls a j Hn E).
    rewrite unitv_nth by lia. unfold eqb, Eqb_nat. rewrite Nat.eqb_sym. rewrite Nat.eqb_sym. now destruct (Nat.eqb i j).
Qed.
Lemma update_injective u d rows : upd_ok d u rows -> wf_det d -> forall v,
  (forall a, In a (labels d) -> gate_map (DUpd u) v a = false) -> forall a, In a (labels d) -> v a = false.
Proof.
  intros U Hw v Hz. pose proof (uo_sing _ _ _ U) as S. unfold singular in S.
  destruct (inverse_cols GF2 (u_mat u)) as [X|] eqn:EX; [|discriminate].
  assert (Lno : length (u_new u) = length (u_old u)).
  { rewrite (Permutation_length (uo_new _ _ _ U)), (Permutation_length (uo_old _ _ _ U)). reflexivity. }
  assert (SQ : square (u_mat u)).
  { unfold square. rewrite (uo_len _ _ _ U), Lno. apply U. }
  assert (K := inverse_cols_kernel GF2 GF2_laws _ _ SQ EX (map v (u_old u))).
  assert (Kz : map v (u_old u) = repeat false (length (u_old u))).
  { rewrite map_length in K. rewrite (uo_len _ _ _ U), Lno in K. apply K; [reflexivity|].
    intros r Hr. apply In_nth_error in Hr as [i Hi].
    assert (Li : (i < length (u_new u))%nat) by (rewrite <- (uo_len _ _ _ U); apply nth_error_Some; congruence).
    destruct (nth_error (u_new u) i) as [a|] eqn:Ea; [|apply nth_error_None in Ea; lia].
    assert (Er : nth i (u_mat u) [] = r) by now apply nth_error_nth.
    rewrite <- Er, (u_row u a i (uo_nnew _ _ _ U) (uo_nold _ _ _ U) Ea).
    - rewrite dot_map. apply Hz. apply (Permutation_in _ (uo_new _ _ _ U)). eapply nth_error_In; eauto.
    - pose proof (uo_row _ _ _ U) as F. rewrite Forall_forall in F. apply F. apply nth_In. rewrite (uo_len _ _ _ U); auto. }
  rewrite map_false in Kz. intros a Ha. apply Kz. apply (Permutation_in _ (Permutation_sym (uo_old _ _ _ U)) Ha).
Qed.
Lemma update_invertible u d d' r : wf_det d -> update u d = (d', r) -> invertible (labels d) (curr_gen d) ->
  invertible (labels d) (curr_gen d').
Proof.
  intros Hw H Hi. destruct (update_char _ _ _ _ Hw H) as [[-> _]|[-> (rows & U & E)]]; auto.
  assert (Hc : call (DUpd u) d = (d', Ok [])) by (simpl; unfold quiet, sbind; now rewrite H).
  destruct (keeps_update _ _ _ _ H Hw) as [Hw' [S1 _]].
  assert (Rc := rows_ok_curr d Hw). assert (Rc' := rows_ok_curr d' Hw'). rewrite S1 in Rc'.
  apply (invertible_gval _ _ Rc'). intros w Hl Hz.
  apply (proj1 (invertible_gval _ _ Rc) Hi); auto.
  apply (update_injective u d rows U Hw).
  intros a Ha. destruct (update_gval (DUpd u) d d' [] w Hw eq_refl Hc Hl) as (_ & _ & E'). rewrite <- E' by auto. auto.
Qed.
Lemma siter_act_gens l : forall d d' r, siter activate_one l d = (d', r) ->
  labels d' = labels d /\ prev_gen d' = prev_gen d /\ curr_gen d' = curr_gen d.
Proof.
  induction l as [|x l IH]; simpl; intros d d' r H.
  - injection H as <- <-. auto.
  - unfold sbind in H. destruct (activate_one x d) as [d1 [[]|e]] eqn:E; unfold activate_one in E;
      destruct (dget x (active d)) as [[]|]; injection E as <-; try discriminate.
    + apply IH in H. exact H.
    + injection H as <- <-. auto.
    + injection H as <- <-. auto.
Qed.
Lemma call_invertible o d d' r : wf_det d -> is_deact o = false -> call o d = (d', r) -> both_invertible d -> both_invertible d'.
Proof.
  intros Hw Hd H [Hc Hp]. destruct o as [|l|l|u|nd|g rs q|g s rs rc q]; simpl in Hd, H; try discriminate.
  - unfold quiet, sbind, sret in H. injection H as <- <-. split; simpl; apply identity_invertible, Hw.
  - unfold quiet, sbind in H. destruct (activate l d) as [d1 [[]|e]] eqn:E; injection H as <- <-; unfold activate in E;
      destruct (strict_superset _ _); try (injection E as <- <-; split; assumption); try discriminate;
      apply siter_act_gens in E as (E1 & E2 & E3); unfold both_invertible; rewrite E1, E2, E3; auto.
  - unfold quiet, sbind in H. destruct (update u d) as [d1 x] eqn:E.
    assert (Hd' : d' = d1) by (destruct x as [[]|e]; now injection H as <-). subst d1.
    destruct (keeps_update _ _ _ _ E Hw) as [_ [S1 _]]. unfold both_invertible. rewrite S1.
    split; [eapply update_invertible; eauto|].
    destruct (update_char _ _ _ _ Hw E) as [[-> _]|[_ (rows & _ & ->)]]; auto.
  - unfold quiet, sbind in H. destruct (update_from_dict nd d) as [d1 x] eqn:E.
    assert (Hd' : d' = d1) by (destruct x as [[]|e]; now injection H as <-). subst d1.
    unfold update_from_dict in E.
    destruct (strict_superset _ _); [injection E as <- <-; split; assumption|].
    destruct (negb _); [injection E as <- <-; split; assumption|].
    destruct (keeps_update _ _ _ _ E Hw) as [_ [S1 _]]. unfold both_invertible. rewrite S1.
    split; [eapply update_invertible; eauto|].
    destruct (update_char _ _ _ _ Hw E) as [[-> _]|[_ (rows & _ & ->)]]; auto.
  - apply build_from_anc_inv in H as [[-> _]|(ancs & nr & _ & _ & H)]; [split; assumption|].
    destruct H as [[-> _]|(dets & c' & _ & _ & -> & _)]; split; assumption.
  - apply build_from_data_inv in H as [[-> _]|(ancs & nr & dets & dets' & c' & _ & _ & _ & _ & _ & _ & -> & _)]; split; assumption.
Qed.
Lemma reach_invertible d h d' : dreach d h d' -> wf_det d -> none is_deact h -> both_invertible d -> both_invertible d'.
Proof.
  induction 1 as [|d o d1 r l d2 H H' IH]; intros Hw Hn Hi; auto. apply none_cons in Hn as [N1 N2].
  destruct (keeps_call _ _ _ _ H Hw) as [Hw1 _]. apply IH; auto. exact (call_invertible o d d1 r Hw N1 H Hi).
Qed.
Lemma init_invertible ls f cs d : det_init ls f cs = Ok d -> both_invertible d.
Proof.
  intros H. apply det_init_ok in H as [Hn (d0 & -> & E)]. split; simpl; apply identity_invertible; congruence.
Qed.
Lemma C08_lemma ls f cs d0 h d : det_init ls f cs = Ok d0 -> dreach d0 h d -> none is_deact h -> both_invertible d.
Proof.
  intros Hi H Hn. destruct (det_init_wf _ _ _ _ Hi) as [Hw _]. eapply reach_invertible; eauto. eapply init_invertible; eauto.
Qed.
(* with invertible generators no call fails with LinAlgError *)
Lemma mapM_err {A B} (f : A -> res B) l e : mapM f l = Err e -> exists x, In x l /\ f x = Err e.
Proof.
  induction l as [|x l IH]; simpl; [discriminate|]. destruct (f x) as [y|e'] eqn:E; simpl.
  - destruct (mapM f l) as [ys|e'']; simpl; [discriminate|]. intros [= ->]. destruct IH as (z & Hz & Ez); auto. eauto.
  - intros [= ->]. eauto.
Qed.
Lemma get_anc_meas_nolin ls c p b nr r1 r2 : NoDup ls -> Permutation (dkeys c) ls -> rows_ok ls b -> invertible ls b ->
  get_anc_meas c p b nr r1 r2 <> Err LinAlgError.
Proof.
  intros Hn Hp Rb Hi H. unfold get_anc_meas in H.
  assert (K : forall g : gen, mapM (fun a => dget_err a g) (dkeys c) <> Err LinAlgError).
  { intros g E. apply mapM_err in E as (x & _ & E). unfold dget_err in E. destruct (dget x g); simpl in E; discriminate. }
  destruct (mapM (fun a => dget_err a c) (dkeys c)) as [C|e] eqn:E1; cbn [bind] in H; [|apply (K c); congruence].
  destruct (mapM (fun a => dget_err a b) (dkeys c)) as [B|e] eqn:E2; cbn [bind] in H; [|apply (K b); congruence].
  destruct (mapM (fun a => dget_err a p) (dkeys c)) as [P|e] eqn:E3; cbn [bind] in H; [|apply (K p); congruence].
  apply mapM_rowg in E2. subst B. destruct (kernel_free_rows ls (dkeys c) b) as [KF SQ]; auto.
  destruct (nonsingular_rational _ SQ KF) as [X EX]. rewrite EX in H. cbn [of_opt bind] in H.
  apply mapM_err in H as ([a [x1 x2]] & _ & H). unfold dget_err in H. destruct (dget a nr); simpl in H; discriminate.
Qed.
Lemma siter_nolin (f : string -> ST detectors unit) l : (forall a d, snd (f a d) <> Err LinAlgError) ->
  forall d, snd (siter f l d) <> Err LinAlgError.
Proof.
  intros Hf. induction l as [|x l IH]; intros d; simpl; [discriminate|]. unfold sbind.
  specialize (Hf x d). destruct (f x d) as [d1 [[]|e]]; simpl in *; [auto|exact Hf].
Qed.
Lemma det_instr_nolin d g ancs t x : (forall q k, g q k <> Err LinAlgError) -> det_instr d g ancs t x <> Err LinAlgError.
Proof.
  intros Hg. unfold det_instr. destruct (mem _ ancs).
  - destruct (mapM _ (remove_pairs (snd x))) as [recs|e] eqn:E.
    + cbn [bind]. unfold dget_err. destruct (dget _ _); simpl; [|discriminate]. unfold mk. destruct (instr_ok _); discriminate.
    + cbn [bind]. intros [= ->]. apply mapM_err in E as (y & _ & E). eapply Hg; eauto.
  - cbn [bind]. unfold dget_err. destruct (dget _ _); simpl; [|discriminate]. unfold mk. destruct (instr_ok _); discriminate.
Qed.
Lemma requested_nolin d req : requested d req <> Err LinAlgError.
Proof.
  unfold requested. destruct (mapM _ _) as [fl|e] eqn:E; simpl; [discriminate|]. intros [= ->].
  apply mapM_err in E as (x & _ & E). unfold dget_err in E. destruct (dget x _); simpl in E; discriminate.
Qed.
Lemma next_rounds_nolin d : next_rounds d <> Err LinAlgError.
Proof.
  intros H. apply mapM_err in H as (x & _ & E). unfold dget_err in E. destruct (dget _ _); simpl in E; discriminate.
Qed.
Lemma call_nolin o d : wf_det d -> both_invertible d -> rec_nolin o -> snd (call o d) <> Err LinAlgError.
Proof.
  intros Hw [Hc Hp] Hg. assert (Hn := wf_nodup _ Hw). assert (Hk := wf_curr _ Hw).
  assert (Rc := rows_ok_curr d Hw). assert (Rp := rows_ok_prev d Hw).
  assert (Q : forall x : ST detectors unit, snd (x d) <> Err LinAlgError -> snd (quiet x d) <> Err LinAlgError).
  { intros x H. unfold quiet, sbind, sret. destruct (x d) as [d1 [[]|e]]; simpl in *; congruence. }
  destruct o as [|l|l|u|nd|g rs q|g s rs rc q]; simpl in Hg |- *.
  - discriminate.
  - apply Q. unfold activate. destruct (strict_superset _ _); [discriminate|]. apply siter_nolin.
    intros a d1. unfold activate_one. destruct (dget a (active d1)) as [[]|]; discriminate.
  - apply Q. unfold deactivate. destruct (strict_superset _ _); [discriminate|]. apply siter_nolin.
    intros a d1. unfold deactivate_one. destruct (dget a (active d1)) as [[]|]; discriminate.
  - apply Q. destruct (update u d) as [d1 x] eqn:E. destruct (update_char _ _ _ _ Hw E) as [[_ (e & -> & [->| ->])]|[-> _]]; discriminate.
  - apply Q. unfold update_from_dict. destruct (strict_superset _ _); [discriminate|]. destruct (negb _); [discriminate|].
    destruct (update _ d) as [d1 x] eqn:E. destruct (update_char _ _ _ _ Hw E) as [[_ (e & -> & [->| ->])]|[-> _]]; discriminate.
  - unfold build_from_anc, sbind, sread, sret. pose proof (requested_nolin d q) as R1. pose proof (next_rounds_nolin d) as R2.
    destruct (requested d q) as [ancs|e]; [|simpl; congruence].
    destruct (next_rounds d) as [nr|e]; [|simpl; congruence]. cbn [dfr set_rounds curr_gen prev_gen num_rounds labels].
    set (dets := match dfr d with PreGate => _ | PostGate => _ | GateIndep => _ end).
    assert (D : dets <> Err LinAlgError).
    { subst dets. destruct (dfr d); try (apply (get_anc_meas_nolin (labels d)); auto).
      intros H. apply mapM_err in H as (x & _ & E). unfold dget_err in E. destruct (dget _ _); simpl in E; discriminate. }
    destruct dets as [ds|e]; [|simpl; congruence].
    match goal with |- context [mapM (det_instr ?D g ancs ?t) ds] => set (m := mapM (det_instr D g ancs t) ds) end.
    assert (M : m <> Err LinAlgError).
    { subst m. intros H. apply mapM_err in H as (x & _ & E). eapply det_instr_nolin; eauto. }
    destruct m; simpl; congruence.
  - unfold build_from_data. destruct (strict_superset _ _); [discriminate|].
    unfold sbind, sread, sret, slift. pose proof (requested_nolin d q) as R1. pose proof (next_rounds_nolin d) as R2.
    destruct (requested d q) as [ancs|e]; [|simpl; congruence].
    destruct (next_rounds d) as [nr|e]; [|simpl; congruence].
    set (dets := match dfr d with PreGate => _ | PostGate => _ | GateIndep => _ end).
    assert (D : dets <> Err LinAlgError).
    { subst dets. destruct (dfr d); try (apply (get_anc_meas_nolin (labels d)); auto).
      intros H. apply mapM_err in H as (x & _ & E). unfold dget_err in E. destruct (dget _ _); simpl in E; discriminate. }
    destruct dets as [ds|e]; [|simpl; congruence].
    match goal with |- context [mapM (fun at_ => do t <- to_data s (snd at_); Ok (fst at_, t)) ?L] =>
      set (m := mapM (fun at_ => do t <- to_data s (snd at_); Ok (fst at_, t)) L) end.
    assert (M : m <> Err LinAlgError).
    { subst m. intros H. apply mapM_err in H as (x & _ & E). unfold to_data in E.
      match type of E with (do t <- (do l <- mapM ?f ?L; _); _) = _ => destruct (mapM f L) as [z|e] eqn:Em end; simpl in E; [discriminate|].
      injection E as ->. apply mapM_err in Em as (y & _ & Em). destruct (eqb (snd y) (-1)); [|discriminate].
      unfold dget_err in Em. destruct (dget _ _); simpl in Em; discriminate. }
    destruct m as [ds'|e]; [|simpl; congruence].
    match goal with |- context [mapM (det_instr ?D g ancs ?t) ds'] => set (m2 := mapM (det_instr D g ancs t) ds') end.
    assert (M2 : m2 <> Err LinAlgError).
    { subst m2. intros H. apply mapM_err in H as (x & _ & E). eapply det_instr_nolin; eauto. }
    destruct m2; simpl; congruence.
Qed.

(* deactivating ancillas whose generators do not involve the others *)
Lemma set_nth_nth {A} (l : list A) k b j e : (k < length l)%nat -> nth j (set_nth k b l) e = if Nat.eqb j k then b else nth j l e.
Proof.
  revert k j; induction l as [|x l IH]; intros [|k] [|j]; simpl; intros H; try lia; auto. apply IH. lia.
Qed.
Lemma gset_entry a k b g x j : (forall r, dget a g = Some r -> (k < length r)%nat) ->
  gen_entry (gset a k b g) x j = if eqb x a && Nat.eqb j k && dmem a g then b else gen_entry g x j.
Proof.
  intros H. unfold gset, dmem. destruct (dget a g) as [r|] eqn:E; [|now rewrite andb_false_r].
  unfold gen_entry at 1. rewrite dget_dset. rewrite (eqb_sym x a). destruct (eqb_spec a x) as [->|N]; simpl.
  - rewrite set_nth_nth by auto. unfold gen_entry. rewrite E, andb_true_r. reflexivity.
  - reflexivity.
Qed.
Lemma clear_entry ls a g ia : NoDup ls -> Permutation (dkeys g) ls -> rows_len (length ls) g -> index a ls = Some ia ->
  nth_error ls ia = Some a ->
  forall x j, In x ls -> (j < length ls)%nat ->
    gen_entry (clear_anc ls a g) x j =
    if eqb x a then Nat.eqb j ia else if Nat.eqb j ia then false else gen_entry g x j.
Proof.
  intros Hn Hp Hr Ha Hia x j Hx Hj. unfold clear_anc. rewrite Ha.
  assert (La : (ia < length ls)%nat) by (apply nth_error_Some; congruence).
  (* after treating the labels l *)
  assert (G : forall l pre g0, ls = pre ++ l -> dkeys g0 = dkeys g -> rows_len (length ls) g0 ->
    (forall x j, In x ls -> (j < length ls)%nat -> gen_entry g0 x j =
        if eqb x a then (match nth_error ls j with
                         | Some o => if mem o pre then eqb o a else gen_entry g a j | None => false end)
        else if Nat.eqb j ia && mem x pre then false else gen_entry g x j) ->
    forall x j, In x ls -> (j < length ls)%nat ->
    gen_entry (fold_left (fun g o => match index o ls with
        | Some io => if eqb o a then gset a ia true g else gset a io false (gset o ia false g)
        | None => g end) l g0) x j =
      if eqb x a then Nat.eqb j ia else if Nat.eqb j ia then false else gen_entry g x j).
  { clear x j Hx Hj. induction l as [|o l IH]; intros pre g0 El Hk Hl Hg x j Hx Hj.
    - simpl. rewrite app_nil_r in El. subst pre. rewrite Hg by auto.
      destruct (eqb_spec x a) as [->|N].
      + destruct (nth_error ls j) as [o|] eqn:Eo; [|apply nth_error_None in Eo; lia].
        assert (Em : mem o ls = true) by (apply mem_In; eapply nth_error_In; eauto). rewrite Em.
        symmetry. apply (index_label ls j o Hn Eo ia a Hia).
      + assert (Em : mem x ls = true) by now apply mem_In. now rewrite Em, andb_true_r.
    - assert (Ho : nth_error ls (length pre) = Some o).
      { rewrite El, nth_error_app2 by lia. now rewrite Nat.sub_diag. }
      assert (Lo : (length pre < length ls)%nat) by (apply nth_error_Some; congruence).
      assert (No : ~ In o pre).
      { intros Hi. rewrite El in Hn. apply NoDup_remove_2 in Hn. apply Hn. apply in_or_app. now left. }
      assert (Io : In o ls) by (eapply nth_error_In; eauto).
      assert (Ia : In a ls) by (eapply nth_error_In; eauto).
      assert (Mk : forall z (g1 : gen), dkeys g1 = dkeys g -> In z ls -> dmem z g1 = true).
      { intros z g1 E1 Hz. apply dmem_In. rewrite E1. eapply Permutation_in; [symmetry; exact Hp|auto]. }
      simpl. rewrite (index_nth_error ls o (length pre) Hn Ho).
      apply (IH (pre ++ [o])); auto.
      + rewrite <- app_assoc. exact El.
      + destruct (eqb o a); rewrite ?gset_keys; auto.
      + destruct (eqb o a); auto using gset_rows.
      + clear x j Hx Hj. intros x j Hx Hj. rewrite !mem_app. simpl.
        destruct (eqb_spec o a) as [->|Noa].
        * (* the ancilla itself *)
          rewrite gset_entry by (intros r Er; rewrite (Hl _ _ Er); auto). rewrite (Mk a g0), andb_true_r by auto.
          rewrite Hg by auto. destruct (eqb_spec x a) as [->|Nx]; simpl.
          -- destruct (nth_error ls j) as [o'|] eqn:Eo'; [|apply nth_error_None in Eo'; lia].
             rewrite (index_label ls j o' Hn Eo' ia a Hia). rewrite mem_app. simpl.
             destruct (eqb_spec o' a) as [->|]; simpl; destruct (mem _ pre); reflexivity.
          -- replace (eqb x a) with false by (symmetry; now apply eqb_neq). simpl. now rewrite orb_false_r.
        * rewrite gset_entry by (intros r Er; rewrite (gset_rows _ _ _ _ _ Hl _ _ Er); auto).
          rewrite gset_entry by (intros r Er; rewrite (Hl _ _ Er); auto).
          rewrite (Mk o g0), (Mk a (gset o ia false g0)) by (rewrite ?gset_keys; auto). rewrite !andb_true_r.
          rewrite Hg by auto. destruct (eqb_spec x a) as [->|Nx]; simpl.
          -- replace (eqb a o) with false by (symmetry; apply eqb_neq; congruence). simpl.
             destruct (nth_error ls j) as [o'|] eqn:Eo'; [|apply nth_error_None in Eo'; lia].
             rewrite (index_label ls j o' Hn Eo' (length pre) o Ho). rewrite mem_app. simpl.
             destruct (eqb_spec o' o) as [->|]; simpl.
             ++ rewrite orb_true_r. symmetry. now apply eqb_neq.
             ++ now rewrite orb_false_r.
          -- destruct (eqb_spec x o) as [->|Nxo]; simpl; destruct (Nat.eqb j ia), (mem _ pre); reflexivity. }
  apply (G ls [] g); auto.
  intros x' j' Hx' Hj'. rewrite andb_false_r. simpl. destruct (eqb_spec x' a) as [->|]; auto.
  destruct (nth_error ls j') eqn:E; auto. apply nth_error_None in E. lia.
Qed.
Lemma deact_entry l : forall d d', wf_det d -> siter deactivate_one l d = (d', Ok tt) ->
  labels d' = labels d /\
  forall sel : detectors -> gen, (sel = prev_gen \/ sel = curr_gen) ->
  forall x j o, In x (labels d) -> nth_error (labels d) j = Some o ->
    gen_entry (sel d') x j = if mem x l then eqb x o else if mem o l then false else gen_entry (sel d) x j.
Proof.
  induction l as [|a l IH]; simpl; intros d d' Hw H.
  - injection H as <-. auto.
  - unfold sbind in H. destruct (deactivate_one a d) as [d1 [[]|e]] eqn:E; [|discriminate].
    assert (K : keeps (deactivate_one a)) by apply keeps_deactivate_one.
    destruct (K _ _ _ E Hw) as [Hw1 _]. destruct (IH _ _ Hw1 H) as [S2 IH'].
    unfold deactivate_one in E. destruct (dget a (active d)) as [[]|] eqn:Ea; try discriminate. injection E as <-.
    cbn [labels set_gens set_active] in *. split; [exact S2|]. intros sel Hs x j o Hx Ho.
    assert (Ia : In a (labels d)) by (rewrite <- (wf_active _ Hw); eapply dget_Some_key; eauto).
    destruct (In_nth_error _ _ Ia) as [ia Hia].
    pose proof (index_nth_error _ _ _ (wf_nodup _ Hw) Hia) as Ea'.
    assert (Lj : (j < length (labels d))%nat) by (apply nth_error_Some; congruence).
    rewrite (IH' sel Hs x j o Hx Ho).
    assert (Ee : gen_entry (sel (set_gens (clear_anc (labels d) a (prev_gen d)) (clear_anc (labels d) a (curr_gen d)) (set_active a false d))) x j
       = if eqb x a then eqb o a else if eqb o a then false else gen_entry (sel d) x j).
    { rewrite <- (index_label (labels d) j o (wf_nodup _ Hw) Ho ia a Hia).
      destruct Hs as [-> | ->]; cbn [prev_gen curr_gen set_gens].
      - exact (clear_entry _ a _ ia (wf_nodup _ Hw) (wf_prev _ Hw) (wf_prow _ Hw) Ea' Hia x j Hx Lj).
      - exact (clear_entry _ a _ ia (wf_nodup _ Hw) (wf_curr _ Hw) (wf_crow _ Hw) Ea' Hia x j Hx Lj). }
    rewrite Ee. destruct (eqb_spec x a) as [->|Nx]; simpl.
    + rewrite (eqb_sym a o). destruct (eqb_spec o a) as [->|No]; simpl; [now destruct (mem a l)|].
      now destruct (mem a l), (mem o l).
    + destruct (mem x l); auto. destruct (eqb_spec o a) as [->|No]; simpl; auto. now destruct (mem a l).
Qed.
Lemma closed_invertible ls D (g g' : gen) : invertible ls g -> closed_set ls D g ->
  (forall x j o, In x ls -> nth_error ls j = Some o ->
    gen_entry g' x j = if mem x D then eqb x o else if mem o D then false else gen_entry g x j) ->
  NoDup ls -> invertible ls g'.
Proof.
  intros Hi Hc He Hn w Hw.
  assert (W0 : forall j o, nth_error ls j = Some o -> In o D -> w j = false).
  { intros j o Ho HD. assert (Io : In o ls) by (eapply nth_error_In; eauto).
    specialize (Hw o Io). rewrite (xorl_ext _ (fun i => eqb i j && w i)) in Hw.
    - rewrite (xorl_single j w) in Hw; auto; [apply seq_NoDup|]. apply in_seq. split; [lia|]. apply nth_error_Some. congruence.
    - intros i Hi'. apply in_seq in Hi'. f_equal. destruct (nth_error ls i) as [o'|] eqn:Eo'; [|apply nth_error_None in Eo'; lia].
      rewrite (He o i o') by auto. apply mem_In in HD. rewrite HD.
      unfold eqb at 2, Eqb_nat. rewrite (index_label ls i o' Hn Eo' j o Ho). apply eqb_sym. }
  apply Hi. intros a Ha. etransitivity; [|exact (Hw a Ha)]. apply xorl_ext. intros j Hj. apply in_seq in Hj.
  destruct (nth_error ls j) as [o|] eqn:Eo; [|apply nth_error_None in Eo; lia].
  destruct (mem o D) eqn:Em.
  - apply mem_In in Em. rewrite (W0 j o) by auto. now rewrite !andb_false_r.
  - rewrite (He a j o) by auto. rewrite Em. destruct (mem a D) eqn:Ea; [|reflexivity].
    apply mem_not_In in Em. apply mem_In in Ea.
    destruct (gen_entry g a j) eqn:Eg; [exfalso; apply Em; eapply Hc; eauto|].
    destruct (eqb_spec a o) as [->|]; [exfalso; auto|reflexivity].
Qed.
Lemma C08_deact_lemma l d d' c : wf_det d -> both_invertible d -> call (DDeact l) d = (d', Ok c) ->
  closed_set (labels d) l (curr_gen d) -> closed_set (labels d) l (prev_gen d) -> both_invertible d'.
Proof.
  intros Hw [Hc Hp] H C1 C2. simpl in H. apply quiet_ok in H as [H _]. unfold deactivate in H.
  destruct (strict_superset _ _); [discriminate|]. destruct (deact_entry _ _ _ Hw H) as [S E].
  unfold both_invertible. rewrite S. split.
  - exact (closed_invertible _ l _ _ Hc C1 (E curr_gen (or_intror eq_refl)) (wf_nodup _ Hw)).
  - exact (closed_invertible _ l _ _ Hp C2 (E prev_gen (or_introl eq_refl)) (wf_nodup _ Hw)).
Qed.

(** * C06: detectors of a logical measurement *)
Lemma to_data_parity sup (o : string -> Z -> bool) l l' : to_data sup l = Ok l' ->
  xorl (map (fun t => o (fst t) (snd t)) l') =
  xorl (map (fun t => if eqb (snd t) (-1)
                      then match dget (fst t) sup with Some qs => xorl (map (fun q => o q (-1)) qs) | None => false end
                      else o (fst t) (snd t + 1)) l).
Proof.
  unfold to_data. intros H. apply bind_ok in H as [z [H H']]. injection H' as <-.
  apply mapM_Forall2 in H. induction H as [|t y l z H _ IH]; simpl; [reflexivity|].
  rewrite map_app, xorl_app, IH. f_equal. destruct (eqb (snd t) (-1)).
  - apply bind_ok in H as [qs [H1 H2]]. injection H2 as <-. unfold dget_err in H1.
    destruct (dget (fst t) sup) as [qs'|]; simpl in H1; [|discriminate]. injection H1 as ->. now rewrite map_map.
  - injection H as <-. simpl. now destruct (o (fst t) (snd t + 1)).
Qed.
Lemma to_data_known sup l l' a : to_data sup l = Ok l' -> In (a, -1) l -> exists qs, dget a sup = Some qs.
Proof.
  unfold to_data. intros H Hi. apply bind_ok in H as [z [H _]]. apply mapM_Forall2 in H.
  induction H as [|t y l z H _ IH]; simpl in Hi; [tauto|]. destruct Hi as [->|Hi]; auto. cbn [snd fst] in H.
  rewrite eqb_refl in H. apply bind_ok in H as [qs [H1 _]]. unfold dget_err in H1.
  destruct (dget a sup); simpl in H1; [eauto|discriminate].
Qed.
Lemma Forall2_filter {A B} (P : A -> B -> Prop) (p : A -> bool) (q : B -> bool) l m :
  (forall a b, P a b -> p a = q b) -> Forall2 P l m -> Forall2 P (filter p l) (filter q m).
Proof.
  intros H F. induction F as [|a b l m Hab _ IH]; simpl; [constructor|]. rewrite <- (H a b Hab).
  destruct (p a); auto.
Qed.
Lemma next_rounds_get d nr a n b : wf_det d -> next_rounds d = Ok nr -> dget a (active d) = Some b ->
  dget a (num_rounds d) = Some n -> dget a nr = Some (if b then n + 1 else n).
Proof.
  intros Hw H Ha Hn. unfold next_rounds in H.
  assert (G : forall l nr, mapM (fun ab : string * bool => do n <- dget_err (fst ab) (num_rounds d); Ok (fst ab, if snd ab then n + 1 else n)) l = Ok nr ->
     dget a l = Some b -> dget a nr = Some (if b then n + 1 else n)).
  { clear H Ha. induction l as [|[x y] l IH]; intros nr' H Hd; simpl in Hd; [discriminate|]. simpl in H.
    apply bind_ok in H as [z [H1 H]]. apply bind_ok in H as [zs [H2 H]]. injection H as <-.
    apply bind_ok in H1 as [n' [H1 H3]]. injection H3 as <-. simpl. destruct (eqb_spec a x) as [->|N]; auto.
    unfold dget_err in H1. rewrite Hn in H1. simpl in H1. injection H1 as ->. injection Hd as ->. reflexivity. }
  eapply G; eauto.
Qed.
Lemma select_eq k (f : string -> Qc) ls :
  select ls (nonzero (map f ls)) k = map (fun a => (a, k)) (filter (fun a => nz (f a)) ls).
Proof.
  unfold nonzero, select, enumerate.
  assert (G : forall l p, map (fun i => (nth i (p ++ l) "", k))
      (map fst (filter (fun kx => nz (snd kx)) (enumerate_from (length p) (map f l)))) =
      map (fun a => (a, k)) (filter (fun a => nz (f a)) l)).
  { induction l as [|a l IH]; intros p; simpl; [reflexivity|].
    replace (p ++ a :: l) with ((p ++ [a]) ++ l) by (rewrite <- app_assoc; reflexivity).
    specialize (IH (p ++ [a])). rewrite app_length in IH. simpl in IH. rewrite Nat.add_1_r in IH.
    destruct (nz (f a)) eqn:E; simpl; rewrite IH; [|reflexivity].
    f_equal. rewrite <- app_assoc. simpl. rewrite app_nth2 by lia. rewrite Nat.sub_diag. reflexivity. }
  apply (G ls []).
Qed.
Section DataDet.
  Variables (d1 d2 : detectors) (gap : list dop) (cs : list circuit).
  Hypotheses (Hw1 : wf_det d1) (Hsame : prev_gen d1 = curr_gen d1) (Hinv : invertible (labels d1) (curr_gen d1))
             (Hgap : Forall (fun o => gap_op o = true) gap) (Hh : dhist d1 gap d2 cs)
             (Hvol : involution (labels d1) (gap_map gap)).
  Let ls := labels d1.
  Let G := gap_map gap.

  Lemma C06_lemma g sup reset recon req d3 c outcome o v1 v2 :
    dfr d1 <> GateIndep -> clean_data d2 ->
    build_from_data g sup reset recon req d2 = (d3, Ok c) -> reads g outcome o ->
    (forall a, In a ls -> v1 a = G v2 a) -> reconstructs sup o recon v1 ->
    Forall2 (fun a i => forall n, dget a (num_rounds d2) = Some n -> noiseless_prev reset n ls o v2 -> 0 <= n ->
      (n = 0 -> forall b, In b ls -> v2 b = false) -> parity outcome i = false)
      (filter (fun a => mem a recon) (dkeys (curr_gen d2))) c.
  Proof.
    intros Hf (N & Hch & He) Hb Hr Hv Hrec.
    destruct (det_facts d1 d2 gap cs Hw1 Hsame Hinv Hgap Hh Hvol) as (Hw2 & S1 & S2 & HL & R1 & R2 & K & I1 & I2).
    fold ls in S1, HL, R1, R2, K, I1, I2. fold G in HL, K.
    assert (Hn : NoDup ls) by apply Hw1.
    assert (Hp : Permutation (dkeys (curr_gen d2)) ls) by (rewrite <- S1; apply Hw2).
    apply build_from_data_inv in Hb as [[_ [e Hb]]|(ancs & nr & dets & dets' & c' & _ & E1 & E2 & H1 & H2 & H3 & -> & H4)]; [discriminate|].
    injection H4 as ->. apply det_instrs in H3 as [-> F]. rewrite S1 in *.
    assert (Hm : get_anc_meas (curr_gen d2) (prev_gen d2) (curr_gen d2) nr true reset = Ok dets).
    { rewrite S2 in H1. destruct (dfr d1); auto. congruence. }
    destruct (get_anc_meas_char ls _ _ _ Hn Hp R2 _ _ _ _ Hm) as (col & Hi & Hd).
    assert (M1 : forall a f, In a ls -> pr ls col (curr_gen d2) a f = f a) by (intros a f Ha; eapply pr_basis; eauto).
    assert (M2 : forall a f, In a ls -> pr ls col (prev_gen d2) a f = G f a).
    { intros a f Ha. exact (pr_prev ls G (prev_gen d2) (curr_gen d2) col N a f Hn HL Hvol R1 R2 K I2 Hi Hch He Ha). }
    apply (Forall2_filter _ (fun a => mem a recon) (fun at_ => mem (fst at_) recon)) in Hd;
      [|intros a x (n & _ & ->); reflexivity].
    apply mapM_Forall2 in H2.
    assert (D : Forall2 (fun a x => In a (filter (fun a => mem a recon) (dkeys (curr_gen d2))) /\ exists n t, dget a nr = Some n /\
        to_data sup (contributions (curr_gen d2) (prev_gen d2) col true reset n a) = Ok t /\ x = (a, t))
        (filter (fun a => mem a recon) (dkeys (curr_gen d2))) dets').
    { eapply Forall2_trans; [|exact Hd|exact H2]. intros a b x Hin (n & Q1 & ->) Q. cbn [fst snd] in Q.
      apply bind_ok in Q as [t [Q Q3]]. injection Q3 as <-. split; [exact Hin|]. exists n, t. auto. }
    eapply Forall2_trans; [|exact D|exact F].
    intros a x i _ (Hin & n & t & En & Et & ->) [_ Ht] m Em Hno Hm0 Hz. simpl in Ht.
    apply filter_In in Hin as [Hin Hrc]. apply mem_In in Hrc.
    assert (Ha : In a ls) by (eapply Permutation_in; eauto).
    unfold parity. destruct (mem a ancs) eqn:Ea; [|now rewrite Ht].
    rewrite (mapM_outcomes _ _ _ _ _ Hr Ht), remove_pairs_parity.
    rewrite (to_data_parity _ _ _ _ Et).
    pose (o' := fun (q : string) (z : Z) => if eqb z (-1)
                      then match dget q sup with Some qs => xorl (map (fun q => o q (-1)) qs) | None => false end
                      else o q (z + 1)).
    change (xorl (map (fun t => o' (fst t) (snd t)) (contributions (curr_gen d2) (prev_gen d2) col true reset n a)) = false).
    rewrite (contributions_parity ls) by auto.
    assert (En' : n = m + 1).
    { apply mem_In, (requested_ok _ _ _ E1) in Ea. destruct Ea as [_ Ea].
      rewrite (next_rounds_get d2 nr a m true Hw2 E2 Ea Em) in En. now injection En as <-. }
    assert (Oa : o' a (-1) = G v2 a).
    { unfold o'. rewrite eqb_refl.
      assert (Ik : exists qs, dget a sup = Some qs).
      { eapply to_data_known; [exact Et|]. unfold contributions. apply in_or_app. left.
        unfold crow. rewrite select_eq. apply in_map_iff. exists a. split; auto. apply filter_In. split; auto.
        destruct (Hi a Ha) as [_ Hd']. rewrite (Hd' a Ha), eqb_refl. reflexivity. }
      destruct Ik as [qs Eq]. rewrite Eq, (Hrec a qs Hrc Eq), Hv by auto. reflexivity. }
    rewrite M1, Oa by auto. simpl.
    assert (Gx : forall f f', (forall b, In b ls -> f b = f' b) -> G f a = G f' a) by (intros f f' Hff; apply (l_ext _ _ HL); auto).
    destruct (Z.eq_dec m 0) as [->|Nm].
    - subst n. change (2 <=? 0 + 1) with false. change (3 <=? 0 + 1) with false. rewrite andb_false_r.
      rewrite (linear_zero ls G v2 HL); auto. intros b Hb. now apply Hz.
    - assert (L1 : (2 <=? n) = true) by (apply Z.leb_le; lia). rewrite L1, M2 by auto.
      assert (L2 : (3 <=? n) = (2 <=? m)).
      { destruct (Z.leb_spec 3 n), (Z.leb_spec 2 m); auto; lia. }
      rewrite L2.
      assert (P3 : (if negb reset && (2 <=? m) then pr ls col (prev_gen d2) a (fun q => o' q (-3)) else false) =
                   G (fun q => if negb reset && (2 <=? m) then o q (-2) else false) a).
      { destruct (negb reset && (2 <=? m)).
        - rewrite M2 by auto. reflexivity.
        - symmetry. apply (linear_zero ls); auto. intros b _. reflexivity. }
      rewrite P3.
      assert (Q : G v2 a = xorb (G (fun q => o' q (-2)) a) (G (fun q => if negb reset && (2 <=? m) then o q (-2) else false) a)).
      { rewrite <- (l_xor _ _ HL) by auto. apply Gx. intros b Hb. pose proof (Hno b Hb ltac:(lia)) as O.
        change (o' b (-2)) with (o b (-1)). rewrite O.
        destruct (v2 b), (if negb reset && (2 <=? m) then o b (-2) else false); reflexivity. }
      rewrite Q. destruct (G (fun q => o' q (-2)) a), (G (fun q => if negb reset && (2 <=? m) then o q (-2) else false) a); reflexivity.
  Qed.
End DataDet.
