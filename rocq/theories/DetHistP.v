(** Proofs of C07, of the gate-independent versions of C05 and C06, and of the
    versions of C05 and C06 about histories. *)
From Coq Require Import QArith Qcanon.
From Verif Require Import Base Lib StimM MatM MatP DetM SpecDet DetP DetCountP DetLinP DetDetP.
Open Scope Z_scope.

(** * C07 *)
Lemma pr_gf2 ls basis g col N M a f : NoDup ls -> rows_ok ls basis -> rows_ok ls g -> invertible ls basis ->
  is_inv ls basis col -> change_of_basis ls basis g N -> no_even ls N -> change_of_basis2 ls basis g M -> In a ls ->
  pr ls col g a f = xorl (map (fun k => M a k && f k) ls).
Proof.
  intros Hn Rb Rg Hi Hinv Hch He HM Ha. destruct (parity_inverse ls basis Rb col Hi Hinv) as [w Hw].
  rewrite (pr_clean ls basis Hn Rb col w g N); auto. apply xorl_ext. intros k Hk. f_equal.
  destruct (Hw k Hk) as (L & D & _).
  rewrite (gval_xorl ls basis (w k) a ls (M a) g); auto using incl_refl.
  - rewrite (xorl_ext _ (fun b => eqb b k && M a b)).
    + now apply (xorl_single k (M a)).
    + intros b Hb. rewrite (D b Hb). apply andb_comm.
  - intros j. symmetry. now apply HM.
Qed.
Lemma C07_lemma d g reset req d' c outcome o M : wf_det d -> both_invertible d -> dfr d <> GateIndep -> clean d ->
  change_of_basis2 (labels d) (fst (frame_gens d)) (snd (frame_gens d)) M ->
  build_from_anc g reset req d = (d', Ok c) -> reads g outcome o ->
  Forall2 (fun a i => wanted req a -> dget a (active d) = Some true ->
    forall n, dget a (num_rounds d') = Some n ->
    parity outcome i = expected (dfr d) M (labels d) reset n o a) (dkeys (curr_gen d)) c.
Proof.
  intros Hw [Ic Ip] Hf (N & Hch & He) HM Hb Hr.
  assert (Hn := wf_nodup _ Hw). assert (Hp := wf_curr _ Hw).
  assert (Rc := rows_ok_curr d Hw). assert (Rp := rows_ok_prev d Hw).
  apply build_from_anc_inv in Hb as [[_ [e Hb]]|(ancs & nr & E1 & E2 & Hb)]; [discriminate|].
  destruct Hb as [[_ [e Hb]]|(dets & c' & H1 & H2 & -> & H3)]; [discriminate|]. injection H3 as ->.
  apply det_instrs in H2 as [-> F]. cbn [num_rounds set_gens set_rounds].
  set (ls := labels d) in *.
  assert (X : exists col,
      Forall2 (fun a x => exists n, dget a nr = Some n /\ x = (a, contributions (curr_gen d) (prev_gen d) col reset reset n a)) (dkeys (curr_gen d)) dets /\
      (forall a f, In a ls -> pr ls col (curr_gen d) a f = match dfr d with PreGate => xorl (map (fun k => M a k && f k) ls) | _ => f a end) /\
      (forall a f, In a ls -> pr ls col (prev_gen d) a f = match dfr d with PreGate => f a | _ => xorl (map (fun k => M a k && f k) ls) end)).
  { unfold frame_gens in Hch, HM. destruct (dfr d) eqn:Ef; [| |congruence]; simpl in Hch, HM.
    - destruct (get_anc_meas_char ls _ _ _ Hn Hp Rp _ _ _ _ H1) as (col & Hi & Hd). exists col. split; auto. split.
      + intros a f Ha. exact (pr_gf2 ls (prev_gen d) (curr_gen d) col N M a f Hn Rp Rc Ip Hi Hch He HM Ha).
      + intros a f Ha. exact (pr_basis ls _ Hn col a f Hi Ha).
    - destruct (get_anc_meas_char ls _ _ _ Hn Hp Rc _ _ _ _ H1) as (col & Hi & Hd). exists col. split; auto. split.
      + intros a f Ha. exact (pr_basis ls _ Hn col a f Hi Ha).
      + intros a f Ha. exact (pr_gf2 ls (curr_gen d) (prev_gen d) col N M a f Hn Rc Rp Ic Hi Hch He HM Ha). }
  destruct X as (col & Hd & M1 & M2). eapply Forall2_trans; [|exact Hd|exact F].
  intros a x i Hin (n & En & ->) [_ Ht] Hwa Hac n' En'. simpl in Ht. rewrite En in En'. injection En' as <-.
  assert (Ha : In a ls) by (eapply Permutation_in; eauto).
  rewrite (requested_mem _ _ _ _ Hw Ha E1 Hwa Hac) in Ht.
  unfold parity. rewrite (mapM_outcomes _ _ _ _ _ Hr Ht), remove_pairs_parity, (contributions_parity ls) by auto.
  rewrite !M1, !M2 by auto. unfold expected. cbn [xorl map fold_right].
  destruct (dfr d); [| |congruence]; destruct (2 <=? n), (3 <=? n), reset; simpl; rewrite ?xorb_false_r; reflexivity.
Qed.

(** * Gate-independent frame *)
Lemma C05_indep_lemma d g reset req d' c outcome o v1 v2 : wf_det d -> dfr d = GateIndep ->
  build_from_anc g reset req d = (d', Ok c) -> reads g outcome o -> (forall a, In a (labels d) -> v1 a = v2 a) ->
  Forall2 (fun a i => forall n, dget a (num_rounds d') = Some n -> 1 <= n -> noiseless reset n [a] o v1 v2 ->
    (n < (if reset then 2 else 3) -> v2 a = false) -> parity outcome i = false) (labels d) c.
Proof.
  intros Hw Hf H Hr Hv. apply build_from_anc_inv in H as [[_ [e H]]|(ancs & nr & E1 & E2 & H)]; [discriminate|].
  destruct H as [[_ [e H]]|(dets & c' & H1 & H2 & -> & H3)]; [discriminate|]. injection H3 as ->.
  rewrite Hf in H1. apply det_instrs in H2 as [-> F]. apply mapM_Forall2 in H1. cbn [num_rounds set_gens set_rounds].
  eapply Forall2_trans; [|exact H1|exact F].
  intros a x i Ha Hx [_ Ht] n En Hn1 Hno Hz. apply bind_ok in Hx as [n' [H4 H5]]. unfold dget_err in H4. rewrite En in H4.
  simpl in H4. injection H4 as <-. injection H5 as <-. simpl in Ht. unfold parity.
  destruct (mem a ancs); [|now rewrite Ht]. rewrite (mapM_outcomes _ _ _ _ _ Hr Ht), remove_pairs_parity.
  specialize (Hno a (or_introl eq_refl)). rewrite (Hv a Ha) in Hno. destruct reset.
  - destruct Hno as [A B]. destruct (Z.leb_spec 0 (-2 + n)); simpl.
    + rewrite A, B by lia. now destruct (v2 a).
    + rewrite A, Hz by lia. reflexivity.
  - destruct Hno as [A B]. destruct (Z.leb_spec 0 (-3 + n)); simpl.
    + assert (L : (2 <=? n) = true) by (apply Z.leb_le; lia). assert (L' : (3 <=? n) = true) by (apply Z.leb_le; lia).
      rewrite L in A. rewrite L' in B. rewrite A, B by lia. now destruct (v2 a), (o a (-3)).
    + rewrite A. destruct (Z.leb_spec 2 n).
      * assert (L' : (3 <=? n) = false) by (apply Z.leb_gt; lia). rewrite B, L', Hz by lia. reflexivity.
      * rewrite Hz by lia. reflexivity.
Qed.
Lemma C06_indep_lemma d g sup reset recon req d' c outcome o v : wf_det d -> dfr d = GateIndep ->
  build_from_data g sup reset recon req d = (d', Ok c) -> reads g outcome o -> reconstructs sup o recon v ->
  Forall2 (fun a i => forall n, dget a (num_rounds d) = Some n -> 0 <= n -> noiseless_prev reset n [a] o v ->
    (n = 0 -> v a = false) -> parity outcome i = false) (filter (fun a => mem a recon) (labels d)) c.
Proof.
  intros Hw Hf H Hr Hv.
  apply build_from_data_inv in H as [[_ [e H]]|(ancs & nr & dets & dets' & c' & _ & E1 & E2 & H1 & H2 & H3 & -> & H4)]; [discriminate|].
  injection H4 as ->. apply det_instrs in H3 as [-> F]. rewrite Hf in H1. apply mapM_Forall2 in H1.
  apply (Forall2_filter _ (fun a => mem a recon) (fun at_ => mem (fst at_) recon)) in H1.
  2:{ intros a x Hx. apply bind_ok in Hx as [n [_ Hx]]. injection Hx as <-. reflexivity. }
  apply mapM_Forall2 in H2.
  assert (D : Forall2 (fun a x => In a (filter (fun a => mem a recon) (labels d)) /\ exists n t, dget a nr = Some n /\
      to_data sup ((a, -1) :: (if 1 <? n then [(a, -2)] else []) ++ (if negb reset && (2 <? n) then [(a, -3)] else [])) = Ok t /\ x = (a, t))
      (filter (fun a => mem a recon) (labels d)) dets').
  { eapply Forall2_trans; [|exact H1|exact H2]. intros a b x Hin Q1 Q. apply bind_ok in Q1 as [n [Q2 Q1]]. injection Q1 as <-.
    cbn [fst snd] in Q. apply bind_ok in Q as [t [Q Q3]]. injection Q3 as <-. split; auto. exists n, t. split; auto.
    unfold dget_err in Q2. destruct (dget a nr); simpl in Q2; congruence. }
  eapply Forall2_trans; [|exact D|exact F].
  intros a x i _ (Hin & n & t & En & Et & ->) [_ Ht] m Em Hm Hno Hz. simpl in Ht.
  apply filter_In in Hin as [Hin Hrc]. apply mem_In in Hrc.
  unfold parity. destruct (mem a ancs) eqn:Ea; [|now rewrite Ht].
  rewrite (mapM_outcomes _ _ _ _ _ Hr Ht), remove_pairs_parity.
  assert (Ik : exists qs, dget a sup = Some qs) by (eapply to_data_known; [exact Et|now left]).
  destruct Ik as [qs Eq]. pose proof (Hv a qs Hrc Eq) as Oa.
  rewrite (to_data_parity _ _ _ _ Et). cbn [map fst snd]. rewrite map_app, eqb_refl, Eq. cbn [xorl fold_right]. 
  change (xorb (xorl (map (fun q => o q (-1)) qs)) (xorl (map (fun t0 : string * Z =>
     if eqb (snd t0) (-1) then match dget (fst t0) sup with Some qs0 => xorl (map (fun q => o q (-1)) qs0) | None => false end
     else o (fst t0) (snd t0 + 1)) (if 1 <? n then [(a, -2)] else []) ++ map (fun t0 : string * Z =>
     if eqb (snd t0) (-1) then match dget (fst t0) sup with Some qs0 => xorl (map (fun q => o q (-1)) qs0) | None => false end
     else o (fst t0) (snd t0 + 1)) (if negb reset && (2 <? n) then [(a, -3)] else []))) = false).
  rewrite Oa, xorl_app.
  assert (En' : n = m + 1).
  { apply mem_In, (requested_ok _ _ _ E1) in Ea. destruct Ea as [_ Ea].
    rewrite (next_rounds_get d nr a m true Hw E2 Ea Em) in En. now injection En as <-. }
  specialize (Hno a (or_introl eq_refl)). destruct (Z.ltb_spec 1 n).
  - specialize (Hno ltac:(lia)). assert (L : (2 <? n) = (2 <=? m)) by (destruct (Z.ltb_spec 2 n), (Z.leb_spec 2 m); auto; lia).
    rewrite L. cbn [map]. change (eqb (snd (a, -2)) (-1)) with false. cbv iota. cbn [fst snd].
    change (-2 + 1) with (-1). rewrite Hno. destruct (negb reset && (2 <=? m)); cbn; now destruct (v a), (o a (-2)).
  - assert (L : (2 <? n) = false) by (apply Z.ltb_ge; lia). rewrite L, andb_false_r. rewrite Hz by lia. reflexivity.
Qed.

(** * Histories *)
Lemma build_synced o d d' c : is_build o = true -> call o d = (d', Ok c) -> prev_gen d' = curr_gen d'.
Proof.
  destruct o; simpl; try discriminate; intros _ H.
  - apply build_from_anc_inv in H as [[_ [e H]]|(ancs & nr & _ & _ & H)]; [discriminate|].
    destruct H as [[_ [e H]]|(dets & c' & _ & _ & -> & _)]; [discriminate|]. reflexivity.
  - apply build_from_data_inv in H as [[_ [e H]]|(ancs & nr & dets & dets' & c' & _ & _ & _ & _ & _ & _ & -> & _)]; [discriminate|]. reflexivity.
Qed.
