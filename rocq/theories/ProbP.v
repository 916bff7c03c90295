(** Proofs about probabilities (C19, C20, C21). *)
From Coq Require Import QArith Qcanon Reals Lra.
From Verif Require Import Base Lib SetupM StimM NoiseM ProbM.

(** * C21 *)
Section Idle.
Open Scope R_scope.
Lemma exp_ge_1p x : 1 + x <= exp x.
Proof. apply exp_ineq1_le. Qed.
Lemma exp_neg_lt1 x : 0 < x -> exp (- x) < 1.
Proof. intros H. rewrite <- exp_0. apply exp_increasing. lra. Qed.

Lemma idle_rejects t1 t2 d :
  idle_error_probs t1 t2 d = Err ValueError <-> (t1 <= 0 \/ t2 <= 0 \/ d <= 0).
Proof.
  unfold idle_error_probs.
  destruct (Rle_dec t1 0), (Rle_dec t2 0), (Rle_dec d 0); split; intros H; try reflexivity; try tauto;
    try discriminate.
Qed.
Lemma idle_ok t1 t2 d : 0 < t1 -> 0 < t2 -> t2 <= 2 * t1 -> 0 < d ->
  exists x y z, idle_error_probs t1 t2 d = Ok (x, y, z) /\
    0 <= x /\ 0 <= y /\ 0 <= z /\ x + y + z < 1.
Proof.
  intros H1 H2 H3 Hd. unfold idle_error_probs.
  destruct (Rle_dec t1 0); [lra|]. destruct (Rle_dec t2 0); [lra|]. destruct (Rle_dec d 0); [lra|].
  eexists; eexists; eexists; split; [reflexivity|].
  assert (E1 : 0 < exp (- d / t1) < 1).
  { split; [apply exp_pos|]. unfold Rdiv. rewrite Ropp_mult_distr_l_reverse. apply exp_neg_lt1.
    apply Rdiv_lt_0_compat; lra. }
  assert (E2 : 0 < exp (- d / t2) < 1).
  { split; [apply exp_pos|]. unfold Rdiv. rewrite Ropp_mult_distr_l_reverse. apply exp_neg_lt1.
    apply Rdiv_lt_0_compat; lra. }
  assert (Hz : 0 <= 1 / 2 * (1 - exp (- d / t2)) - 1 / 4 * (1 - exp (- d / t1))).
  { set (u := exp (- d / (2 * t1))).
    assert (Hu : exp (- d / t1) = u * u).
    { unfold u. rewrite <- exp_plus. f_equal. field. lra. }
    assert (Hu1 : 0 < u < 1).
    { unfold u. split; [apply exp_pos|]. unfold Rdiv. rewrite Ropp_mult_distr_l_reverse. apply exp_neg_lt1.
      apply Rdiv_lt_0_compat; lra. }
    assert (Hle : exp (- d / t2) <= u).
    { unfold u. destruct (Req_dec t2 (2 * t1)) as [->|N]; [lra|]. left. apply exp_increasing.
      unfold Rdiv. rewrite !Ropp_mult_distr_l_reverse. apply Ropp_lt_contravar.
      apply Rmult_lt_compat_l; auto. apply Rinv_lt_contravar; [|lra].
      apply Rmult_lt_0_compat; lra. }
    rewrite Hu. nra. }
  lra.
Qed.
Lemma idle_negative t1 t2 : 0 < t1 -> 2 * t1 < t2 ->
  exists d x y z, 0 < d /\ idle_error_probs t1 t2 d = Ok (x, y, z) /\ z < 0.
Proof.
  intros H1 H2. set (d := (t2 / 2 - t1) / 2). assert (Hd : 0 < d) by (unfold d; lra).
  exists d. unfold idle_error_probs.
  destruct (Rle_dec t1 0); [lra|]. destruct (Rle_dec t2 0); [lra|]. destruct (Rle_dec d 0); [lra|].
  eexists; eexists; eexists; split; [exact Hd|]. split; [reflexivity|].
  assert (A : 1 - exp (- d / t2) <= d / t2).
  { pose proof (exp_ge_1p (- d / t2)). assert (- d / t2 = - (d / t2)) by (field; lra). lra. }
  assert (B : d / (t1 + d) <= 1 - exp (- d / t1)).
  { assert (exp (- d / t1) <= / (1 + d / t1)).
    { replace (- d / t1) with (- (d / t1)) by (field; lra). rewrite exp_Ropp.
      apply Rinv_le_contravar; [|apply exp_ge_1p].
      assert (0 < d / t1) by (apply Rdiv_lt_0_compat; lra). lra. }
    assert (/ (1 + d / t1) = 1 - d / (t1 + d)) by (field; lra). lra. }
  assert (C : 1 / 2 * (d / t2) < 1 / 4 * (d / (t1 + d))).
  { assert (/ t2 * 2 < / (t1 + d)).
    { replace (/ t2 * 2) with (/ (t2 / 2)) by (field; lra).
      apply Rinv_lt_contravar; [apply Rmult_lt_0_compat; unfold d; lra|unfold d; lra]. }
    unfold Rdiv at 2 4. nra. }
  lra.
Qed.
End Idle.

(** * C19, C20 *)
Open Scope Z_scope.
Lemma product_rep_length n : Z.of_nat (length (product_rep n)) = 4 ^ Z.of_nat n.
Proof.
  induction n as [|n IH]; [reflexivity|].
  cbn [product_rep paulis flat_map]. rewrite !app_length, !map_length. simpl (length []).
  rewrite Nat2Z.inj_succ, Z.pow_succ_r by lia. lia.
Qed.
Lemma product_rep_In n op : In op (product_rep n) <-> length op = n /\ Forall (fun p => In p paulis) op.
Proof.
  revert op; induction n as [|n IH]; intros op.
  - simpl. split; [intros [<-|[]]; auto|]. intros [H _]. destruct op; [auto|discriminate].
  - cbn [product_rep]. rewrite in_flat_map. split.
    + intros [p [Hp H]]. apply in_map_iff in H as [op' [<- H]]. apply IH in H as [H1 H2].
      split; [simpl; lia|constructor; auto].
    + intros [H1 H2]. destruct op as [|p op]; [discriminate|]. inversion H2; subst.
      exists p. split; auto. apply in_map. apply IH. split; auto.
Qed.
Lemma NoDup_app_disj {A} (l l' : list A) : NoDup l -> NoDup l' -> (forall x, In x l -> ~ In x l') -> NoDup (l ++ l').
Proof.
  induction 1 as [|x l Hx Hl IH]; simpl; intros H' Hd; auto.
  constructor.
  - rewrite in_app_iff. intros [H|H]; [auto|]. apply (Hd x); auto.
  - apply IH; auto.
Qed.
Lemma product_rep_NoDup n : NoDup (product_rep n).
Proof.
  induction n as [|n IH]; [repeat constructor; auto|].
  cbn [product_rep].
  assert (G : forall ps, NoDup ps -> NoDup (flat_map (fun p => map (cons p) (product_rep n)) ps)).
  { induction 1 as [|p ps Hp Hps IH']; simpl; [constructor|]. apply NoDup_app_disj; auto.
    - apply FinFun.Injective_map_NoDup; auto. intros x y H; congruence.
    - intros op H1 H2. apply in_map_iff in H1 as [o1 [<- _]].
      apply in_flat_map in H2 as [p' [Hp' H2]]. apply in_map_iff in H2 as [o2 [E _]].
      injection E as -> ->. contradiction. }
  apply G. repeat constructor; simpl; intuition discriminate.
Qed.
Lemma product_rep_head n : exists l, product_rep n = repeat "I" n :: l.
Proof.
  induction n as [|n [l IH]]; [exists []; reflexivity|].
  cbn [product_rep paulis flat_map]. rewrite IH. simpl. eauto.
Qed.
Lemma operators_spec n op : In op (operators n) <->
  length op = n /\ Forall (fun p => In p paulis) op /\ op <> repeat "I" n.
Proof.
  unfold operators. destruct (product_rep_head n) as [l Hl].
  pose proof (product_rep_NoDup n) as Hnd. pose proof (product_rep_In n op) as Hin.
  rewrite Hl in *. simpl in *. inversion Hnd as [|? ? Hni _]; subst. split.
  - intros H. destruct Hin as [H1 _]. destruct H1 as [H1 H2]; auto. repeat split; auto.
    intros ->. contradiction.
  - intros (H1 & H2 & H3). destruct Hin as [_ H4]. destruct H4 as [H4|H4]; auto. congruence.
Qed.
Lemma operators_NoDup n : NoDup (operators n).
Proof.
  unfold operators. pose proof (product_rep_NoDup n) as H. destruct (product_rep n); [constructor|].
  now inversion H.
Qed.
Lemma operators_length n : Z.of_nat (length (operators n)) = 4 ^ Z.of_nat n - 1.
Proof.
  unfold operators. pose proof (product_rep_length n) as H. destruct (product_rep_head n) as [l Hl].
  rewrite Hl in *. simpl length in *. simpl tl. lia.
Qed.

Definition is_pauli (p : string) : Prop := p = "X" \/ p = "Y" \/ p = "Z".
Lemma filter_map_cons (p q : string) (l : list (list string)) : p <> q ->
  length (filter (mem p) (map (cons q) l)) = length (filter (mem p) l).
Proof.
  intros N. induction l as [|o l IH]; simpl; [reflexivity|].
  replace (eqb p q) with false by (symmetry; now apply eqb_neq). simpl.
  destruct (mem p o); simpl; now rewrite IH.
Qed.
Lemma filter_map_cons_same (p : string) (l : list (list string)) :
  length (filter (mem p) (map (cons p) l)) = length l.
Proof. induction l as [|o l IH]; simpl; [reflexivity|]. rewrite eqb_refl; simpl. now rewrite IH. Qed.
Lemma biased_count p n : is_pauli p ->
  Z.of_nat (length (filter (mem p) (product_rep n))) = 4 ^ Z.of_nat n - 3 ^ Z.of_nat n.
Proof.
  intros Hp. induction n as [|n IH]; [reflexivity|].
  cbn [product_rep paulis flat_map]. rewrite !filter_app, !app_length. simpl (filter _ []). simpl (length []).
  pose proof (product_rep_length n) as HL.
  rewrite Nat2Z.inj_succ, !Z.pow_succ_r by lia.
  assert (NI : p <> "I") by (destruct Hp as [->|[->| ->]]; discriminate).
  rewrite (filter_map_cons p "I") by auto.
  destruct Hp as [->|[->| ->]];
    rewrite filter_map_cons_same; repeat rewrite filter_map_cons by discriminate; lia.
Qed.
Lemma biased_count_ops p n : is_pauli p ->
  Z.of_nat (length (filter (mem p) (operators n))) = 4 ^ Z.of_nat n - 3 ^ Z.of_nat n.
Proof.
  intros Hp. rewrite <- (biased_count p n Hp). unfold operators.
  destruct (product_rep_head n) as [l ->]. simpl tl. cbn [filter].
  replace (mem p (repeat "I" n)) with false; [reflexivity|].
  symmetry. apply mem_not_In. intros H. apply repeat_spec in H.
  destruct Hp as [->|[->| ->]]; discriminate.
Qed.

Lemma fold_add_app l l' : fold_right Z.add 0 (l ++ l') = fold_right Z.add 0 l + fold_right Z.add 0 l'.
Proof. induction l as [|x l IH]; simpl; [reflexivity|]. rewrite IH; lia. Qed.
Lemma fold_add_scale (f g : nat -> Z) c l : (forall i, In i l -> g i = c * f i) ->
  fold_right Z.add 0 (map g l) = c * fold_right Z.add 0 (map f l).
Proof.
  induction l as [|x l IH]; simpl; intros H; [lia|].
  rewrite (H x) by auto. rewrite IH by auto. lia.
Qed.
Lemma num_biased_ops_closed n : num_biased_ops n = 4 ^ Z.of_nat n - 3 ^ Z.of_nat n.
Proof.
  unfold num_biased_ops. induction n as [|n IH]; [reflexivity|].
  rewrite seq_S, map_app, fold_add_app. simpl (0 + n)%nat. cbn [map fold_right].
  rewrite (fold_add_scale (fun i => 4 ^ Z.of_nat i * 3 ^ (Z.of_nat n - 1 - Z.of_nat i)) _ 3).
  - rewrite IH. replace (Z.of_nat (S n) - 1 - Z.of_nat n) with 0 by lia. simpl (3 ^ 0).
    rewrite Nat2Z.inj_succ, !Z.pow_succ_r by lia. lia.
  - intros i Hi. apply in_seq in Hi.
    replace (Z.of_nat (S n) - 1 - Z.of_nat i) with (Z.succ (Z.of_nat n - 1 - Z.of_nat i)) by lia.
    rewrite Z.pow_succ_r by lia. lia.
Qed.

Definition qz (z : Z) : Qc := Q2Qc (inject_Z z).
Lemma qz_this a : this (qz a) = inject_Z a.
Proof. unfold qz, Q2Qc. cbn [this]. apply Qred_identity. simpl. apply Z.gcd_1_r. Qed.
Lemma qz_add a b : qz (a + b) = (qz a + qz b)%Qc.
Proof.
  apply Qc_is_canon. change (this (qz a + qz b)%Qc) with (Qred (this (qz a) + this (qz b))).
  rewrite !qz_this. etransitivity; [|symmetry; apply Qred_correct]. unfold Qeq, inject_Z, Qplus; simpl. lia.
Qed.
Lemma qz_pos a : 0 < a -> (Q2Qc 0 < qz a)%Qc.
Proof.
  intros H. unfold Qclt. rewrite qz_this. unfold inject_Z, Qlt; simpl; lia.
Qed.
Lemma qz_nonneg a : 0 <= a -> (Q2Qc 0 <= qz a)%Qc.
Proof.
  intros H. unfold Qcle. rewrite qz_this. unfold inject_Z, Qle; simpl; lia.
Qed.

Lemma sumQ_two (f : list string -> bool) (b x : Qc) l :
  sumQ (map (fun op => if f op then b else x) l) =
  (qz (Z.of_nat (length (filter f l))) * b + (qz (Z.of_nat (length l)) - qz (Z.of_nat (length (filter f l)))) * x)%Qc.
Proof.
  induction l as [|o l IH].
  - simpl. unfold qz. simpl. change (Q2Qc (inject_Z 0)) with (Q2Qc 0). ring.
  - cbn [map sumQ fold_right filter length]. fold (sumQ (map (fun op => if f op then b else x) l)).
    rewrite IH. rewrite Nat2Z.inj_succ, <- Z.add_1_r, qz_add.
    destruct (f o); cbn [length]; rewrite ?Nat2Z.inj_succ, <- ?Z.add_1_r, ?qz_add;
      change (qz 1) with (Q2Qc 1); ring.
Qed.

Lemma biased_lemma p eta n : is_pauli p -> (1 <= n)%nat -> (Q2Qc 0 <= eta)%Qc ->
  exists l x, prefactors (in_op (VStr p)) eta n = Ok l /\
    Z.of_nat (length l) = 4 ^ Z.of_nat n - 1 /\ sumQ l = Q2Qc 1 /\
    Forall (fun y => (Q2Qc 0 <= y)%Qc) l /\ (Q2Qc 0 < x)%Qc /\
    l = map (fun op => if mem p op then (eta * x)%Qc else x) (operators n).
Proof.
  intros Hp Hn Heta. unfold prefactors. change (in_op (VStr p)) with (mem p).
  fold (qz (Z.of_nat (length (operators n)))). fold (qz (Z.of_nat (length (filter (mem p) (operators n))))).
  pose proof (operators_length n) as HL. pose proof (biased_count_ops p n Hp) as HB.
  set (N := qz (Z.of_nat (length (operators n)))). set (B := qz (Z.of_nat (length (filter (mem p) (operators n))))).
  assert (H3 : 3 <= 3 ^ Z.of_nat n).
  { change 3 with (3 ^ 1) at 1. apply Z.pow_le_mono_r; lia. }
  assert (H43 : 3 ^ Z.of_nat n <= 4 ^ Z.of_nat n) by (apply Z.pow_le_mono_l; lia).
  assert (HNB : (Q2Qc 0 < N - B)%Qc).
  { unfold N, B. rewrite HL, HB.
    replace (4 ^ Z.of_nat n - 1) with ((4 ^ Z.of_nat n - 3 ^ Z.of_nat n) + (3 ^ Z.of_nat n - 1)) by lia.
    rewrite qz_add. replace (_ + _ - _)%Qc with (qz (3 ^ Z.of_nat n - 1)) by ring. apply qz_pos. lia. }
  assert (HB0 : (Q2Qc 0 <= B)%Qc) by (apply qz_nonneg; lia).
  assert (Hden : (Q2Qc 0 < B * (eta - 1) + N)%Qc).
  { replace (B * (eta - 1) + N)%Qc with ((N - B) + B * eta)%Qc by ring.
    replace (Q2Qc 0) with (Q2Qc 0 + Q2Qc 0 * eta)%Qc by ring.
    apply Qcle_lt_trans with (Q2Qc 0 + B * eta)%Qc.
    - apply Qcplus_le_compat; [apply Qcle_refl|]. now apply Qcmult_le_compat_r.
    - apply Qclt_minus_iff.
      replace (N - B + B * eta + - (Q2Qc 0 + B * eta))%Qc with (N - B)%Qc by ring. exact HNB. }
  set (den := (B * (eta - 1) + N)%Qc) in *.
  assert (Hne : den <> Q2Qc 0) by (intros E; rewrite E in Hden; now apply Qclt_not_eq in Hden).
  replace (eqb den (Q2Qc 0)) with false by (symmetry; now apply eqb_neq).
  assert (Hx : (Q2Qc 0 < / den)%Qc).
  { destruct (Qclt_le_dec (Q2Qc 0) (/ den)) as [|Hle]; auto. exfalso.
    assert (H : (/ den * den <= Q2Qc 0 * den)%Qc) by (apply Qcmult_le_compat_r; auto using Qclt_le_weak).
    rewrite (Qcmult_comm (/ den)), Qcmult_inv_r in H by auto. rewrite Qcmult_0_l in H.
    apply Qcle_not_lt in H. apply H. reflexivity. }
  eexists; exists (/ den)%Qc. split; [reflexivity|]. split; [now rewrite map_length|]. split; [|split; [|split]].
  - rewrite sumQ_two. fold N B. transitivity ((N - B + B * eta) * / den)%Qc; [ring|].
    replace (N - B + B * eta)%Qc with den by (unfold den; ring). now apply Qcmult_inv_r.
  - apply Forall_forall. intros y Hy. apply in_map_iff in Hy as [op [<- _]]. destruct (mem p op).
    + replace (Q2Qc 0) with (Q2Qc 0 * / den)%Qc by ring. apply Qcmult_le_compat_r; auto using Qclt_le_weak.
    + now apply Qclt_le_weak.
  - exact Hx.
  - reflexivity.
Qed.
