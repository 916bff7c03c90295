(** Proofs about the completeness of the stabilizer generators: functions on the grid. *)
From Coq Require Import QArith Qcanon.
From Verif Require Import Base Lib StimM LayoutM SpecLayout GenM GenP SpecGen SpecSpan GeomP.
Open Scope Z_scope.

(** * Sums along a column, in steps of two *)
Section Column.
  Context (h : Z -> Z -> bool) (top : Z).
  Hypothesis Hout : forall r c, top <= r -> h r c = false.
  Fixpoint sfx (n : nat) (r c : Z) : bool := match n with 0%nat => false | S n => xorb (h r c) (sfx n (r + 2) c) end.
  Definition V (r c : Z) : bool := sfx (Z.to_nat (top - r)) r c.
  Lemma sfx_more : forall n k r c, (Z.to_nat (top - r) <= n)%nat -> sfx (n + k) r c = sfx n r c.
  Proof.
    induction n as [|n IH]; intros k r c H.
    - cbn [Nat.add]. revert r H. induction k as [|k IHk]; intros r H; [reflexivity|]. cbn [sfx]. rewrite Hout by lia. rewrite IHk by lia. reflexivity.
    - cbn [Nat.add sfx]. f_equal. apply IH. lia.
  Qed.
  Lemma V_top r c : top <= r -> V r c = false.
  Proof using. clear Hout. intros H. unfold V. now replace (Z.to_nat (top - r)) with 0%nat by lia. Qed.
  Lemma V_step r c : V r c = xorb (h r c) (V (r + 2) c).
  Proof.
    destruct (Z.le_gt_cases top r) as [H|H]; [rewrite !V_top, Hout by lia; reflexivity|].
    unfold V. replace (Z.to_nat (top - r)) with (S (Z.to_nat (top - r - 1))) by lia. cbn [sfx]. f_equal.
    replace (Z.to_nat (top - r - 1)) with (Z.to_nat (top - (r + 2)) + (Z.to_nat (top - r - 1) - Z.to_nat (top - (r + 2))))%nat by lia.
    apply sfx_more. lia.
  Qed.
End Column.
(* induction downwards in steps of [k] *)
Lemma down_ind (top k : Z) (Q : Z -> Prop) : 0 < k -> (forall r, top <= r -> Q r) -> (forall r, r < top -> Q (r + k) -> Q r) -> forall r, Q r.
Proof.
  intros Hk H0 H1. assert (G : forall n r, top - r <= Z.of_nat n -> Q r).
  { induction n as [|n IH]; intros r H; [apply H0; lia|]. destruct (Z.le_gt_cases top r); [now apply H0|]. apply H1; [lia|]. apply IH. lia. }
  intros r. apply (G (Z.to_nat (top - r))). lia.
Qed.
Lemma const_row (g : Z -> bool) c0 n : (forall c, c0 < c -> c + 1 < n -> (c - c0) mod 2 = 1 -> g (c - 1) = g (c + 1)) ->
  forall j, c0 <= j < n -> (j - c0) mod 2 = 0 -> g j = g c0.
Proof.
  intros H j Hj Ej. assert (G : forall k, c0 + 2 * Z.of_nat k < n -> g (c0 + 2 * Z.of_nat k) = g c0).
  { induction k as [|k IH]; intros L; [f_equal; lia|]. rewrite <- IH by lia.
    replace (c0 + 2 * Z.of_nat (S k)) with (c0 + 2 * Z.of_nat k + 1 + 1) by lia. rewrite <- H by lia. f_equal. lia. }
  replace j with (c0 + 2 * Z.of_nat (Z.to_nat ((j - c0) / 2))) by lia. apply G. lia.
Qed.

(** * Rotated codes: data at odd positions, one type of face at even positions with
    (r + c) mod 4 = e in columns 2 ... 2n - 2, the other in rows 2 ... 2m - 2 *)
Section RotGrid.
  Context (m n e : Z) (h : Z -> Z -> bool).
  Hypothesis He : e = 0 \/ e = 2.
  Hypothesis Hm : 1 <= m.
  Hypothesis Hn : 1 <= n.
  Hypothesis Hlow : forall r c, r < 0 -> h r c = false.
  Hypothesis Hout : forall r c, 2 * m + 1 <= r -> h r c = false.
  Hypothesis HA : forall r c, r mod 2 = 0 -> (r + c) mod 4 = e -> 0 <= r <= 2 * m -> 2 <= c <= 2 * n - 2 ->
    xorb (h (r + 1) (c + 1)) (xorb (h (r + 1) (c - 1)) (xorb (h (r - 1) (c + 1)) (h (r - 1) (c - 1)))) = false.
  Definition bface (r c : Z) : bool := (r mod 2 =? 0) && ((r + c) mod 4 =? 2 - e) && (2 <=? r) && (r <=? 2 * m - 2) && (0 <=? c) && (c <=? 2 * n).
  Notation V := (V h (2 * m + 1)).
  Lemma V_face : forall r c, -1 <= r -> r mod 2 = 1 -> (r + 1 + c) mod 4 = e -> 2 <= c <= 2 * n - 2 -> V r (c - 1) = V r (c + 1).
  Proof.
    intros r c. revert r. apply (down_ind (2 * m + 1) 4 (fun r => -1 <= r -> r mod 2 = 1 -> (r + 1 + c) mod 4 = e -> 2 <= c <= 2 * n - 2 -> V r (c - 1) = V r (c + 1))); [lia| |].
    - intros r H _ _ _ _. now rewrite !V_top.
    - intros r H IH L O E C. rewrite !(V_step h _ Hout r), !(V_step h _ Hout (r + 2)). replace (r + 2 + 2) with (r + 4) by lia.
      rewrite IH by lia. pose proof (HA (r + 1) c ltac:(lia) E ltac:(lia) C) as A. replace (r + 1 + 1) with (r + 2) in A by lia. replace (r + 1 - 1) with r in A by lia.
      destruct (h r (c - 1)), (h r (c + 1)), (h (r + 2) (c - 1)), (h (r + 2) (c + 1)); try discriminate A; now destruct (V (r + 4) (c + 1)).
  Qed.
  Definition face_val (r c : Z) : bool := V (r + 1) (if c =? 0 then 1 else c - 1).
  Lemma face_val_at i j c : 0 < i -> i mod 2 = 1 -> j mod 2 = 1 -> 0 < j < 2 * n + 1 -> (c = j - 1 \/ c = j + 1) -> (i - 1 + c) mod 4 = 2 - e ->
    face_val (i - 1) c = V i j.
  Proof.
    intros Hi Oi Oj Hj Hc E. unfold face_val. replace (i - 1 + 1) with i by lia.
    destruct (Z.eqb_spec c 0); [f_equal; lia|]. destruct Hc as [->| ->].
    - destruct (Z.eq_dec (j - 1) (2 * n)) as [E2|N2]; [lia|]. replace j with (j - 1 + 1) at 2 by lia. apply V_face; lia.
    - f_equal. lia.
  Qed.
  Definition cell_sum (T : Z -> Z -> bool) (i j : Z) : bool :=
    xorb (T (i + 1) (j + 1)) (xorb (T (i + 1) (j - 1)) (xorb (T (i - 1) (j + 1)) (T (i - 1) (j - 1)))).
  Lemma rot_grid : exists b, forall i j, i mod 2 = 1 -> j mod 2 = 1 -> 0 < i < 2 * m + 1 -> 0 < j < 2 * n + 1 ->
    h i j = xorb (cell_sum (fun r c => bface r c && face_val r c) i j) (b && (i =? 1)).
  Proof.
    exists (V 1 1). intros i j Oi Oj Hi Hj.
    assert (Row : forall i, i mod 2 = 1 -> 0 < i -> xorb (bface (i - 1) (j + 1) && face_val (i - 1) (j + 1)) (bface (i - 1) (j - 1) && face_val (i - 1) (j - 1)) =
      (3 <=? i) && (i <=? 2 * m - 1) && V i j).
    { clear i Oi Hi. intros i Oi Hi.
      assert (D : (i - 1 + (j + 1)) mod 4 = 2 - e /\ (i - 1 + (j - 1)) mod 4 <> 2 - e \/ (i - 1 + (j + 1)) mod 4 <> 2 - e /\ (i - 1 + (j - 1)) mod 4 = 2 - e) by lia.
      destruct D as [[D1 D2]|[D1 D2]].
      - rewrite (face_val_at i j (j + 1)) by (auto || lia). unfold bface. replace ((i - 1 + (j - 1)) mod 4 =? 2 - e) with false by lia.
        rewrite (andb_false_r ((i - 1) mod 2 =? 0)), !andb_false_l, xorb_false_r. f_equal. apply eq_true_iff_eq. rewrite !andb_true_iff, !Z.eqb_eq, !Z.leb_le. lia.
      - rewrite (face_val_at i j (j - 1)) by (auto || lia). unfold bface. replace ((i - 1 + (j + 1)) mod 4 =? 2 - e) with false by lia.
        rewrite (andb_false_r ((i - 1) mod 2 =? 0)), !andb_false_l, xorb_false_l. f_equal. apply eq_true_iff_eq. rewrite !andb_true_iff, !Z.eqb_eq, !Z.leb_le. lia. }
    pose proof (Row i Oi ltac:(lia)) as R1. pose proof (Row (i + 2) ltac:(lia) ltac:(lia)) as R2. replace (i + 2 - 1) with (i + 1) in R2 by lia.
    unfold cell_sum. rewrite R1, <- xorb_assoc, R2. pose proof (V_step h _ Hout i j) as St.
    assert (R3 : (3 <=? i + 2) && (i + 2 <=? 2 * m - 1) && V (i + 2) j = V (i + 2) j).
    { clear - Hm Hi Oi. destruct (Z.leb_spec (i + 2) (2 * m - 1)); [replace (3 <=? i + 2) with true by lia; reflexivity|]. rewrite V_top by lia. now rewrite andb_false_r. }
    rewrite R3. clear R1 R2 R3 Row. destruct (Z.eqb_spec i 1) as [->|N1].
    - replace ((3 <=? 1) && (1 <=? 2 * m - 1)) with false by lia. rewrite andb_false_l, xorb_false_r, andb_true_r.
      assert (K : V 1 j = V 1 1).
      { apply (const_row (fun c => V 1 c) 1 (2 * n + 1)); [|lia|lia]. intros c Hc Hc2 Oc.
        assert (D : (1 + 1 + c) mod 4 = e \/ (-1 + 1 + c) mod 4 = e) by lia. destruct D as [D|D]; [apply V_face; lia|].
        pose proof (V_face (-1) c ltac:(lia) ltac:(lia) D ltac:(lia)) as K. rewrite !(V_step h _ Hout (-1)), !Hlow, !xorb_false_l in K by lia. exact K. }
      rewrite <- K, St. change (1 + 2) with 3. destruct (h 1 j), (V 3 j); reflexivity.
    - replace ((3 <=? i) && (i <=? 2 * m - 1)) with true by lia. rewrite andb_true_l, andb_false_r, xorb_false_r, St.
      destruct (h i j), (V (i + 2) j); reflexivity.
  Qed.
End RotGrid.
Lemma rot_indep m n e (T : Z -> Z -> bool) : e = 0 \/ e = 2 -> 1 <= n -> (forall r c, T r c = true -> bface m n e r c = true) ->
  (forall i j, i mod 2 = 1 -> j mod 2 = 1 -> 0 < i < 2 * m + 1 -> 0 < j < 2 * n + 1 -> cell_sum T i j = false) -> forall r c, T r c = false.
Proof.
  intros He Hn HB H0. apply (down_ind (2 * m - 1) 2 (fun r => forall c, T r c = false)); [lia| |].
  - intros r Hr c. apply not_true_is_false. intros E. apply HB in E. unfold bface in E. lia.
  - intros r Hr IH c. apply not_true_is_false. intros E. pose proof (HB _ _ E) as B. unfold bface in B.
    assert (D : 0 < c \/ c = 0) by lia.
    assert (K : exists j, j mod 2 = 1 /\ 0 < j < 2 * n + 1 /\ (c = j - 1 \/ c = j + 1)).
    { destruct D; [exists (c - 1)|exists (c + 1)]; lia. }
    destruct K as (j & Oj & Hj & Hc). pose proof (H0 (r + 1) j ltac:(lia) Oj ltac:(lia) Hj) as C. unfold cell_sum in C.
    replace (r + 1 + 1) with (r + 2) in C by lia. rewrite !IH, !xorb_false_l in C. replace (r + 1 - 1) with r in C by lia.
    assert (O : T r (if c =? j - 1 then j + 1 else j - 1) = false).
    { apply not_true_is_false. intros E'. pose proof (HB _ _ E') as B'. unfold bface in B'. destruct (c =? j - 1) eqn:Q; lia. }
    destruct (Z.eqb_spec c (j - 1)) as [->|N]; [rewrite O, E in C; discriminate|].
    assert (c = j + 1) as -> by lia. rewrite O, E in C. discriminate.
Qed.

(** * Unrotated codes: data where r + c is even, faces of one type where r is even and c
    is odd, of the other where r is odd and c is even *)
Section UnrotGrid.
  Context (m n : Z) (h : Z -> Z -> bool).
  Hypothesis Hm : 1 <= m.
  Hypothesis Hn : 1 <= n.
  Hypothesis Hlow : forall r c, r < 0 -> h r c = false.
  Hypothesis Hout : forall r c, 2 * m - 1 <= r -> h r c = false.
  Hypothesis HA : forall r c, r mod 2 = 0 -> c mod 2 = 1 -> 0 <= r < 2 * m - 1 -> 0 <= c < 2 * n - 1 ->
    xorb (h r (c + 1)) (xorb (h r (c - 1)) (xorb (h (r + 1) c) (h (r - 1) c))) = false.
  Definition uface (r c : Z) : bool := (r mod 2 =? 1) && (c mod 2 =? 0) && (0 <=? r) && (r <? 2 * m - 1) && (0 <=? c) && (c <? 2 * n - 1).
  Notation V := (V h (2 * m - 1)).
  Lemma V_uface r c : 0 <= r -> r mod 2 = 0 -> c mod 2 = 1 -> 0 <= c < 2 * n - 1 -> xorb (V r (c - 1)) (V r (c + 1)) = h (r - 1) c.
  Proof.
    revert r. apply (down_ind (2 * m - 1) 2 (fun r => 0 <= r -> r mod 2 = 0 -> c mod 2 = 1 -> 0 <= c < 2 * n - 1 -> xorb (V r (c - 1)) (V r (c + 1)) = h (r - 1) c)); [lia| |].
    - intros r H _ E _ _. rewrite !V_top, Hout by lia. reflexivity.
    - intros r H IH L E O C. rewrite !(V_step h _ Hout r). specialize (IH ltac:(lia) ltac:(lia) O C). replace (r + 2 - 1) with (r + 1) in IH by lia.
      pose proof (HA r c E O ltac:(lia) C) as A.
      destruct (h r (c - 1)), (h r (c + 1)), (h (r + 1) c), (h (r - 1) c); try discriminate A; destruct (V (r + 2) (c - 1)), (V (r + 2) (c + 1)); (reflexivity || discriminate IH).
  Qed.
  Definition uval (r c : Z) : bool := V (r + 1) c.
  Definition ucell_sum (T : Z -> Z -> bool) (i j : Z) : bool := xorb (T i (j + 1)) (xorb (T i (j - 1)) (xorb (T (i + 1) j) (T (i - 1) j))).
  Lemma unrot_grid : exists b, forall i j, (i + j) mod 2 = 0 -> 0 <= i < 2 * m - 1 -> 0 <= j < 2 * n - 1 ->
    h i j = xorb (ucell_sum (fun r c => uface r c && uval r c) i j) (b && (i =? 0)).
  Proof.
    exists (V 0 0). intros i j E Hi Hj. unfold ucell_sum.
    assert (D : i mod 2 = 0 /\ j mod 2 = 0 \/ i mod 2 = 1 /\ j mod 2 = 1) by lia. destruct D as [[Ei Ej]|[Oi Oj]].
    - assert (Z1 : forall c, uface i c = false) by (intros c; unfold uface; replace (i mod 2 =? 1) with false by lia; reflexivity).
      rewrite !Z1, !andb_false_l, !xorb_false_l. pose proof (V_step h _ Hout i j) as St.
      assert (U : uface (i + 1) j && uval (i + 1) j = V (i + 2) j).
      { unfold uval. replace (i + 1 + 1) with (i + 2) by lia. destruct (Z.lt_ge_cases (i + 1) (2 * m - 1)).
        - replace (uface (i + 1) j) with true by (unfold uface; lia). reflexivity.
        - rewrite V_top by lia. apply andb_false_r. }
      rewrite U. destruct (Z.eqb_spec i 0) as [->|N].
      + replace (uface (0 - 1) j) with false by (unfold uface; lia). rewrite andb_false_l, xorb_false_r, andb_true_r.
        assert (K : V 0 j = V 0 0).
        { apply (const_row (fun c => V 0 c) 0 (2 * n - 1)); [|lia|lia]. intros c Hc Hc2 Oc.
          pose proof (V_uface 0 c ltac:(lia) ltac:(lia) ltac:(lia) ltac:(lia)) as K. rewrite Hlow in K by lia.
          destruct (V 0 (c - 1)), (V 0 (c + 1)); (reflexivity || discriminate K). }
        rewrite <- K, St. change (0 + 2) with 2. destruct (h 0 j), (V 2 j); reflexivity.
      + replace (uface (i - 1) j) with true by (unfold uface; lia). unfold uval. replace (i - 1 + 1) with i by lia.
        rewrite andb_true_l, andb_false_r, xorb_false_r, St. destruct (h i j), (V (i + 2) j); reflexivity.
    - assert (Z1 : forall r, uface r j = false) by (intros r; unfold uface; replace (j mod 2 =? 0) with false by lia; now rewrite andb_false_r).
      rewrite !Z1, !andb_false_l, !xorb_false_r. replace (i =? 0) with false by lia. rewrite andb_false_r, xorb_false_r.
      replace (uface i (j + 1)) with true by (unfold uface; lia). replace (uface i (j - 1)) with true by (unfold uface; lia).
      rewrite !andb_true_l. unfold uval. rewrite xorb_comm, V_uface by lia. f_equal. lia.
  Qed.
End UnrotGrid.
Lemma unrot_indep m n (T : Z -> Z -> bool) : (forall r c, T r c = true -> uface m n r c = true) ->
  (forall i j, (i + j) mod 2 = 0 -> 0 <= i < 2 * m - 1 -> 0 <= j < 2 * n - 1 -> ucell_sum T i j = false) -> forall r c, T r c = false.
Proof.
  intros HB H0. apply (down_ind (2 * m - 1) 2 (fun r => forall c, T r c = false)); [lia| |].
  - intros r Hr c. apply not_true_is_false. intros E. apply HB in E. unfold uface in E. lia.
  - intros r Hr IH c. apply not_true_is_false. intros E. pose proof (HB _ _ E) as B. unfold uface in B.
    pose proof (H0 (r + 1) c ltac:(lia) ltac:(lia) ltac:(lia)) as C. unfold ucell_sum in C.
    assert (O : forall c, T (r + 1) c = false) by (intros c'; apply not_true_is_false; intros E'; apply HB in E'; unfold uface in E'; lia).
    rewrite !O, !xorb_false_l in C. replace (r + 1 + 1) with (r + 2) in C by lia. rewrite IH, xorb_false_l in C. replace (r + 1 - 1) with r in C by lia. congruence.
Qed.
