(** Correctness of the elimination in MatM.v, and the link between the inverse
    over the rationals and the inverse modulo 2. *)
From Coq Require Import QArith Qcanon Ring Field.
From Verif Require Import Base Lib MatM.

Record flaws {F} (K : fops F) : Prop := {
  fl_ring : ring_theory (f0 K) (f1 K) (fadd K) (fmul K) (fun x y => fadd K x (fopp K y)) (fopp K) eq;
  fl_inv : forall x, x <> f0 K -> fmul K (finv K x) x = f1 K;
  fl_eq0 : forall x, feqb0 K x = true <-> x = f0 K;
  fl_10 : f1 K <> f0 K }.

Lemma GF2_laws : flaws GF2.
Proof.
  constructor; simpl.
  - constructor; repeat intros []; reflexivity.
  - intros []; [reflexivity|congruence].
  - intros []; simpl; split; congruence.
  - discriminate.
Qed.
Lemma QF_laws : flaws QF.
Proof.
  constructor; simpl.
  - apply Qcrt.
  - intros x Hx. rewrite Qcmult_comm. now apply Qcmult_inv_r.
  - intros x. destruct (Qc_eq_dec x (Q2Qc 0)); split; congruence.
  - intros H. discriminate.
Qed.

Section Field.
  Context {F : Type} (K : fops F) (L : flaws K).
  Notation "0" := (f0 K). Notation "1" := (f1 K).
  Notation "x + y" := (fadd K x y). Notation "x * y" := (fmul K x y). Notation "- x" := (fopp K x).
  Add Ring Kring : (fl_ring K L).

  Lemma dot_axpy c : forall b a x, length b = length a ->
    dot K (axpy K c b a) x = dot K a x + c * dot K b x.
  Proof.
    intros b a; revert b; induction a as [|y a IH]; intros [|z b] x Hl; simpl in *; try discriminate; [ring|].
    destruct x as [|w x]; [ring|]. rewrite IH by lia. ring.
  Qed.
  Lemma dot_scale c : forall a x, dot K (map (fmul K c) a) x = c * dot K a x.
  Proof.
    induction a as [|y a IH]; intros x; simpl; [ring|]. destruct x as [|w x]; [ring|]. rewrite IH. ring.
  Qed.
  Lemma axpy_length c : forall b a, length (axpy K c b a) = length a.
  Proof. intros b a; revert b; induction a as [|y a IH]; intros [|z b]; simpl; auto. Qed.
  Lemma dot_zeros : forall a n, dot K a (repeat 0 n) = 0.
  Proof. induction a as [|c a IH]; intros [|n]; simpl; auto. rewrite IH. ring. Qed.

  Lemma pivot_some rows h t b rest : pivot K rows = Some (h, t, b, rest) ->
    h <> 0 /\ Permutation rows ((h :: t, b) :: rest).
  Proof.
    revert h t b rest; induction rows as [|[[|h0 t0] b0] rows IH]; simpl; intros h t b rest H; try discriminate.
    destruct (feqb0 K h0) eqn:E.
    - destruct (pivot K rows) as [[[[h' t'] b'] r']|]; [|discriminate]. injection H as <- <- <- <-.
      destruct (IH _ _ _ _ eq_refl) as [Hn Hp]. split; auto.
      rewrite Hp. apply perm_swap.
    - injection H as <- <- <- <-. split; [|reflexivity]. intros ->.
      rewrite (proj2 (fl_eq0 K L 0) eq_refl) in E. discriminate.
  Qed.
  Lemma pivot_none rows n : Forall (fun r => length (fst r) = S n) rows -> pivot K rows = None ->
    Forall (fun r => exists t, fst r = 0 :: t) rows.
  Proof.
    induction rows as [|[[|h0 t0] b0] rows IH]; simpl; intros Hl H; [constructor| |].
    - inversion Hl as [|? ? H1 H2]; subst. simpl in H1. discriminate.
    - inversion Hl as [|? ? H1 H2]; subst. destruct (feqb0 K h0) eqn:E; [|discriminate]. apply (fl_eq0 K L) in E as ->.
      destruct (pivot K rows) as [[[[? ?] ?] ?]|]; [discriminate|]. constructor; [now exists t0|auto].
  Qed.

  Definition row_len (n : nat) (r : list F * F) : Prop := length (fst r) = n.
  Lemma eliminate_len n pt pb r : length pt = n -> row_len (S n) r -> row_len n (eliminate K pt pb r).
  Proof.
    destruct r as [[|h t] b]; unfold row_len; simpl; intros H1 H2; [discriminate|].
    rewrite axpy_length. lia.
  Qed.
  Lemma solve_step n h t b rest rows : Forall (row_len (S n)) rows -> Permutation rows ((h :: t, b) :: rest) ->
    length t = n /\ Forall (row_len n) (map (eliminate K (map (fmul K (finv K h)) t) (finv K h * b)) rest) /\
    Forall (row_len (S n)) rest.
  Proof.
    intros Hl Hp. rewrite Hp in Hl. inversion Hl as [|? ? H1 H2]; subst.
    assert (length t = n) by (unfold row_len in H1; simpl in H1; lia).
    repeat split; auto. apply Forall_map. eapply Forall_impl; [|exact H2]. intros r Hr. apply eliminate_len; auto.
    now rewrite map_length.
  Qed.

  (* row (h::t, b) is satisfied by x0 :: x when the pivot row is and the reduced row by x *)
  Lemma eliminate_back n pt pb r x0 x : row_len (S n) r -> length pt = n ->
    dot K (fst (eliminate K pt pb r)) x = snd (eliminate K pt pb r) -> x0 + dot K pt x = pb ->
    dot K (fst r) (x0 :: x) = snd r.
  Proof.
    destruct r as [[|h t] b]; unfold row_len; simpl; intros Hl Hpt He Hx; [discriminate|].
    rewrite dot_axpy in He by lia.
    replace (h * x0 + dot K t x) with (h * (x0 + dot K pt x) + (dot K t x + - h * dot K pt x)) by ring.
    rewrite He, Hx. ring.
  Qed.
  Lemma eliminate_fwd n pt pb r x0 x : row_len (S n) r -> length pt = n ->
    dot K (fst r) (x0 :: x) = snd r -> x0 + dot K pt x = pb ->
    dot K (fst (eliminate K pt pb r)) x = snd (eliminate K pt pb r).
  Proof.
    destruct r as [[|h t] b]; unfold row_len; simpl; intros Hl Hpt He Hx; [discriminate|].
    rewrite dot_axpy by lia. rewrite <- He, <- Hx. ring.
  Qed.

  Lemma solve_sound n : forall rows x, Forall (row_len n) rows -> length rows = n -> solve K n rows = Some x ->
    length x = n /\ Forall (fun r => dot K (fst r) x = snd r) rows.
  Proof.
    induction n as [|n IH]; simpl; intros rows x Hl Hn H.
    - injection H as <-. destruct rows; [auto|discriminate].
    - destruct (pivot K rows) as [[[[h t] b] rest]|] eqn:Ep; [|discriminate].
      destruct (pivot_some _ _ _ _ _ Ep) as [Hh Hp].
      destruct (solve_step n h t b rest rows Hl Hp) as (Ht & Hr & Hl').
      destruct (solve K n _) as [x'|] eqn:Es; [|discriminate]. injection H as <-.
      apply IH in Es as [Hx' Hs]; auto.
      2:{ rewrite map_length. apply Permutation_length in Hp. simpl in Hp. lia. }
      split; [simpl; lia|]. rewrite Hp. constructor; simpl.
      + rewrite dot_scale. pose proof (fl_inv K L h Hh) as Hi.
        replace (h * (finv K h * b + - (finv K h * dot K t x')) + dot K t x')
          with ((finv K h * h) * (b + - dot K t x') + dot K t x') by ring.
        rewrite Hi. ring.
      + rewrite Forall_map in Hs. rewrite Forall_forall in *. intros r Hin.
        apply (eliminate_back n (map (fmul K (finv K h)) t) (finv K h * b)).
        * now apply Hl'.
        * now rewrite map_length.
        * now apply Hs.
        * ring.
  Qed.

  Lemma solve_kernel n : forall rows x, Forall (row_len n) rows -> solve K n rows = Some x ->
    forall y, length y = n -> Forall (fun r => dot K (fst r) y = 0) rows -> y = repeat 0 n.
  Proof.
    induction n as [|n IH]; simpl; intros rows x Hl H y Hy Hk.
    - destruct y; [reflexivity|discriminate].
    - destruct (pivot K rows) as [[[[h t] b] rest]|] eqn:Ep; [|discriminate].
      destruct (pivot_some _ _ _ _ _ Ep) as [Hh Hp].
      destruct (solve_step n h t b rest rows Hl Hp) as (Ht & Hr & Hl').
      destruct (solve K n _) as [x'|] eqn:Es; [|discriminate].
      destruct y as [|y0 y]; [discriminate|]. rewrite Hp in Hk. inversion Hk as [|? ? Hk0 Hkr]; subst. simpl in Hk0.
      pose proof (fl_inv K L h Hh) as Hi.
      assert (H0 : y0 + dot K (map (fmul K (finv K h)) t) y = 0).
      { rewrite dot_scale. replace (y0 + finv K h * dot K t y)
          with ((finv K h * (h * y0 + dot K t y)) + (1 + - (finv K h * h)) * y0) by ring.
        rewrite Hk0, Hi. ring. }
      assert (y = repeat 0 (length t)) as ->.
      { eapply IH; eauto. rewrite Forall_map. rewrite Forall_forall in *. intros r Hin.
        pose proof (Hl' r Hin) as Hlr. specialize (Hkr r Hin).
        destruct r as [[|hr tr] br]; unfold row_len in Hlr; simpl in *; [discriminate|].
        rewrite dot_axpy by (rewrite map_length; lia).
        replace (dot K tr y + - hr * dot K (map (fmul K (finv K h)) t) y)
          with ((hr * y0 + dot K tr y) + - hr * (y0 + dot K (map (fmul K (finv K h)) t) y)) by ring.
        rewrite Hkr, H0. ring. }
      rewrite dot_zeros in H0. simpl. f_equal. rewrite <- H0. ring.
  Qed.

  Lemma solve_none n : forall rows, Forall (row_len n) rows -> solve K n rows = None ->
    exists y, length y = n /\ y <> repeat 0 n /\ Forall (fun r => dot K (fst r) y = 0) rows.
  Proof.
    induction n as [|n IH]; simpl; intros rows Hl H; [discriminate|].
    destruct (pivot K rows) as [[[[h t] b] rest]|] eqn:Ep.
    - destruct (pivot_some _ _ _ _ _ Ep) as [Hh Hp].
      destruct (solve_step n h t b rest rows Hl Hp) as (Ht & Hr & Hl').
      destruct (solve K n _) as [x'|] eqn:Es; [discriminate|].
      apply IH in Es as (y & Hy & Hne & Hk); auto.
      exists ((- dot K (map (fmul K (finv K h)) t) y) :: y). repeat split; [simpl; lia| |].
      + intros E. injection E as _ E. contradiction.
      + pose proof (fl_inv K L h Hh) as Hi. rewrite Hp. constructor.
        * simpl. rewrite dot_scale.
          replace (h * - (finv K h * dot K t y) + dot K t y)
            with ((1 + - (finv K h * h)) * dot K t y) by ring.
          rewrite Hi. ring.
        * rewrite Forall_map in Hk. rewrite Forall_forall in *. intros r Hin.
          pose proof (Hl' r Hin) as Hlr. specialize (Hk r Hin).
          destruct r as [[|hr tr] br]; unfold row_len in Hlr; simpl in *; [discriminate|].
          rewrite dot_axpy in Hk by (rewrite map_length; lia). rewrite <- Hk. ring.
    - apply (pivot_none rows n) in Ep; [|exact Hl]. exists (1 :: repeat 0 n). repeat split.
      + simpl. now rewrite repeat_length.
      + intros E. injection E as E. now apply (fl_10 K L).
      + eapply Forall_impl; [|exact Ep]. intros [a b] [t Ht]. simpl in *. subst a. simpl. rewrite dot_zeros. ring.
  Qed.

  Lemma all_some_spec {A} (l : list (option A)) r : all_some l = Some r -> map Some r = l.
  Proof.
    revert r; induction l as [|[x|] l IH]; simpl; intros r H; try discriminate; [injection H as <-; reflexivity|].
    destruct (all_some l) as [y|]; [|discriminate]. injection H as <-. simpl. f_equal. auto.
  Qed.
  Lemma all_some_none {A} (l : list (option A)) : all_some l = None -> In None l.
  Proof.
    induction l as [|[x|] l IH]; simpl; intros H; try discriminate; auto.
    destruct (all_some l); [discriminate|auto].
  Qed.
  Lemma unitv_length n k : length (unitv K n k) = n.
  Proof. unfold unitv. now rewrite map_length, seq_length. Qed.
  Lemma unitv_nth n k i : (i < n)%nat -> nth i (unitv K n k) 0 = if Nat.eqb i k then 1 else 0.
  Proof.
    intros Hi. unfold unitv. rewrite (nth_indep _ _ (if Nat.eqb 0%nat k then 1 else 0)) by (rewrite map_length, seq_length; lia).
    rewrite (map_nth (fun i => if Nat.eqb i k then 1 else 0)). rewrite seq_nth by lia. reflexivity.
  Qed.
  Definition square (B : list (list F)) : Prop := Forall (fun r => length r = length B) B.
  Lemma rows_combine B (v : list F) : length v = length B -> square B ->
    Forall (row_len (length B)) (combine B v) /\ length (combine B v) = length B.
  Proof.
    intros Hv Hs. split; [|rewrite combine_length; lia].
    apply Forall_forall. intros [a b] Hin. apply in_combine_l in Hin. unfold square in Hs.
    rewrite Forall_forall in Hs. now apply Hs.
  Qed.

  Lemma inverse_cols_spec B X : square B -> inverse_cols K B = Some X ->
    length X = length B /\ Forall (fun c => length c = length B) X /\
    (forall i k, (i < length B)%nat -> (k < length B)%nat ->
       dot K (nth i B []) (nth k X []) = if Nat.eqb i k then 1 else 0).
  Proof.
    intros Hs H. unfold inverse_cols in H. apply all_some_spec in H.
    assert (Hlen : length X = length B).
    { apply (f_equal (@length _)) in H. now rewrite !map_length, seq_length in H. }
    assert (Hc : forall k, (k < length B)%nat -> solve K (length B) (combine B (unitv K (length B) k)) = Some (nth k X [])).
    { intros k Hk. assert (E : nth k (map Some X) None = Some (nth k X [])).
      { rewrite (nth_indep _ None (Some [])) by (rewrite map_length; lia). now rewrite map_nth. }
      rewrite <- E, H.
      rewrite (nth_indep _ None ((fun k => solve K (length B) (combine B (unitv K (length B) k))) 0%nat))
        by (rewrite map_length, seq_length; lia).
      rewrite (map_nth (fun k => solve K (length B) (combine B (unitv K (length B) k)))). now rewrite seq_nth by lia. }
    assert (Hsol : forall k, (k < length B)%nat -> length (nth k X []) = length B /\
             Forall (fun r => dot K (fst r) (nth k X []) = snd r) (combine B (unitv K (length B) k))).
    { intros k Hk. destruct (rows_combine B (unitv K (length B) k)) as [R1 R2]; auto using unitv_length.
      eapply solve_sound; eauto. }
    repeat split; auto.
    - apply Forall_forall. intros c Hin. apply (In_nth _ _ []) in Hin as (k & Hk & <-). apply Hsol. lia.
    - intros i k Hi Hk. destruct (Hsol k Hk) as [_ Hf]. rewrite Forall_forall in Hf.
      specialize (Hf (nth i B [], nth i (unitv K (length B) k) 0)). simpl in Hf. rewrite Hf; [now apply unitv_nth|].
      rewrite <- (combine_nth B (unitv K (length B) k)) by (symmetry; apply unitv_length).
      apply nth_In. rewrite combine_length, unitv_length. lia.
  Qed.
  Lemma inverse_cols_kernel B X : square B -> inverse_cols K B = Some X ->
    forall y, length y = length B -> (forall r, In r B -> dot K r y = 0) -> y = repeat 0 (length B).
  Proof.
    intros Hs H y Hy Hk. destruct (length B) as [|n] eqn:En.
    - destruct y; [reflexivity|discriminate].
    - unfold inverse_cols in H. rewrite En in H. cbn [seq map all_some] in H.
      destruct (solve K (S n) (combine B (unitv K (S n) 0))) as [x|] eqn:Es; [|discriminate].
      rewrite <- En in *.
      eapply (solve_kernel (length B) (combine B (unitv K (length B) 0%nat))); eauto.
      + apply rows_combine; auto using unitv_length.
      + apply Forall_forall. intros [a b] Hin. apply in_combine_l in Hin. now apply Hk.
  Qed.
  Lemma inverse_cols_none B : square B -> inverse_cols K B = None ->
    exists y, length y = length B /\ y <> repeat 0 (length B) /\ forall r, In r B -> dot K r y = 0.
  Proof.
    intros Hs H. apply all_some_none in H. apply in_map_iff in H as (k & Hk & _).
    apply solve_none in Hk as (y & Hy & Hne & Hf).
    - exists y. repeat split; auto. intros r Hin. rewrite Forall_forall in Hf.
      apply (In_nth _ _ []) in Hin as (i & Hi & <-).
      refine (Hf (nth i B [], nth i (unitv K (length B) k) 0) _).
      rewrite <- (combine_nth B (unitv K (length B) k)) by (symmetry; apply unitv_length). apply nth_In.
      rewrite combine_length, unitv_length. lia.
    - apply rows_combine; auto using unitv_length.
  Qed.
End Field.

(** * From the rationals to GF(2) *)
Fixpoint zdot (c : list bool) (y : list Z) : Z :=
  match c, y with
  | b :: c', z :: y' => ((if b then z else 0) + zdot c' y')%Z
  | _, _ => 0%Z
  end.
Definition Z2Qc (z : Z) : Qc := Q2Qc (inject_Z z).
Lemma Z2Qc_add a b : Z2Qc (a + b) = (Z2Qc a + Z2Qc b)%Qc.
Proof. unfold Z2Qc, Qcplus. apply Q2Qc_eq_iff. unfold Q2Qc; cbn [this]. rewrite !Qred_correct. now rewrite inject_Z_plus. Qed.
Lemma Z2Qc_mul a b : Z2Qc (a * b) = (Z2Qc a * Z2Qc b)%Qc.
Proof. unfold Z2Qc, Qcmult. apply Q2Qc_eq_iff. unfold Q2Qc; cbn [this]. rewrite !Qred_correct. now rewrite inject_Z_mult. Qed.
Lemma Z2Qc_inj a b : Z2Qc a = Z2Qc b -> a = b.
Proof.
  unfold Z2Qc. intros H. apply Q2Qc_eq_iff in H. unfold Qeq in H. simpl in H. lia.
Qed.
Lemma zdot_odd c : forall y, Z.odd (zdot c y) = dot GF2 c (map Z.odd y).
Proof.
  induction c as [|b c IH]; intros [|z y]; simpl; try reflexivity.
  rewrite Z.odd_add, IH. destruct b; reflexivity.
Qed.
Lemma zdot_scale c k : forall y, zdot c (map (Z.mul k) y) = (k * zdot c y)%Z.
Proof. induction c as [|b c IH]; intros [|z y]; simpl; try lia. rewrite IH. destruct b; lia. Qed.
Lemma qdot_zdot c d : forall x y, Forall2 (fun q z => (Z2Qc d * q)%Qc = Z2Qc z) x y ->
  (Z2Qc d * dot QF (map q_of_bool c) x)%Qc = Z2Qc (zdot c y).
Proof.
  induction c as [|b c IH]; intros x y H; destruct H as [|q z x y Hq H]; simpl; try (rewrite Qcmult_0_r; reflexivity).
  rewrite Z2Qc_add, <- (IH x y H), Qcmult_plus_distr_r. f_equal.
  destruct b; simpl.
  - change (Q2Qc 1) with 1%Qc. rewrite Qcmult_1_l. exact Hq.
  - change (Q2Qc 0) with 0%Qc. now rewrite Qcmult_0_l, Qcmult_0_r.
Qed.

(* common denominator *)
Lemma clear_one (q : Qc) : (Z2Qc (Z.pos (Qden (this q))) * q)%Qc = Z2Qc (Qnum (this q)).
Proof.
  unfold Z2Qc, Qcmult. apply Q2Qc_eq_iff. unfold Q2Qc; cbn [this]. rewrite !Qred_correct.
  destruct (this q) as [a b]. unfold Qeq, inject_Z, Qmult. cbn [Qnum Qden].
  rewrite Pos.mul_1_l. lia.
Qed.
Lemma clear_denominators : forall x : list Qc, exists d y, (d > 0)%Z /\
  Forall2 (fun q z => (Z2Qc d * q)%Qc = Z2Qc z) x y.
Proof.
  induction x as [|q x (d & y & Hd & H)]; [exists 1%Z, []; split; [lia|constructor]|].
  exists (d * Z.pos (Qden (this q)))%Z, (d * Qnum (this q) :: map (Z.mul (Z.pos (Qden (this q)))) y)%Z.
  split; [nia|]. constructor.
  - rewrite Z2Qc_mul, <- Qcmult_assoc, clear_one. now rewrite Z2Qc_mul.
  - generalize (Z.pos (Qden (this q))) as p. intros p. clear -H. induction H as [|x0 y0 l l' H0 H IH]; simpl; constructor; auto.
    rewrite (Z.mul_comm d p), !Z2Qc_mul, <- Qcmult_assoc. now rewrite H0.
Qed.

Definition kernel_free (B : list (list bool)) : Prop :=
  forall y, length y = length B -> (forall r, In r B -> dot GF2 r y = false) -> y = repeat false (length B).

Lemma all_even y n : length y = n -> map Z.odd y = repeat false n -> exists y', y = map (Z.mul 2) y' /\ length y' = n.
Proof.
  revert n; induction y as [|z y IH]; intros [|n] Hl H; simpl in *; try discriminate; [exists []; auto|].
  injection H as Hz H. destruct (IH n) as (y' & -> & Hl'); auto.
  rewrite <- Z.negb_even in Hz. apply negb_false_iff, Z.even_spec in Hz as [w ->].
  exists (w :: y'). simpl. split; auto.
Qed.

(* the denominators of the inverse can be chosen odd *)
Lemma odd_denominator_aux (B : list (list bool)) (e : list bool) : square B -> kernel_free B ->
  length e = length B ->
  forall (m : nat) (d : Z) (y : list Z), (Z.to_nat d <= m)%nat -> (d > 0)%Z -> length y = length B ->
  (forall i, (i < length B)%nat -> zdot (nth i B []) y = (d * (if nth i e false then 1 else 0))%Z) ->
  exists k y', (Z.odd k = true) /\ (k > 0)%Z /\ exists c, (c > 0)%Z /\ d = (c * k)%Z /\ y = map (Z.mul c) y' /\ length y' = length B.
Proof.
  intros Hs Hk He m. induction m as [|m IH]; intros d y Hm Hd Hy Hz; [lia|].
  destruct (Z.odd d) eqn:Eo.
  - exists d, y. split; auto. split; [lia|]. exists 1%Z. split; [lia|]. split; [lia|]. split; [|exact Hy].
    rewrite (map_ext _ (fun z => z)) by (intros; lia). now rewrite map_id.
  - assert (He2 : map Z.odd y = repeat false (length B)).
    { apply Hk; [now rewrite map_length|]. intros r Hin. apply (In_nth _ _ []) in Hin as (i & Hi & <-).
      rewrite <- zdot_odd, Hz by auto. rewrite Z.odd_mul, Eo. reflexivity. }
    apply all_even in He2 as (y' & -> & Hl'); auto.
    rewrite <- Z.negb_even in Eo. apply negb_false_iff, Z.even_spec in Eo as [w ->].
    destruct (IH w y') as (k & y2 & Hk2 & Hkp & c & Hc & -> & -> & Hl2); try lia.
    + intros i Hi. specialize (Hz i Hi). rewrite zdot_scale in Hz. lia.
    + exists k, y2. split; auto. split; auto. exists (2 * c)%Z. repeat split; [lia|lia| |exact Hl2].
      rewrite map_map. apply map_ext. intros; lia.
Qed.

Lemma Z2Qc_nz d : d <> 0%Z -> Z2Qc d <> Q2Qc 0.
Proof. intros Hd H. apply Hd. now apply (Z2Qc_inj d 0). Qed.
Lemma Qc_cancel a x y : a <> Q2Qc 0 -> (a * x)%Qc = (a * y)%Qc -> x = y.
Proof. intros Ha H. apply (Qcmult_inv_r a) in Ha. rewrite <- (Qcmult_1_l x), <- (Qcmult_1_l y), <- Ha.
  rewrite (Qcmult_comm a), <- !Qcmult_assoc. now rewrite H. Qed.

(* a rational solution x of B x = e, with B invertible modulo 2, has odd
   denominators and its parity solves the system modulo 2 *)
Lemma rational_parity (B : list (list bool)) (e : list bool) (x : list Qc) :
  square B -> kernel_free B -> length e = length B -> length x = length B ->
  (forall i, (i < length B)%nat -> dot QF (map q_of_bool (nth i B [])) x = q_of_bool (nth i e false)) ->
  exists d y, Z.odd d = true /\ (d > 0)%Z /\ length y = length B /\
    (forall c, (Z2Qc d * dot QF (map q_of_bool c) x)%Qc = Z2Qc (zdot c y)) /\
    (forall i, (i < length B)%nat -> dot GF2 (nth i B []) (map Z.odd y) = nth i e false).
Proof.
  intros Hs Hk He Hx Hsol. destruct (clear_denominators x) as (d & y & Hd & HF).
  pose proof (Forall2_len _ _ _ HF) as Hly.
  destruct (odd_denominator_aux B e Hs Hk He (Z.to_nat d) d y) as (k & y' & Hko & Hkp & c & Hc & -> & -> & Hl'); try lia.
  { intros i Hi. apply Z2Qc_inj. rewrite <- (qdot_zdot _ d x y HF), Hsol by auto.
    rewrite Z2Qc_mul. destruct (nth i e false); reflexivity. }
  exists k, y'. split; auto. split; auto. split; auto.
  assert (H1 : forall c0, (Z2Qc k * dot QF (map q_of_bool c0) x)%Qc = Z2Qc (zdot c0 y')).
  { intros c0. apply (Qc_cancel (Z2Qc c)); [apply Z2Qc_nz; lia|].
    rewrite Qcmult_assoc, <- Z2Qc_mul. rewrite (qdot_zdot _ _ x _ HF). now rewrite zdot_scale, Z2Qc_mul. }
  split; auto.
  intros i Hi. rewrite <- zdot_odd. specialize (H1 (nth i B [])). rewrite Hsol in H1 by auto.
  assert (zdot (nth i B []) y' = k * (if nth i e false then 1 else 0))%Z as ->.
  { apply Z2Qc_inj. rewrite <- H1, Z2Qc_mul. destruct (nth i e false); reflexivity. }
  rewrite Z.odd_mul, Hko. destruct (nth i e false); reflexivity.
Qed.

(* no integer kernel *)
Lemma no_kernel_Z (B : list (list bool)) : kernel_free B ->
  forall (m : nat) (y : list Z), length y = length B -> (forall r, In r B -> zdot r y = 0%Z) ->
  (fold_right (fun z a => Z.abs_nat z + a)%nat 0%nat y <= m)%nat -> y = repeat 0%Z (length B).
Proof.
  intros Hk m. induction m as [|m IH]; intros y Hy Hz Hm.
  - clear -Hy Hm. revert Hy Hm. generalize (length B). induction y as [|z y IH]; intros [|n] Hl Hm; simpl in *; try discriminate; auto.
    assert (z = 0%Z) as -> by lia. f_equal. apply IH; lia.
  - assert (He : map Z.odd y = repeat false (length B)).
    { apply Hk; [now rewrite map_length|]. intros r Hin. now rewrite <- zdot_odd, (Hz r Hin). }
    apply all_even in He as (y' & -> & Hl'); auto.
    assert (Hd : (fold_right (fun z a => Z.abs_nat z + a) 0 (map (Z.mul 2) y') =
                 2 * fold_right (fun z a => Z.abs_nat z + a) 0 y')%nat).
    { clear. induction y' as [|z y' IH]; simpl; [reflexivity|]. rewrite IH.
      replace (match z with 0 => 0 | Z.pos y => Z.pos (xO y) | Z.neg y => Z.neg (xO y) end)%Z with (2 * z)%Z by (destruct z; reflexivity).
      rewrite Zabs2Nat.inj_mul. change (Z.abs_nat 2) with 2%nat. lia. }
    rewrite Hd in Hm.
    assert (y' = repeat 0%Z (length B)) as ->.
    { apply IH; auto; [|lia]. intros r Hin. specialize (Hz r Hin). rewrite zdot_scale in Hz. lia. }
    clear. generalize (length B). induction n as [|n IH]; simpl; [reflexivity|]. now f_equal.
Qed.

Lemma qmat_square B : square B -> square (qmat B).
Proof.
  unfold square, qmat. rewrite map_length, Forall_map. intros H. eapply Forall_impl; [|exact H].
  intros r Hr. now rewrite map_length.
Qed.
Lemma nonsingular_rational (B : list (list bool)) : square B -> kernel_free B ->
  exists X, inverse_cols QF (qmat B) = Some X.
Proof.
  intros Hs Hk. destruct (inverse_cols QF (qmat B)) as [X|] eqn:E; [eauto|exfalso].
  apply (inverse_cols_none QF QF_laws) in E as (x & Hx & Hne & Hker); [|now apply qmat_square].
  unfold qmat in Hx, Hne, Hker. rewrite map_length in *.
  destruct (clear_denominators x) as (d & y & Hd & HF). pose proof (Forall2_len _ _ _ HF) as Hly.
  apply Hne. assert (Hy : y = repeat 0%Z (length B)).
  { eapply no_kernel_Z; [exact Hk|lia| |reflexivity]. intros r Hin. apply Z2Qc_inj.
    rewrite <- (qdot_zdot _ d x y HF). rewrite Hker by (now apply in_map). apply Qcmult_0_r. }
  subst y. rewrite <- Hx. clear -HF Hd. revert HF. generalize (length B).
  induction x as [|q x IH]; intros [|n] HF; inversion HF as [|? ? ? ? Hq HF']; subst; simpl; auto.
  f_equal; [|eapply IH; eauto].
  apply (Qc_cancel (Z2Qc d)); [apply Z2Qc_nz; lia|]. rewrite Hq. simpl. now rewrite Qcmult_0_r.
Qed.
