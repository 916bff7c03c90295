(** The rotated layout is a CSS code with the announced distances. *)
From Coq Require Import QArith Qcanon.
From Verif Require Import Base Lib StimM LayoutM SpecLayout LayoutP LayoutP2 GenM GenP SpecGen GeomP RotP.
Open Scope Z_scope.

Lemma rot_shifts_nodup : NoDup rot_shifts.
Proof. apply nodupb_spec. reflexivity. Qed.

Section Rot.
  Context (a : gen_args) (l : layout).
  Hypothesis Hx : 1 <= ga_dx a.
  Hypothesis Hz : 1 <= ga_dz a.
  Hypothesis P : planar l rot_shifts rot_dirn (rot_pt a) (rot_ps a).
  Local Notation dx := (ga_dx a).
  Local Notation dz := (ga_dz a).
  Local Notation ps := (rot_ps a).
  Local Notation Ns := rot_shifts_nodup.
  Local Notation idx := (rot_index (ga_dz a) (ga_data a)).

  Lemma ps_kpos p : In p ps -> kpos dx dz (knd p) (pos p).
  Proof. intros Hp. apply items_kpos. eapply ps_item; eauto. Qed.
  Lemma kpos_ps k rc : kpos dx dz k rc -> exists p, In p ps /\ knd p = k /\ pos p = rc.
  Proof.
    intros H. apply kpos_item in H as (i & Hi & K & E). 
    destruct (item_ps idx (rot_items dx dz) (ga_ind a) (ga_xanc a) (ga_zanc a) i Hi) as (p & Hp & <-). exists p. auto.
  Qed.
  Lemma data_label p : In p ps -> knd p = KD -> pl_lab p = label "D" (idx (fst (pos p)) (snd (pos p))).
  Proof. intros Hp K. pose proof (place_lab _ _ _ _ _ _ Hp) as L. rewrite K in L. exact L. Qed.
  Lemma anc_label p z : In p ps -> knd p <> KD -> pl_lab p <> label "D" z.
  Proof.
    intros Hp K. pose proof (place_lab _ _ _ _ _ _ Hp) as L. destruct (knd p); [congruence| |];
      destruct L as (n & _ & ->); intros E; apply label_inj in E as [E _]; discriminate.
  Qed.

  (* an operator on data positions *)
  Lemma fv_data op r c : dpos dx dz (r, c) -> fv ps op (r, c) = op (label "D" (idx r c)).
  Proof.
    intros H. destruct (kpos_ps KD (r, c) H) as (p & Hp & K & E). rewrite <- E, fv_at; [|apply (pn_npos _ _ _ _ _ P)|exact Hp].
    rewrite data_label by assumption. now rewrite E.
  Qed.
  Lemma fv_out op r c : r mod 2 = 1 -> ~ dpos dx dz (r, c) -> fv ps op (r, c) = false.
  Proof.
    intros Hr H. apply fv_none. intros q Hq E. apply ps_kpos in Hq. rewrite E in Hq.
    destruct (knd q); cbn [kpos] in Hq; [auto| |]; unfold xpos, zpos in Hq; cbn [fst snd] in Hq; lia.
  Qed.
  Lemma fv_spec op r c : r mod 2 = 1 -> fv ps op (r, c) = true <-> dpos dx dz (r, c) /\ op (label "D" (idx r c)) = true.
  Proof.
    intros Hr. assert (D : dpos dx dz (r, c) \/ ~ dpos dx dz (r, c)) by (unfold dpos; cbn [fst snd]; lia).
    destruct D as [D|D].
    - rewrite fv_data by exact D. tauto.
    - rewrite fv_out by assumption. split; [discriminate|tauto].
  Qed.

  Lemma logz_In r c : dpos dx dz (r, c) -> on (rot_logz a) (label "D" (idx r c)) = true <-> r = 1.
  Proof.
    intros H. unfold on. rewrite mem_In. unfold rot_logz. rewrite in_map_iff. unfold rot_index, dpos in *. cbn [fst snd] in H.
    split.
    - intros (i & E & Hi). apply label_inj in E as [_ E]. apply range_In in Hi. assert (r / 2 < 1) by nia. lia.
    - intros ->. exists (c / 2). split; [f_equal; change (1 / 2) with 0; lia|]. apply range_In. lia.
  Qed.
  Lemma logx_In r c : dpos dx dz (r, c) -> on (rot_logx a) (label "D" (idx r c)) = true <-> c = 1.
  Proof.
    intros H. unfold on. rewrite mem_In. unfold rot_logx. rewrite in_map_iff. unfold rot_index, dpos in *. cbn [fst snd] in H.
    split.
    - intros (i & E & Hi). apply label_inj in E as [_ E]. apply range_In in Hi.
      assert (c / 2 = (i - r / 2) * dz) by nia. assert (0 <= c / 2 < dz) by lia. assert (i - r / 2 = 0) by nia. nia.
    - intros ->. exists (r / 2). split; [f_equal; change (1 / 2) with 0; lia|]. apply range_In. lia.
  Qed.
  Lemma sup_In p r c : In p ps -> knd p <> KD -> dpos dx dz (r, c) ->
    on (support l (pl_lab p)) (label "D" (idx r c)) = true <-> Z.abs (r - fst (pos p)) = 1 /\ Z.abs (c - snd (pos p)) = 1.
  Proof.
    intros Hp K H. rewrite <- fv_data by exact H. rewrite (fv_support _ _ _ _ _ P Ns p (r, c) Hp). split.
    - intros (q & s & _ & _ & Hs & E). apply In_rot_shifts in Hs. destruct (pos p). unfold padd in E. injection E as -> ->. cbn [fst snd]. lia.
    - intros [H1 H2]. destruct (kpos_ps KD _ H) as (q & Hq & _ & E). exists q, (r - fst (pos p), c - snd (pos p)).
      split; [exact Hq|]. split; [exact E|]. split; [apply In_rot_shifts; cbn [fst snd]; lia|].
      unfold padd; cbn [fst snd]. f_equal; lia.
  Qed.
  Lemma sup_xor op p : In p ps -> xorl (map op (support l (pl_lab p))) =
    let (r, c) := pos p in
    xorb (fv ps op (r + 1, c + 1)) (xorb (fv ps op (r + 1, c + -1))
      (xorb (fv ps op (r + -1, c + 1)) (xorb (fv ps op (r + -1, c + -1)) false))).
  Proof. intros Hp. rewrite (support_xor _ _ _ _ _ P Ns op p Hp). destruct (pos p) as [r c]. reflexivity. Qed.

  Lemma rot_stabs p q : In p ps -> knd p = KX -> In q ps -> knd q = KZ -> commutes (on (support l (pl_lab q))) (support l (pl_lab p)).
  Proof.
    intros Hp Kp Hq Kq. apply commutes_xor. rewrite sup_xor by exact Hp.
    pose proof (ps_kpos p Hp) as Xp. pose proof (ps_kpos q Hq) as Zq. rewrite Kp in Xp. rewrite Kq in Zq. cbn [kpos] in Xp, Zq.
    assert (Kq' : knd q <> KD) by congruence.
    destruct (pos p) as [r c]. destruct (pos q) as [r' c'] eqn:Eq. unfold xpos, zpos in Xp, Zq; cbn [fst snd] in *.
    assert (S : forall i j, i mod 2 = 1 -> fv ps (on (support l (pl_lab q))) (i, j) = true <->
              dpos dx dz (i, j) /\ Z.abs (i - r') = 1 /\ Z.abs (j - c') = 1).
    { intros i j Hi. rewrite fv_spec by exact Hi. split; intros [D H]; (split; [exact D|]).
      - apply sup_In in H; [|assumption..]. now rewrite Eq in H.
      - apply sup_In; [assumption..|]. now rewrite Eq. }
    assert (R : exists i j i' j', r = 2 * i /\ c = 2 * j /\ r' = 2 * i' /\ c' = 2 * j' /\ (i + j - (i' + j')) mod 2 = 1).
    { exists (r / 2), (c / 2), (r' / 2), (c' / 2). lia. }
    destruct R as (i & j & i' & j' & -> & -> & -> & -> & R).
    assert (S' : forall u v, fv ps (on (support l (pl_lab q))) (2 * u + 1, 2 * v + 1) = true <->
              (0 <= u < dx /\ 0 <= v < dz) /\ (u = i' \/ u = i' - 1) /\ (v = j' \/ v = j' - 1)).
    { intros u v. rewrite S by lia. unfold dpos; cbn [fst snd]. clear. lia. }
    assert (B : 0 <= i <= dx /\ 1 <= j <= dz - 1 /\ 1 <= i' <= dx - 1 /\ 0 <= j' <= dz) by lia.
    clear S Xp Zq.
    replace (2 * i + -1) with (2 * (i - 1) + 1) by lia. replace (2 * j + -1) with (2 * (j - 1) + 1) by lia.
    destruct (Z.eq_dec i i') as [->|Ni].
    - assert (j <> j') by lia. clear R.
      assert (E1 : fv ps (on (support l (pl_lab q))) (2 * i' + 1, 2 * j + 1) = fv ps (on (support l (pl_lab q))) (2 * (i' - 1) + 1, 2 * j + 1))
        by (apply eq_true_iff_eq; rewrite !S'; lia).
      assert (E2 : fv ps (on (support l (pl_lab q))) (2 * i' + 1, 2 * (j - 1) + 1) = fv ps (on (support l (pl_lab q))) (2 * (i' - 1) + 1, 2 * (j - 1) + 1))
        by (apply eq_true_iff_eq; rewrite !S'; lia).
      rewrite E1, E2. destruct (fv ps _ (2 * (i' - 1) + 1, 2 * j + 1)), (fv ps _ (2 * (i' - 1) + 1, 2 * (j - 1) + 1)); reflexivity.
    - assert (N : j = j' \/ (i = i' + 1 \/ i = i' - 1) /\ (j <> j' - 1 /\ j <> j' + 1) \/ (i <> i' + 1 /\ i <> i' - 1)) by lia. clear R.
      apply even_pairs; apply eq_true_iff_eq; rewrite !S'; lia.
  Qed.
  Lemma rot_lzx p : In p ps -> knd p = KX -> commutes (on (rot_logz a)) (support l (pl_lab p)).
  Proof.
    intros Hp Kp. apply commutes_xor. rewrite sup_xor by exact Hp.
    pose proof (ps_kpos p Hp) as Xp. rewrite Kp in Xp. cbn [kpos] in Xp. destruct (pos p) as [r c]. unfold xpos in Xp; cbn [fst snd] in Xp.
    assert (S : forall i j, i mod 2 = 1 -> fv ps (on (rot_logz a)) (i, j) = true <-> dpos dx dz (i, j) /\ i = 1).
    { intros i j Hi. rewrite fv_spec by exact Hi. split; intros [D H]; (split; [exact D|]); now apply (logz_In i j D). }
    unfold dpos in S. cbn [fst snd] in S.
    pose proof (S (r + 1) (c + 1)) as S1. pose proof (S (r + 1) (c + -1)) as S2.
    pose proof (S (r + -1) (c + 1)) as S3. pose proof (S (r + -1) (c + -1)) as S4. clear S.
    apply even_pairs; apply eq_true_iff_eq; [rewrite S1, S2 by lia|rewrite S3, S4 by lia]; lia.
  Qed.
  Lemma rot_lxz p : In p ps -> knd p = KZ -> commutes (on (rot_logx a)) (support l (pl_lab p)).
  Proof.
    intros Hp Kp. apply commutes_xor. rewrite sup_xor by exact Hp.
    pose proof (ps_kpos p Hp) as Xp. rewrite Kp in Xp. cbn [kpos] in Xp. destruct (pos p) as [r c]. unfold zpos in Xp; cbn [fst snd] in Xp.
    assert (S : forall i j, i mod 2 = 1 -> fv ps (on (rot_logx a)) (i, j) = true <-> dpos dx dz (i, j) /\ j = 1).
    { intros i j Hi. rewrite fv_spec by exact Hi. split; intros [D H]; (split; [exact D|]); now apply (logx_In i j D). }
    unfold dpos in S. cbn [fst snd] in S.
    pose proof (S (r + 1) (c + 1)) as S1. pose proof (S (r + 1) (c + -1)) as S2.
    pose proof (S (r + -1) (c + 1)) as S3. pose proof (S (r + -1) (c + -1)) as S4. clear S.
    assert (E1 : fv ps (on (rot_logx a)) (r + 1, c + 1) = fv ps (on (rot_logx a)) (r + -1, c + 1))
      by (apply eq_true_iff_eq; rewrite S1, S3 by lia; lia).
    assert (E2 : fv ps (on (rot_logx a)) (r + 1, c + -1) = fv ps (on (rot_logx a)) (r + -1, c + -1))
      by (apply eq_true_iff_eq; rewrite S2, S4 by lia; lia).
    rewrite E1, E2. destruct (fv ps _ (r + -1, c + 1)), (fv ps _ (r + -1, c + -1)); reflexivity.
  Qed.
  Lemma range_cons n : 1 <= n -> range n = 0 :: map (fun k => k + 1) (range (n - 1)).
  Proof.
    intros H. unfold range. rewrite map_map. replace (Z.to_nat n) with (S (Z.to_nat (n - 1))) by lia.
    cbn [seq map]. f_equal. rewrite <- seq_shift, map_map. apply map_ext. intros k. lia.
  Qed.
  Lemma rot_shared : filter (on (rot_logx a)) (rot_logz a) = [label "D" (ga_data a)].
  Proof.
    unfold rot_logz. rewrite range_cons by exact Hz. cbn [map filter].
    assert (E : on (rot_logx a) (label "D" (0 + ga_data a)) = true).
    { unfold on. apply mem_In. unfold rot_logx. apply in_map_iff. exists 0. split; [reflexivity|]. apply range_In. lia. }
    rewrite E. rewrite Z.add_0_l. f_equal. rewrite map_map.
    assert (F : forall ks, (forall k, In k ks -> 0 <= k < dz - 1) ->
      filter (on (rot_logx a)) (map (fun x => label "D" (x + 1 + ga_data a)) ks) = []).
    { induction ks as [|k ks IH]; intros Hk; [reflexivity|]. cbn [map filter].
      rewrite IH by (intros k' H'; apply Hk; now right).
      destruct (on (rot_logx a) (label "D" (k + 1 + ga_data a))) eqn:O; [|reflexivity]. exfalso.
      apply mem_In in O. unfold rot_logx in O. apply in_map_iff in O as (i & O & Hi). apply label_inj in O as [_ O].
      apply range_In in Hi. pose proof (Hk k (or_introl eq_refl)). assert (E1 : i * dz = k + 1) by lia.
      destruct (Z.eq_dec i 0) as [->|]; [lia|]. assert (1 * dz <= i * dz) by (apply Z.mul_le_mono_nonneg_r; lia). lia. }
    apply F. intros k Hk. now apply range_In in Hk.
  Qed.
  Lemma logz_nodup : NoDup (rot_logz a).
  Proof.
    unfold rot_logz. apply FinFun.Injective_map_NoDup; [|apply range_nodup]. intros i j E. apply label_inj in E as [_ E]. lia.
  Qed.
  Lemma logx_nodup : NoDup (rot_logx a).
  Proof.
    unfold rot_logx. apply FinFun.Injective_map_NoDup; [|apply range_nodup]. intros i j E. apply label_inj in E as [_ E]. apply (Z.mul_reg_r i j dz); lia.
  Qed.
  Lemma logz_data : incl (rot_logz a) (map pl_lab (filter (isk KD) ps)).
  Proof.
    intros q Hq. unfold rot_logz in Hq. apply in_map_iff in Hq as (i & <- & Hi). apply range_In in Hi. fold dz in Hi.
    assert (D : kpos dx dz KD (1, 2 * i + 1)) by (cbn [kpos]; unfold dpos; cbn [fst snd]; lia).
    apply kpos_ps in D as (p & Hp & K & E). apply data_In. exists p. split; [exact Hp|]. split; [exact K|].
    rewrite data_label, E by assumption. f_equal. unfold rot_index. cbn [fst snd]. change (1 / 2) with 0. lia.
  Qed.
  Lemma logx_data : incl (rot_logx a) (map pl_lab (filter (isk KD) ps)).
  Proof.
    intros q Hq. unfold rot_logx in Hq. apply in_map_iff in Hq as (i & <- & Hi). apply range_In in Hi.
    assert (D : kpos dx dz KD (2 * i + 1, 1)) by (cbn [kpos]; unfold dpos; cbn [fst snd]; lia).
    apply kpos_ps in D as (p & Hp & K & E). apply data_In. exists p. split; [exact Hp|]. split; [exact K|].
    rewrite data_label, E by assumption. f_equal. unfold rot_index. cbn [fst snd]. change (1 / 2) with 0.
    replace ((2 * i + 1) / 2) with i by lia. lia.
  Qed.
  (** * Distances *)
  Section Op.
    Context (op : string -> bool).
    Definition G (r c : nat) : bool := fv ps op (2 * Z.of_nat r + 1, 2 * Z.of_nat c + 1).
    Lemma G_true r c : G r c = true -> exists p, In p ps /\ knd p = KD /\ op (pl_lab p) = true /\
      pos p = (2 * Z.of_nat r + 1, 2 * Z.of_nat c + 1).
    Proof.
      intros H. apply fv_true in H as (p & Hp & E & O). exists p. split; [exact Hp|]. split; [|auto].
      apply ps_kpos in Hp. rewrite E in Hp. destruct (knd p); [reflexivity| |]; cbn [kpos] in Hp; unfold xpos, zpos in Hp;
        cbn [fst snd] in Hp; lia.
    Qed.
    Lemma logz_xor : xorl (map op (rot_logz a)) = xs (Z.to_nat dz) (G 0).
    Proof.
      unfold rot_logz, xs, range. rewrite !map_map. f_equal. apply map_ext_in. intros c Hc. apply in_seq in Hc. unfold G.
      rewrite fv_data by (unfold dpos; cbn [fst snd]; lia). f_equal. f_equal. unfold rot_index.
      change ((2 * Z.of_nat 0 + 1) / 2) with 0. lia.
    Qed.
    Lemma logx_xor : xorl (map op (rot_logx a)) = xs (Z.to_nat dx) (fun r => G r 0).
    Proof.
      unfold rot_logx, xs, range. rewrite !map_map. f_equal. apply map_ext_in. intros r Hr. apply in_seq in Hr. unfold G.
      rewrite fv_data by (unfold dpos; cbn [fst snd]; lia). f_equal. f_equal. unfold rot_index.
      change ((2 * Z.of_nat 0 + 1) / 2) with 0. replace ((2 * Z.of_nat r + 1) / 2) with (Z.of_nat r) by lia. lia.
    Qed.
    Lemma row_step r : (forall p, In p ps -> knd p = KZ -> commutes op (support l (pl_lab p))) -> (S r < Z.to_nat dx)%nat ->
      xs (Z.to_nat dz) (G (S r)) = xs (Z.to_nat dz) (G r).
    Proof.
      intros C Hr.
      assert (E : xs (Z.to_nat dz) (fun c => xorb (G r c) (G (S r) c)) = false).
      { apply (pair_sum _ _ (Nat.even (S r))). intros j Hj Hp.
        assert (Ej : (Z.of_nat j - Z.of_nat (S r)) mod 2 = 0).
        { destruct (Nat.even (S r)) eqn:E1.
          - apply Nat.even_spec in E1 as [u Hu]. apply Nat.even_spec in Hp as [v Hv]. lia.
          - assert (O1 : Nat.odd (S r) = true) by (unfold Nat.odd; now rewrite E1). assert (O2 : Nat.odd j = true) by (unfold Nat.odd; now rewrite Hp).
            apply Nat.odd_spec in O1 as [u Hu]. apply Nat.odd_spec in O2 as [v Hv]. lia. }
        assert (Z0 : kpos dx dz KZ (2 * Z.of_nat (S r), 2 * Z.of_nat j)).
        { cbn [kpos]. unfold zpos; cbn [fst snd]. lia. }
        apply kpos_ps in Z0 as (p & Hp0 & K & E0). pose proof (C p Hp0 K) as Cp. apply commutes_xor in Cp.
        rewrite sup_xor, E0 in Cp by exact Hp0.
        assert (A1 : fv ps op (2 * Z.of_nat (S r) + 1, 2 * Z.of_nat j + 1) = if (j =? Z.to_nat dz)%nat then false else G (S r) j).
        { destruct (Nat.eqb_spec j (Z.to_nat dz)); [|reflexivity]. apply fv_out; [lia|]. unfold dpos; cbn [fst snd]. lia. }
        assert (A3 : fv ps op (2 * Z.of_nat (S r) + -1, 2 * Z.of_nat j + 1) = if (j =? Z.to_nat dz)%nat then false else G r j).
        { replace (2 * Z.of_nat (S r) + -1) with (2 * Z.of_nat r + 1) by lia.
          destruct (Nat.eqb_spec j (Z.to_nat dz)); [|reflexivity]. apply fv_out; [lia|]. unfold dpos; cbn [fst snd]. lia. }
        assert (A2 : fv ps op (2 * Z.of_nat (S r) + 1, 2 * Z.of_nat j + -1) = if (j =? 0)%nat then false else G (S r) (j - 1)).
        { destruct (Nat.eqb_spec j 0); [apply fv_out; [lia|]; unfold dpos; cbn [fst snd]; lia|].
          unfold G. f_equal. f_equal. lia. }
        assert (A4 : fv ps op (2 * Z.of_nat (S r) + -1, 2 * Z.of_nat j + -1) = if (j =? 0)%nat then false else G r (j - 1)).
        { replace (2 * Z.of_nat (S r) + -1) with (2 * Z.of_nat r + 1) by lia.
          destruct (Nat.eqb_spec j 0); [apply fv_out; [lia|]; unfold dpos; cbn [fst snd]; lia|].
          unfold G. f_equal. f_equal. lia. }
        rewrite A1, A2, A3, A4 in Cp.
        destruct (j =? 0)%nat, (j =? Z.to_nat dz)%nat; revert Cp;
          destruct (G r j), (G (S r) j), (G r (j - 1)), (G (S r) (j - 1)); cbn; intros; congruence. }
      rewrite xs_xor in E. destruct (xs _ (G r)), (xs _ (G (S r))); cbn in E; congruence.
    Qed.
    Lemma col_step c : (forall p, In p ps -> knd p = KX -> commutes op (support l (pl_lab p))) -> (S c < Z.to_nat dz)%nat ->
      xs (Z.to_nat dx) (fun r => G r (S c)) = xs (Z.to_nat dx) (fun r => G r c).
    Proof.
      intros C Hc.
      assert (E : xs (Z.to_nat dx) (fun r => xorb (G r c) (G r (S c))) = false).
      { apply (pair_sum _ _ (negb (Nat.even (S c)))). intros j Hj Hp.
        assert (Ej : (Z.of_nat j - Z.of_nat (S c)) mod 2 = 1).
        { destruct (Nat.even (S c)) eqn:E1; cbn [negb] in Hp.
          - assert (O2 : Nat.odd j = true) by (unfold Nat.odd; now rewrite Hp).
            apply Nat.even_spec in E1 as [u Hu]. apply Nat.odd_spec in O2 as [v Hv]. lia.
          - assert (O1 : Nat.odd (S c) = true) by (unfold Nat.odd; now rewrite E1).
            apply Nat.odd_spec in O1 as [u Hu]. apply Nat.even_spec in Hp as [v Hv]. lia. }
        assert (Z0 : kpos dx dz KX (2 * Z.of_nat j, 2 * Z.of_nat (S c))).
        { cbn [kpos]. unfold xpos; cbn [fst snd]. lia. }
        apply kpos_ps in Z0 as (p & Hp0 & K & E0). pose proof (C p Hp0 K) as Cp. apply commutes_xor in Cp.
        rewrite sup_xor, E0 in Cp by exact Hp0.
        assert (A1 : fv ps op (2 * Z.of_nat j + 1, 2 * Z.of_nat (S c) + 1) = if (j =? Z.to_nat dx)%nat then false else G j (S c)).
        { destruct (Nat.eqb_spec j (Z.to_nat dx)); [|reflexivity]. apply fv_out; [lia|]. unfold dpos; cbn [fst snd]. lia. }
        assert (A2 : fv ps op (2 * Z.of_nat j + 1, 2 * Z.of_nat (S c) + -1) = if (j =? Z.to_nat dx)%nat then false else G j c).
        { replace (2 * Z.of_nat (S c) + -1) with (2 * Z.of_nat c + 1) by lia.
          destruct (Nat.eqb_spec j (Z.to_nat dx)); [|reflexivity]. apply fv_out; [lia|]. unfold dpos; cbn [fst snd]. lia. }
        assert (A3 : fv ps op (2 * Z.of_nat j + -1, 2 * Z.of_nat (S c) + 1) = if (j =? 0)%nat then false else G (j - 1) (S c)).
        { destruct (Nat.eqb_spec j 0); [apply fv_out; [lia|]; unfold dpos; cbn [fst snd]; lia|].
          unfold G. f_equal. f_equal. lia. }
        assert (A4 : fv ps op (2 * Z.of_nat j + -1, 2 * Z.of_nat (S c) + -1) = if (j =? 0)%nat then false else G (j - 1) c).
        { replace (2 * Z.of_nat (S c) + -1) with (2 * Z.of_nat c + 1) by lia.
          destruct (Nat.eqb_spec j 0); [apply fv_out; [lia|]; unfold dpos; cbn [fst snd]; lia|].
          unfold G. f_equal. f_equal. lia. }
        rewrite A1, A2, A3, A4 in Cp.
        destruct (j =? 0)%nat, (j =? Z.to_nat dx)%nat; revert Cp;
          destruct (G j c), (G j (S c)), (G (j - 1) c), (G (j - 1) (S c)); cbn; intros; congruence. }
      rewrite xs_xor in E. destruct (xs _ (fun r => G r c)), (xs _ (fun r => G r (S c))); cbn in E; congruence.
    Qed.
    Lemma min_x : (forall p, In p ps -> knd p = KZ -> commutes op (support l (pl_lab p))) -> ~ commutes op (rot_logz a) ->
      (Z.to_nat dx <= weight op (map pl_lab (filter (isk KD) ps)))%nat.
    Proof.
      intros C A. apply not_commutes_xor in A. rewrite logz_xor in A.
      assert (R : forall r, (r < Z.to_nat dx)%nat -> xs (Z.to_nat dz) (G r) = true).
      { induction r as [|r IH]; intros Hr; [exact A|]. rewrite row_step by assumption. apply IH. lia. }
      apply (lines_weight _ _ _ _ _ P (fun rc => Z.to_nat (fst rc / 2))). intros r Hr.
      apply R, xs_true in Hr as (c & _ & Hc). apply G_true in Hc as (p & Hp & K & O & E). exists p.
      do 3 (split; [assumption|]). rewrite E. cbn [fst]. lia.
    Qed.
    Lemma min_z : (forall p, In p ps -> knd p = KX -> commutes op (support l (pl_lab p))) -> ~ commutes op (rot_logx a) ->
      (Z.to_nat dz <= weight op (map pl_lab (filter (isk KD) ps)))%nat.
    Proof.
      intros C A. apply not_commutes_xor in A. rewrite logx_xor in A.
      assert (R : forall c, (c < Z.to_nat dz)%nat -> xs (Z.to_nat dx) (fun r => G r c) = true).
      { induction c as [|c IH]; intros Hc; [exact A|]. rewrite col_step by assumption. apply IH. lia. }
      apply (lines_weight _ _ _ _ _ P (fun rc => Z.to_nat (snd rc / 2))). intros c Hc.
      apply R, xs_true in Hc as (r & _ & Hr). apply G_true in Hr as (p & Hp & K & O & E). exists p.
      do 3 (split; [assumption|]). rewrite E. cbn [snd]. lia.
    Qed.
  End Op.

  (** * Weights of the stabilizers *)
  Lemma rot_weight p : In p ps -> knd p <> KD -> length (support l (pl_lab p)) = 2%nat \/ length (support l (pl_lab p)) = 4%nat.
  Proof.
    intros Hp K. rewrite (Permutation_length (support_perm _ _ _ _ _ P Ns p Hp)), map_length. unfold nbrs, rot_shifts.
    cbn [flat_map]. rewrite !app_length, !(at_length _ _ _ _ _ P). apply ps_kpos in Hp. destruct (pos p) as [r c]. unfold padd; cbn [fst snd].
    assert (S : forall i j, i mod 2 = 1 -> fv ps (fun _ => true) (i, j) = true <-> dpos dx dz (i, j)) by (intros i j Hi; rewrite fv_spec; tauto).
    unfold dpos in S. cbn [fst snd] in S.
    pose proof (S (r + 1) (c + 1)) as S1. pose proof (S (r + 1) (c + -1)) as S2.
    pose proof (S (r + -1) (c + 1)) as S3. pose proof (S (r + -1) (c + -1)) as S4. clear S.
    destruct (knd p); [congruence| |]; cbn [kpos] in Hp; unfold xpos, zpos in Hp; cbn [fst snd] in Hp;
      destruct (fv ps _ (r + 1, c + 1)), (fv ps _ (r + 1, c + -1)), (fv ps _ (r + -1, c + 1)), (fv ps _ (r + -1, c + -1));
      cbn [length]; try (left; reflexivity); try (right; reflexivity); exfalso; lia.
  Qed.
End Rot.

(** * Counts *)
Lemma grid_length rows (cols : Z -> list Z) :
  length (flat_map (fun r => map (pair r) (cols r)) rows) = list_sum (map (fun r => length (cols r)) rows).
Proof.
  induction rows as [|r rows IH]; [reflexivity|]. cbn [flat_map map list_sum fold_right]. rewrite app_length, map_length, IH. reflexivity.
Qed.
Lemma list_sum_const {A} n (l : list A) : list_sum (map (fun _ => n) l) = (length l * n)%nat.
Proof. induction l as [|a l IH]; [reflexivity|]. cbn [map list_sum fold_right length]. fold (list_sum (map (fun _ : A => n) l)). rewrite IH. lia. Qed.
Lemma data_count dx dz : 0 <= dx -> 0 <= dz -> Z.of_nat (length (d_items dx dz)) = dx * dz.
Proof.
  intros Hx Hz. rewrite <- (map_length it_pos), data_items_pos, grid_length, list_sum_const, !zrange_length.
  rewrite Nat2Z.inj_mul, !Z2Nat.id by lia.
  replace ((2 * dx + 1 - 1 + 2 - 1) / 2) with dx by lia. replace ((2 * dz + 1 - 1 + 2 - 1) / 2) with dz by lia. reflexivity.
Qed.
Definition x_rows (dz : Z) (n : nat) : nat := list_sum (map (fun k => length (zrange (2 + (2 * Z.of_nat k) mod 4) (2 * dz + 1 - 1) 4)) (seq 0 n)).
Definition z_rows (dz : Z) (n : nat) : nat := list_sum (map (fun k => length (zrange ((2 * Z.of_nat (S k)) mod 4) (2 * dz + 1) 4)) (seq 0 n)).
Lemma list_sum_snoc l n : list_sum (l ++ [n]) = (list_sum l + n)%nat.
Proof. rewrite list_sum_app. simpl. lia. Qed.
Lemma anc_rows dz n : 1 <= dz -> Z.of_nat (x_rows dz (S (S n)) + z_rows dz n) = (Z.of_nat n + 1) * dz - 1.
Proof.
  intros Hz. induction n as [|n IH].
  - unfold x_rows, z_rows. cbn [seq map list_sum fold_right]. rewrite !zrange_length.
    change ((2 * Z.of_nat 0) mod 4) with 0. change ((2 * Z.of_nat 1) mod 4) with 2. lia.
  - assert (Ex : x_rows dz (S (S (S n))) = (x_rows dz (S (S n)) + length (zrange (2 + (2 * Z.of_nat (S (S n))) mod 4) (2 * dz + 1 - 1) 4))%nat).
    { unfold x_rows. rewrite (seq_S (S (S n))), map_app. cbn [map Nat.add]. apply list_sum_snoc. }
    assert (Ez : z_rows dz (S n) = (z_rows dz n + length (zrange ((2 * Z.of_nat (S n)) mod 4) (2 * dz + 1) 4))%nat).
    { unfold z_rows. rewrite (seq_S n), map_app. cbn [map Nat.add]. apply list_sum_snoc. }
    rewrite Ex, Ez, !zrange_length. clear Ex Ez.
    assert (M : (2 * Z.of_nat (S n)) mod 4 = 0 /\ (2 * Z.of_nat (S (S n))) mod 4 = 2 \/
                (2 * Z.of_nat (S n)) mod 4 = 2 /\ (2 * Z.of_nat (S (S n))) mod 4 = 0) by lia.
    replace ((Z.of_nat (S n) + 1) * dz - 1) with (((Z.of_nat n + 1) * dz - 1) + dz) by lia. rewrite <- IH.
    destruct M as [[-> ->]|[-> ->]]; lia.
Qed.
Lemma anc_count dx dz : 1 <= dx -> 1 <= dz ->
  Z.of_nat (length (rot_x_pos dx dz) + length (rot_z_pos dx dz)) = dx * dz - 1.
Proof.
  intros Hx Hz. unfold rot_x_pos, rot_z_pos. rewrite !grid_length.
  assert (Ex : zrange 0 (2 * dx + 1) 2 = map (fun k => 2 * Z.of_nat k) (seq 0 (S (S (Z.to_nat (dx - 1)))))).
  { unfold zrange. replace (Z.to_nat ((2 * dx + 1 - 0 + 2 - 1) / 2)) with (S (S (Z.to_nat (dx - 1)))) by lia.
    apply map_ext. intros k. lia. }
  assert (Ez : zrange 2 (2 * dx + 1 - 1) 2 = map (fun k => 2 * Z.of_nat (S k)) (seq 0 (Z.to_nat (dx - 1)))).
  { unfold zrange. replace (Z.to_nat ((2 * dx + 1 - 1 - 2 + 2 - 1) / 2)) with (Z.to_nat (dx - 1)) by lia.
    apply map_ext. intros k. lia. }
  rewrite Ex, Ez, !map_map. pose proof (anc_rows dz (Z.to_nat (dx - 1)) Hz) as H. unfold x_rows, z_rows in H. rewrite H.
  rewrite Z2Nat.id by lia. lia.
Qed.
Lemma filter_pl_lab (f : kind -> bool) index items : forall ind x z,
  length (filter (fun p => f (knd p)) (place index items ind x z)) = length (filter (fun i => f (it_kind i)) items).
Proof.
  induction items as [|i items IH]; intros; [reflexivity|]. cbn [place filter]. unfold knd at 1; cbn [pl_item].
  destruct (f (it_kind i)); cbn [length]; rewrite IH; reflexivity.
Qed.
Lemma filter_all_true {A} (f : A -> bool) l : (forall x, In x l -> f x = true) -> filter f l = l.
Proof. induction l as [|a l IH]; intros H; [reflexivity|]. cbn [filter]. rewrite H by now left. f_equal. apply IH. intros x Hx. apply H. now right. Qed.
Lemma filter_all_false {A} (f : A -> bool) l : (forall x, In x l -> f x = false) -> filter f l = [].
Proof. induction l as [|a l IH]; intros H; [reflexivity|]. cbn [filter]. rewrite H by now left. apply IH. intros x Hx. apply H. now right. Qed.
Definition kd (k : kind) : bool := match k with KD => true | _ => false end.
Lemma rot_counts a : 1 <= ga_dx a -> 1 <= ga_dz a ->
  Z.of_nat (length (filter (isk KD) (rot_ps a))) = ga_dx a * ga_dz a /\
  Z.of_nat (length (filter isanc (rot_ps a))) = ga_dx a * ga_dz a - 1 /\
  Z.of_nat (length (rot_ps a)) = 2 * ga_dx a * ga_dz a - 1.
Proof.
  intros Hx Hz.
  assert (Kd : forall i, In i (d_items (ga_dx a) (ga_dz a)) -> it_kind i = KD) by (intros i Hi; apply in_map_iff in Hi as (x & <- & _); reflexivity).
  assert (Kx : forall k i, In i (map (mid k) (rot_x_pos (ga_dx a) (ga_dz a))) -> it_kind i = k) by (intros k i Hi; apply in_map_iff in Hi as (x & <- & _); reflexivity).
  assert (Kz : forall k i, In i (map (mid k) (rot_z_pos (ga_dx a) (ga_dz a))) -> it_kind i = k) by (intros k i Hi; apply in_map_iff in Hi as (x & <- & _); reflexivity).
  pose proof (data_count (ga_dx a) (ga_dz a)) as Cd. pose proof (anc_count (ga_dx a) (ga_dz a) Hx Hz) as Ca.
  assert (D : Z.of_nat (length (filter (isk KD) (rot_ps a))) = ga_dx a * ga_dz a).
  { rewrite (filter_ext (isk KD) (fun p => kd (knd p))) by (intros p; unfold isk; now destruct (knd p)).
    unfold rot_ps. rewrite filter_pl_lab. unfold rot_items. rewrite !filter_app, (filter_all_true _ (d_items _ _)), !(filter_all_false _ (map _ _)).
    - rewrite !app_nil_r. apply Cd; lia.
    - intros i Hi. now rewrite (Kz _ _ Hi).
    - intros i Hi. now rewrite (Kx _ _ Hi).
    - intros i Hi. now rewrite (Kd _ Hi). }
  assert (A : Z.of_nat (length (filter isanc (rot_ps a))) = ga_dx a * ga_dz a - 1).
  { rewrite (filter_ext isanc (fun p => negb (kd (knd p)))) by (intros p; unfold isanc; now destruct (knd p)).
    unfold rot_ps. rewrite (filter_pl_lab (fun k => negb (kd k))). unfold rot_items. rewrite !filter_app, (filter_all_false _ (d_items _ _)), !(filter_all_true _ (map _ _)).
    - cbn [app]. rewrite app_length, !map_length. exact Ca.
    - intros i Hi. now rewrite (Kz _ _ Hi).
    - intros i Hi. now rewrite (Kx _ _ Hi).
    - intros i Hi. now rewrite (Kd _ Hi). }
  split; [exact D|]. split; [exact A|].
  unfold rot_ps. rewrite place_length. unfold rot_items. rewrite !app_length, !map_length. rewrite Nat2Z.inj_add, Cd, Ca by lia. lia.
Qed.

(** * Summary *)
Lemma rot_code a : 1 <= ga_dx a -> 1 <= ga_dz a -> exists l data xs zs lx lz,
  rot_surface_code_rectangle a = Ok l /\ css_code l (ga_log a) data xs zs lx lz /\
  has_distances l data xs zs lx lz (Z.to_nat (ga_dx a)) (Z.to_nat (ga_dz a)) /\
  (exists q, filter (on lx) lz = [q]) /\
  (forall s, In s xs \/ In s zs -> length (support l s) = 2%nat \/ length (support l s) = 4%nat) /\
  length lx = Z.to_nat (ga_dx a) /\ length lz = Z.to_nat (ga_dz a).
Proof.
  intros Hx Hz. destruct (rot_planar a) as (l & r & E & _ & _ & P & Lg & Lz & Lx & _); [lia..|].
  exists l, (map pl_lab (filter (isk KD) (rot_ps a))), (map pl_lab (filter (isk KX) (rot_ps a))), (map pl_lab (filter (isk KZ) (rot_ps a))),
    (rot_logx a), (rot_logz a).
  split; [exact E|]. split.
  { apply (css_intro _ _ _ _ _ P); auto using rot_shifts_nodup.
    - now apply logx_nodup.
    - now apply logz_nodup.
    - now apply logx_data.
    - now apply logz_data.
    - now apply rot_stabs.
    - now apply rot_lzx.
    - now apply rot_lxz.
    - unfold commutes, weight. rewrite rot_shared by assumption. discriminate. }
  assert (L1 : length (rot_logx a) = Z.to_nat (ga_dx a)) by (unfold rot_logx; unfold range; now rewrite !map_length, seq_length).
  assert (L2 : length (rot_logz a) = Z.to_nat (ga_dz a)) by (unfold rot_logz; unfold range; now rewrite !map_length, seq_length).
  split.
  { apply (dist_intro _ _ _ _ _ P).
    - now apply logx_nodup.
    - now apply logz_nodup.
    - now apply logx_data.
    - now apply logz_data.
    - intros op. now apply (min_x a l Hx Hz P op).
    - intros op. now apply (min_z a l Hx Hz P op).
    - exact L1.
    - exact L2. }
  split; [exists (label "D" (ga_data a)); now apply rot_shared|].
  split; [|auto]. intros s H.
  assert (H' : exists p, In p (rot_ps a) /\ knd p <> KD /\ pl_lab p = s).
  { destruct H as [H|H]; apply kind_In in H as (p & Hp & K & F); exists p; (split; [exact Hp|]); (split; [congruence|exact F]). }
  destruct H' as (p & Hp & K & <-). now apply (rot_weight a l Hx Hz P).
Qed.
Lemma count_lemma l shifts dirn pt ps index items ind x z : ps = place index items ind x z -> planar l shifts dirn pt ps ->
  NoDup (map fst (l_nodes l)) /\
  lay_inds l (map fst (l_nodes l)) = Ok (map (fun k => ind + k) (range (Z.of_nat (length ps)))).
Proof.
  intros -> P. rewrite (pn_nodes _ _ _ _ _ P). split; [apply (pn_nlab _ _ _ _ _ P)|].
  rewrite (pn_inds _ _ _ _ _ P) by (intros p; auto). now rewrite place_inds, place_length.
Qed.
Lemma rot_count_lemma a : 1 <= ga_dx a -> 1 <= ga_dz a -> exists l data ancs,
  rot_surface_code_rectangle a = Ok l /\ get_role l "data" = Ok data /\ get_role l "anc" = Ok ancs /\
  Z.of_nat (length data) = ga_dx a * ga_dz a /\ Z.of_nat (length ancs) = ga_dx a * ga_dz a - 1 /\
  NoDup (map fst (l_nodes l)) /\
  lay_inds l (map fst (l_nodes l)) = Ok (map (fun k => ga_ind a + k) (range (2 * ga_dx a * ga_dz a - 1))).
Proof.
  intros Hx Hz. destruct (rot_planar a) as (l & r & E & _ & _ & P & _); [lia..|].
  destruct (rot_counts a Hx Hz) as (C1 & C2 & C3).
  destruct (count_lemma l _ _ _ _ _ _ _ _ _ eq_refl P) as [N I]. fold (rot_ps a) in I. rewrite C3 in I.
  exists l, (map pl_lab (filter (isk KD) (rot_ps a))), (map pl_lab (filter isanc (rot_ps a))). rewrite !map_length.
  split; [exact E|]. split; [apply (pn_data _ _ _ _ _ P)|]. split; [apply (pn_anc _ _ _ _ _ P)|]. auto.
Qed.
Lemma rot_dirs : diagonal = map (fun s => (rot_dirn s, s)) rot_shifts.
Proof. reflexivity. Qed.
Lemma rot_neighbours a l : rot_surface_code_rectangle a = Ok l ->
  forall u v d,
  (In v (get_neighbors l [u] (Some d)) <-> exists s, In (d, s) diagonal /\ displaced l u v s) /\
  (forall d', opposite diagonal d d' -> In v (get_neighbors l [u] (Some d)) <-> In u (get_neighbors l [v] (Some d'))) /\
  (forall data ancs, get_role l "data" = Ok data -> get_role l "anc" = Ok ancs -> In v (get_neighbors l [u] (Some d)) ->
     In u data /\ In v ancs \/ In u ancs /\ In v data).
Proof.
  intros H u v d. assert (D : 0 <= ga_dx a /\ 0 <= ga_dz a).
  { unfold rot_surface_code_rectangle, check_distance in H. destruct (Z.ltb_spec (ga_dx a) 0); [discriminate|].
    destruct (Z.ltb_spec (ga_dz a) 0); [discriminate|]. lia. }
  destruct (rot_planar a) as (l' & r & E & _ & _ & P & _); [lia..|]. rewrite H in E. injection E as <-.
  rewrite rot_dirs. split; [apply (neighbours_lemma _ _ _ _ _ P)|]. split; [intros d'; apply (symmetric_iff _ _ _ _ _ P)|].
  intros data ancs. apply (data_anc_lemma _ _ _ _ _ P).
Qed.
