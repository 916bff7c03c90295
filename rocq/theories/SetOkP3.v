(** Proofs about C77, part 3: set_trans_s of the rotated code, from the first data qubit
    of a code with one more column than rows. *)
From Coq Require Import QArith Qcanon.
From Verif Require Import Base Lib StimM NoiseM DetM LayoutM SpecLayout LayoutP LayoutP2 GenM GenP SpecGen GeomP BlockM SpecTrack TrackP
  RoundP RotP RotP2 LiftP SpecLog LogM LogP LogP2 LogP3 LogP4 LogP5 LogP6 LogP7 LogP11 LogP12 SetOkP SetOkP2.
Open Scope Z_scope.

Section First.
  Context (a : gen_args) (l : layout).
  Notation ps := (rot_ps a).
  Notation dx := (ga_dx a).
  Notation pt := (rot_pt a).
  Hypothesis P : planar l rot_shifts rot_dirn pt ps.
  Hypothesis Hlog : l_logs l = [ga_log a].
  Hypothesis Hcode : l_code l = "rotated_surface_code".
  Hypothesis Hdx : l_dx l = ga_dx a.
  Hypothesis Hdz : l_dz l = ga_dz a.
  Hypothesis Hsq : ga_dz a = ga_dx a + 1.
  Hypothesis Hn : 2 <= ga_dx a.
  Context (d : placed).
  Hypothesis Hd : In d ps.
  Hypothesis Hc : pos d = (1, 1).
  Notation at2 := (at2 (1, 1) (0, 2)).
  Lemma at2_eq i j : at2 i j = (2 * i + 1, 2 * j + 1).
  Proof. unfold LogP11.at2. cbn [fst snd]. f_equal; lia. Qed.
  (* the data qubits *)
  Definition inside (i j : Z) : Prop := 0 <= i < dx /\ 0 <= j <= dx.
  Lemma inside_at i j : inside i j -> exists p, In p ps /\ knd p = KD /\ pos p = at2 i j /\ labat ps (at2 i j) = Some (pl_lab p).
  Proof.
    intros I. destruct (kpos_ps a KD (at2 i j)) as (p & Hp & K & E).
    { cbn [kpos]. unfold dpos. rewrite at2_eq. cbn [fst snd]. unfold inside in I. lia. }
    exists p. do 3 (split; [assumption|]). apply (labat_some _ _ _ _ _ P). eauto.
  Qed.
  Lemma at_inside i j q : labat ps (at2 i j) = Some q -> inside i j.
  Proof.
    intros E. apply (labat_some _ _ _ _ _ P) in E as (p & Hp & Ep & _). pose proof (ps_kpos a p Hp) as K. rewrite Ep, at2_eq in K.
    unfold inside. destruct (knd p); cbn [kpos] in K; unfold dpos, xpos, zpos in K; cbn [fst snd] in K; lia.
  Qed.
  Lemma data_inside q : In q (labs ps KD) -> exists i j, inside i j /\ labat ps (at2 i j) = Some q.
  Proof.
    intros Hq. apply labs_place in Hq as (p & Hp & K & <-). pose proof (ps_kpos a p Hp) as D. rewrite K in D. cbn [kpos] in D. unfold dpos in D.
    assert (E : pos p = at2 (fst (pos p) / 2) (snd (pos p) / 2)) by (rewrite at2_eq; apply injective_projections; cbn [fst snd]; lia).
    exists (fst (pos p) / 2), (snd (pos p) / 2). split; [unfold inside; lia|]. rewrite <- E. apply (labat_some _ _ _ _ _ P). eauto.
  Qed.
  Lemma first_data : knd d = KD.
  Proof.
    pose proof (ps_kpos a d Hd) as K. rewrite Hc in K. destruct (knd d); [reflexivity| |]; cbn [kpos] in K; unfold xpos, zpos in K; cbn [fst snd] in K; lia.
  Qed.
  Lemma first_checks : fold_checks l "rotated_surface_code" (eqb (l_dz l) (l_dx l + 1)) (pl_lab d) = Ok tt.
  Proof.
    rewrite Hdz, Hdx, Hsq, eqb_refl. apply (fold_checks_all _ _ _ _ _ P _ _ _ Hcode Hlog). apply labs_place. exists d.
    split; [exact Hd|]. split; [apply first_data|reflexivity].
  Qed.
  Lemma first_line : exists pa, In pa ps /\ knd pa = KX /\ pos pa = (0, 2) /\ fold_line l (pl_lab d) = Ok (pl_lab pa, crd pt (1, 1), vz (0, 2)).
  Proof.
    assert (Two : forall p s, In p ps -> In s rot_shifts -> pos p = padd (pos d) s -> (knd p = KX -> s = (-1, 1)) /\ (knd p = KZ -> s = (1, 1))).
    { intros p s Hp Hs E. pose proof (ps_kpos a p Hp) as K. rewrite E, Hc in K. apply In_rot_shifts in Hs. unfold padd in K. cbn [fst snd] in K. destruct s as [s1 s2]. cbn [fst snd] in *.
      split; intros Kp; rewrite Kp in K; cbn [kpos] in K; unfold xpos, zpos in K; cbn [fst snd] in K; f_equal; lia. }
    destruct (fold_line_all _ _ _ _ _ P d Hd) as [[[ax p] v] E].
    - intros k [-> | ->].
      + destruct (kpos_ps a KX (0, 2)) as (p & Hp & Kp & Ep); [cbn [kpos]; unfold xpos; cbn [fst snd]; lia|].
        exists p, (-1, 1). split; [exact Hp|]. split; [apply In_rot_shifts; cbn [fst snd]; lia|]. split; [exact Kp|]. now rewrite Ep, Hc.
      + destruct (kpos_ps a KZ (2, 2)) as (p & Hp & Kp & Ep); [cbn [kpos]; unfold zpos; cbn [fst snd]; lia|].
        exists p, (1, 1). split; [exact Hp|]. split; [apply In_rot_shifts; cbn [fst snd]; lia|]. split; [exact Kp|]. now rewrite Ep, Hc.
    - intros pa pz s1 s2 Ha Hz S1 S2 Ka Kz Ea Ez. pose proof (proj1 (Two pa s1 Ha S1 Ea) Ka). pose proof (proj2 (Two pz s2 Hz S2 Ez) Kz). subst s1 s2.
      destruct (kpos_ps a KD (1, 3)) as (p & Hp & Kp & Ep); [cbn [kpos]; unfold dpos; cbn [fst snd]; lia|].
      exists p. split; [exact Hp|]. now rewrite Ep, Ea, Hc.
    - destruct (fold_line_ok _ _ _ _ _ P d ax p v Hd E) as (pa & pz & ph & s1 & s2 & Ha & Hz & _ & S1 & S2 & Ka & Kz & La & Ea & Ez & _ & -> & ->).
      exists pa. split; [exact Ha|]. split; [exact Ka|]. rewrite E, La, Ea, Hc. rewrite (proj1 (Two pa s1 Ha S1 Ea) Ka). rewrite (proj2 (Two pz s2 Hz S2 Ez) Kz). split; reflexivity.
  Qed.
  Context (tab : dict vec string).
  Hypothesis Htab : forall rc, dget (crd pt rc) tab = labat ps rc.
  Notation walk f := (f (fun p => dget p tab) (vz (0, 2)) (vz (2, 0))).
  Definition has (cz : dict (option string) (option string)) (i j : Z) : Prop :=
    forall q, labat ps (at2 i j) = Some q -> exists o, dget (Some q) cz = Some o.
  Lemma cz_all fuel : forall t k cz, 0 <= t <= dx -> 0 <= Z.of_nat k <= dx - t ->
    (dx - t) * (dx + 2) + 2 - Z.of_nat k <= Z.of_nat fuel ->
    exists cz', walk cz_loop fuel (crd pt (at2 t t)) k cz = Ok cz' /\
      (forall q, (exists o, dget (Some q) cz = Some o) -> exists o, dget (Some q) cz' = Some o) /\
      (forall k', Z.of_nat k <= k' -> has cz' (t + k') t /\ has cz' t (t + k' + 1)) /\
      (forall t' k', t < t' -> 0 <= k' -> has cz' (t' + k') t' /\ has cz' t' (t' + k' + 1)).
  Proof.
    induction fuel as [|n IH]; intros t k cz Ht Hk Hf; [exfalso; nia|]. cbn [cz_loop]. rewrite Htab.
    destruct (labat ps (at2 t t)) as [q0|] eqn:E0.
    2: { assert (t = dx).
         { destruct (Z.eq_dec t dx); [assumption|]. destruct (inside_at t t) as (p & _ & _ & _ & E); [unfold inside; lia|congruence]. }
         exists cz. split; [reflexivity|]. split; [auto|].
         split; intros; split; intros q E; apply at_inside in E; unfold inside in E; lia. }
    assert (Lt : t < dx) by (apply at_inside in E0; unfold inside in E0; lia).
    assert (Sv := step_v pt (labat ps) tab Htab (labat_inj a l P) (1, 1) (0, 2) t). assert (Sh := step_h pt (labat ps) tab Htab (labat_inj a l P) (1, 1) (0, 2) t).
    assert (Svh := step_vh pt (labat ps) tab Htab (labat_inj a l P) (1, 1) (0, 2) t t). change (snd (0, 2), - fst (0, 2)) with (2, 0) in Sv, Svh.
    rewrite Sv, Htab. destruct (labat ps (at2 (t + Z.of_nat k) t)) as [q1|] eqn:E1.
    - rewrite Sh, Htab.
      assert (Lk : Z.of_nat k < dx - t) by (apply at_inside in E1; unfold inside in E1; lia).
      set (o2 := labat ps (at2 t (t + Z.of_nat (S k)))) in *.
      destruct (IH t (S k) (dset (Some q1) o2 (dset o2 (Some q1) cz))) as (cz' & -> & M & A & B); [lia|lia|lia|].
      assert (Key : forall q, (exists o, dget (Some q) cz = Some o) \/ Some q = Some q1 \/ Some q = o2 -> exists o, dget (Some q) cz' = Some o).
      { intros q K. apply M. rewrite !dget_dset. destruct (eqb_spec (Some q1) (Some q)); [eauto|]. destruct (eqb_spec o2 (Some q)); [eauto|].
        destruct K as [K|[K|K]]; [exact K|congruence|congruence]. }
      exists cz'. split; [reflexivity|]. split; [intros q K; apply Key; now left|]. split; [|exact B].
      intros k' Hk'. destruct (Z.eq_dec k' (Z.of_nat k)) as [->|Nk]; [|apply A; lia]. split; intros q E; apply Key; right.
      + left. congruence.
      + right. unfold o2. rewrite <- E. do 2 f_equal. lia.
    - rewrite Svh.
      assert (Lk : Z.of_nat k = dx - t).
      { destruct (Z.eq_dec (Z.of_nat k) (dx - t)) as [K|K]; [exact K|]. destruct (inside_at (t + Z.of_nat k) t) as (p & _ & _ & _ & E); [unfold inside; lia|congruence]. }
      destruct (IH (t + 1) 0%nat cz) as (cz' & -> & M & A & B); [lia|lia|nia|].
      exists cz'. split; [reflexivity|]. split; [exact M|]. split.
      + intros k' Hk'. split; intros q E; apply at_inside in E; unfold inside in E; lia.
      + intros t' k' Ht' Hk'. destruct (Z.eq_dec t' (t + 1)) as [->|Nt]; [apply A; lia|apply B; lia].
  Qed.
  Lemma s_all fuel : forall i s, 0 <= i <= dx -> dx - i < Z.of_nat fuel ->
    exists s' e, walk s_loop fuel (crd pt (at2 i (i + 1))) s = Ok (s', e) /\
      (forall q, (exists o, dget (Some q) s = Some o) -> exists o, dget (Some q) s' = Some o).
  Proof.
    induction fuel as [|n IH]; intros i s Hi Hf; [lia|]. cbn [s_loop]. rewrite Htab.
    destruct (labat ps (at2 i (i + 1))) as [q|] eqn:E; [|eauto].
    assert (i < dx) by (apply at_inside in E; unfold inside in E; lia).
    assert (St := step_hv pt (labat ps) tab Htab (labat_inj a l P) (1, 1) (0, 2) i (i + 1)). change (snd (0, 2), - fst (0, 2)) with (2, 0) in St. rewrite St.
    destruct (IH (i + 1) (dset (Some q) "S" s)) as (s' & e & Es & M); [lia|lia|]. exists s', e. split; [exact Es|].
    intros q' K. apply M. rewrite dget_dset. destruct (eqb _ _); eauto.
  Qed.
  Lemma nodes_many : dx <= Z.of_nat (length (l_nodes l)).
  Proof.
    destruct (rot_counts a) as (_ & _ & L); [lia|lia|]. rewrite <- (map_length fst), (pn_nodes _ _ _ _ _ P), map_length. nia.
  Qed.
  (** The supports *)
  Definition close (R K i j : Z) : bool := ((i =? R - 1) || (i =? R)) && ((j =? K - 1) || (j =? K)).
  Lemma close_mem p i j q : In p ps -> knd p <> KD -> labat ps (at2 i j) = Some q ->
    mem q (support l (pl_lab p)) = close (fst (pos p) / 2) (snd (pos p) / 2) i j.
  Proof.
    intros Hp K E. apply eq_true_iff_eq. rewrite mem_In, (support_mem _ _ _ _ _ P rot_shifts_nodup p q Hp).
    apply (labat_some _ _ _ _ _ P) in E as (x & Hx & Ex & <-). rewrite at2_eq in Ex.
    assert (Ev : fst (pos p) mod 2 = 0 /\ snd (pos p) mod 2 = 0).
    { pose proof (ps_kpos a p Hp) as Q. destruct (knd p); [congruence| |]; cbn [kpos] in Q; unfold xpos, zpos in Q; lia. }
    unfold close. rewrite andb_true_iff, !orb_true_iff, !Z.eqb_eq. split.
    - intros (y & s & Hy & Hs & L & Ey). apply (lab_eq _ _ _ _ _ P _ _ Hy Hx) in L. subst y. rewrite Ex in Ey. apply In_rot_shifts in Hs.
      pose proof (f_equal fst Ey) as E1. pose proof (f_equal snd Ey) as E2. unfold padd in E1, E2. cbn [fst snd] in E1, E2. lia.
    - intros [H1 H2]. exists x, (2 * i + 1 - fst (pos p), 2 * j + 1 - snd (pos p)). split; [exact Hx|].
      split; [apply In_rot_shifts; cbn [fst snd]; lia|]. split; [reflexivity|]. rewrite Ex. unfold padd. cbn [fst snd]. f_equal; lia.
  Qed.
  Lemma rot_apart x y : In x (labs ps KZ) -> In y (labs ps KZ) -> (forall q, In q (support l x) <-> In q (support l y)) -> x = y.
  Proof.
    intros Hx Hy E. apply labs_place in Hx as (p & Hp & Kp & <-). apply labs_place in Hy as (p' & Hp' & Kp' & <-). f_equal.
    apply (pos_eq _ _ _ _ _ P _ _ Hp Hp'). pose proof (ps_kpos a p Hp) as Q. pose proof (ps_kpos a p' Hp') as Q'.
    rewrite Kp in Q. rewrite Kp' in Q'. cbn [kpos] in Q, Q'. unfold zpos in Q, Q'.
    assert (Cl : forall i j, inside i j -> close (fst (pos p) / 2) (snd (pos p) / 2) i j = true -> close (fst (pos p') / 2) (snd (pos p') / 2) i j = true).
    { intros i j I C. destruct (inside_at i j I) as (q & Hq & _ & _ & L).
      rewrite <- (close_mem p i j _ Hp ltac:(congruence) L) in C. rewrite <- (close_mem p' i j _ Hp' ltac:(congruence) L).
      apply mem_In, E, mem_In, C. }
    unfold close in Cl.
    set (R := fst (pos p) / 2) in *. set (K := snd (pos p) / 2) in *. set (R' := fst (pos p') / 2) in *. set (K' := snd (pos p') / 2) in *.
    assert (F : fst (pos p) = 2 * R /\ snd (pos p) = 2 * K /\ fst (pos p') = 2 * R' /\ snd (pos p') = 2 * K') by lia.
    assert (exists j, 0 <= j <= dx /\ (j = K - 1 \/ j = K)) as (j & Bj & Ej).
    { destruct (Z.eq_dec K 0); [exists 0|exists (K - 1)]; lia. }
    assert (C1 := Cl (R - 1) j). assert (C2 := Cl R j). unfold inside in C1, C2. rewrite !andb_true_iff, !orb_true_iff, !Z.eqb_eq in C1, C2.
    specialize (C1 ltac:(lia) ltac:(lia)). specialize (C2 ltac:(lia) ltac:(lia)). apply injective_projections; lia.
  Qed.
  (** The Z-type ancilla of an X-type one *)
  Definition zof (RK : Z * Z) : Z * Z :=
    let (R, K) := RK in if K <=? R - 1 then (K, R + 1) else if K =? R + 1 then (R, R) else (K - 1, R).
  Definition gated (i j : Z) : bool := (i =? 0) && (j =? 0) || (j =? i + 1).
  Lemma zof_ok R K i j : 0 <= R <= dx -> 1 <= K <= dx -> (R + K) mod 2 = 1 -> (R, K) <> (0, 1) -> inside i j ->
    close (fst (zof (R, K))) (snd (zof (R, K))) i j =
      xorb (close R K (fst (other (i, j))) (snd (other (i, j)))) (gated i j && close R K i j).
  Proof.
    intros HR HK Hp Hne Hin. assert (Hne' : R <> 0 \/ K <> 1) by (destruct (Z.eq_dec R 0), (Z.eq_dec K 1); [subst; congruence|lia..]).
    assert (exists m, R + K = 2 * m + 1) as [m Em] by (exists ((R + K) / 2); lia).
    unfold inside in Hin. clear - HR HK Em Hne' Hin. unfold zof, other. cbn [fst snd].
    destruct (Z.leb_spec K (R - 1)); [|destruct (Z.eqb_spec K (R + 1))]; (destruct (Z.leb_spec j i)); cbn [fst snd]; unfold close, gated;
    repeat match goal with |- context [?x =? ?y] => destruct (Z.eqb_spec x y); try (exfalso; lia) end; reflexivity.
  Qed.
End First.

Section Gate.
  Context (a : gen_args) (l : layout).
  Notation ps := (rot_ps a).
  Notation dx := (ga_dx a).
  Notation pt := (rot_pt a).
  Hypothesis P : planar l rot_shifts rot_dirn pt ps.
  Hypothesis Hlog : l_logs l = [ga_log a].
  Hypothesis Hcode : l_code l = "rotated_surface_code".
  Hypothesis Hdx : l_dx l = ga_dx a.
  Hypothesis Hdz : l_dz l = ga_dz a.
  Hypothesis Hsq : ga_dz a = ga_dx a + 1.
  Hypothesis Hn : 2 <= ga_dx a.
  Context (d : placed).
  Hypothesis Hd : In d ps.
  Hypothesis Hc : pos d = (1, 1).
  Notation at2 := (at2 (1, 1) (0, 2)).
  Definition place_of (x : string) : Z * Z := match find (fun p => eqb (pl_lab p) x) ps with Some p => pos p | None => (0, 0) end.
  Lemma place_of_ok p : In p ps -> place_of (pl_lab p) = pos p.
  Proof.
    intros Hp. unfold place_of. destruct (find _ ps) as [p'|] eqn:E.
    - apply find_some in E as [Hp' E]. apply eqb_true in E. now rewrite (lab_eq _ _ _ _ _ P _ _ Hp' Hp E).
    - exfalso. apply (find_none _ _ E) in Hp. now rewrite eqb_refl in Hp.
  Qed.
  Definition zlab (x : string) : string :=
    let z := zof (fst (place_of x) / 2, snd (place_of x) / 2) in odef x (labat ps (2 * fst z, 2 * snd z)).
  Lemma set_s_rot_all : exists l2, set_trans_s_rot l (pl_lab d) = Ok l2.
  Proof.
    unfold set_trans_s_rot. rewrite (first_checks a l P Hlog Hcode Hdx Hdz Hsq d Hd Hc). cbn [bind]. rewrite (pn_data _ _ _ _ _ P). cbn [bind]. fold (labs ps KD).
    unfold gate_s. rewrite (first_one l _ Hlog). cbn [bind]. destruct (first_line a l P Hsq Hn d Hd Hc) as (pa & Hpa & Ka & Ea & ->). cbn [bind].
    destruct (table_ok _ _ _ _ _ P) as (tab & Et & Ht). rewrite Et. cbn [bind]. rewrite (vec_v (0, 2)). change (snd (0, 2), - fst (0, 2)) with (2, 0).
    pose proof (nodes_many a l P Hsq Hn) as Many. set (n := length (l_nodes l)) in *. clearbody n.
    pose proof (labat_inj a l P) as Linj.
    assert (Hh : (fst (0, 2) = 0 /\ (snd (0, 2) = 2 \/ snd (0, 2) = -2)) \/ (snd (0, 2) = 0 /\ (fst (0, 2) = 2 \/ fst (0, 2) = -2))) by (cbn [fst snd]; lia).
    assert (C0 : (1, 1) = at2 0 0) by reflexivity.
    destruct (cz_all a l P Hsq Hn tab Ht (S n * S (S n)) 0 0%nat []) as (cz & Ec & _ & A & B); [lia|lia|nia|].
    rewrite <- C0 in Ec. rewrite Ec. cbn [bind].
    assert (Wk : walk_ok (labat ps) (1, 1) (0, 2) cz).
    { rewrite C0 in Ec at 1. refine (cz_loop_ok pt (labat ps) tab Ht Linj (1, 1) (0, 2) _ 0 0%nat [] cz _ _ Ec); [lia|]. intros q o E. discriminate. }
    assert (E01 : vadd (crd pt (1, 1)) (vz (0, 2)) = crd pt (at2 0 (0 + 1))) by (rewrite vadd_crd; reflexivity).
    rewrite E01. set (s0 := dset (Some (pl_lab d)) "S" (no_gate (labs ps KD))).
    destruct (s_all a l P Hsq tab Ht (S (S n)) 0 s0) as (s1 & e & Es & Sk); [lia|lia|]. rewrite Es. cbn [bind].
    destruct (s_loop_ok pt (labat ps) tab Ht Linj (1, 1) (0, 2) _ 0 _ _ _ (Z.le_refl 0) Es) as (_ & SA & SB & _).
    destruct (s_loop_all pt (labat ps) tab Ht Linj (1, 1) (0, 2) _ 0 _ _ _ (Z.le_refl 0) Es) as (i' & Ee & None2 & All2).
    assert (Ei : i' = dx).
    { destruct (Z.lt_trichotomy i' dx) as [L|[E|G]]; [|exact E|exfalso].
      - destruct (Z.le_gt_cases 0 i') as [G|G].
        + exfalso. destruct (inside_at a l P Hsq i' (i' + 1)) as (p & _ & _ & _ & E); [unfold inside; lia|congruence].
        + exfalso. destruct (s_loop_ok pt (labat ps) tab Ht Linj (1, 1) (0, 2) _ 0 _ _ _ (Z.le_refl 0) Es) as ((i2 & L2 & Ee2 & _) & _).
          rewrite Ee in Ee2. apply crd_inj in Ee2. apply (at2_inj pt (labat ps) tab Ht Linj (1, 1) (0, 2) Hh) in Ee2. lia.
      - destruct (All2 dx) as (q & Eq & _); [lia|]. apply (at_inside a l P Hsq) in Eq. unfold inside in Eq. lia. }
    subst i'.
    assert (Elast : vsub (vsub e (vz (0, 2))) (vz (2, 0)) = crd pt (at2 (dx - 1) dx)).
    { rewrite Ee. unfold vsub, crd, vz, LogP11.at2. cbn [fst snd].
      replace (1 + dx * 2 + (dx + 1) * 0) with ((1 + (dx - 1) * 2 + dx * 0) + 0 + 2) by lia.
      replace (1 - dx * 0 + (dx + 1) * 2) with ((1 - (dx - 1) * 0 + dx * 2) + 2 + 0) by lia. rewrite !zq_add. f_equal; ring. }
    rewrite Elast, Ht. set (sg := dset (labat ps (at2 (dx - 1) dx)) "S_DAG" s1).
    (* the partner and the local gate of every data qubit *)
    assert (Loc : forall i j q, inside a i j -> labat ps (at2 i j) = Some q -> exists g, dget (Some q) sg = Some g /\ (g = "I" \/ is_s g = true) /\ is_s g = gated i j).
    { intros i j q I E.
      assert (Uniq : forall i2 j2, labat ps (at2 i2 j2) = Some q -> i2 = i /\ j2 = j).
      { intros i2 j2 E2. pose proof (Linj _ _ _ E2 E) as K. now apply (at2_inj pt (labat ps) tab Ht Linj (1, 1) (0, 2) Hh) in K. }
      assert (E0 : labat ps (at2 0 0) = Some (pl_lab d)) by (apply (labat_some _ _ _ _ _ P); exists d; auto).
      assert (Hq : In q (labs ps KD)) by (refine (labat_data a l P _ _ _ E); unfold LogP11.at2; cbn [fst snd]; lia).
      unfold sg. rewrite dget_dset. destruct (eqb_spec (labat ps (at2 (dx - 1) dx)) (Some q)) as [El|Nl].
      - apply Uniq in El as [<- <-]. exists "S_DAG". split; [reflexivity|]. split; [now right|]. unfold gated.
        destruct (Z.eqb_spec dx (dx - 1 + 1)); [|lia]. now rewrite orb_true_r.
      - destruct (Sk q) as [g Eg].
        { unfold s0. rewrite dget_dset. destruct (eqb _ _); [eauto|]. rewrite no_gate_get by exact Hq. eauto. }
        exists g. split; [exact Eg|]. unfold gated. destruct (Z.eqb_spec j (i + 1)) as [->|Nj].
        + destruct (All2 i) as (q2 & Eq2 & Ds); [unfold inside in I; lia|]. rewrite E in Eq2. injection Eq2 as <-. rewrite Eg in Ds. injection Ds as ->.
          rewrite orb_true_r. auto.
        + rewrite orb_false_r. destruct (SA q g Eg) as [Ed|[_ (k & _ & Ek)]]; [|apply Uniq in Ek; lia].
          unfold s0 in Ed. rewrite dget_dset in Ed. destruct (eqb_spec (Some (pl_lab d)) (Some q)) as [[= <-]|Nq].
          * injection Ed as <-. apply Uniq in E0 as [<- <-]. auto.
          * rewrite (no_gate_get _ q Hq) in Ed. injection Ed as <-. split; [now left|].
            destruct (Z.eqb_spec i 0) as [->|]; [|reflexivity]. destruct (Z.eqb_spec j 0) as [->|]; [|reflexivity]. rewrite E in E0. congruence. }
    assert (Keys : forall i j q, inside a i j -> labat ps (at2 i j) = Some q -> exists o, dget (Some q) cz = Some o).
    { intros i j q I E. unfold inside in I. assert (T : 0 <= Z.min i j) by lia.
      destruct (Z.le_gt_cases j i) as [L|L].
      - destruct (Z.eq_dec j 0) as [->|N0].
        + destruct (A i) as [K _]; [lia|]. apply K. now replace (0 + i) with i by lia.
        + destruct (B j (i - j)) as [K _]; [lia|lia|]. apply K. now replace (j + (i - j)) with i by lia.
      - destruct (Z.eq_dec i 0) as [->|N0].
        + destruct (A (j - 1)) as [_ K]; [lia|]. apply K. now replace (0 + (j - 1) + 1) with j by lia.
        + destruct (B i (j - i - 1)) as [_ K]; [lia|lia|]. apply K. now replace (i + (j - i - 1) + 1) with j by lia. }
    assert (Other : forall i j, inside a i j -> inside a (fst (other (i, j))) (snd (other (i, j)))).
    { intros i j I. unfold inside, other in *. cbn [fst snd]. destruct (Z.leb_spec j i); cbn [fst snd]; lia. }
    assert (Part : forall i j q, inside a i j -> labat ps (at2 i j) = Some q -> exists b, dget (Some q) cz = Some (Some b) /\
      labat ps (at2 (fst (other (i, j))) (snd (other (i, j)))) = Some b).
    { intros i j q I E. destruct (Keys i j q I E) as [o Eo]. destruct (Wk q o Eo) as (i2 & j2 & _ & _ & E2 & -> & _).
      pose proof (Linj _ _ _ E2 E) as K. apply (at2_inj pt (labat ps) tab Ht Linj (1, 1) (0, 2) Hh) in K as [-> ->].
      destruct (inside_at a l P Hsq _ _ (Other i j I)) as (p & _ & _ & _ & L). exists (pl_lab p). split; [|exact L]. rewrite Eo. unfold at2'. now rewrite L. }
    assert (Zl : forall p, In p ps -> knd p = KX -> pos p <> (0, 2) -> exists z, In z ps /\ knd z = KZ /\ zlab (pl_lab p) = pl_lab z /\
      pos z = (2 * fst (zof (fst (pos p) / 2, snd (pos p) / 2)), 2 * snd (zof (fst (pos p) / 2, snd (pos p) / 2)))).
    { intros p Hp Kp Np. pose proof (ps_kpos a p Hp) as Q. rewrite Kp in Q. cbn [kpos] in Q. unfold xpos in Q.
      set (z := zof (fst (pos p) / 2, snd (pos p) / 2)).
      assert (Np' : fst (pos p) / 2 <> 0 \/ snd (pos p) / 2 <> 1).
      { destruct (pos p) as [r k]. cbn [fst snd] in *. destruct (Z.eq_dec r 0) as [->|]; [|left; lia]. destruct (Z.eq_dec k 2) as [->|]; [congruence|right; lia]. }
      assert (Hz : kpos dx (ga_dz a) KZ (2 * fst z, 2 * snd z)).
      { cbn [kpos]. unfold zpos, z, zof. set (R := fst (pos p) / 2) in *. set (K := snd (pos p) / 2) in *.
        assert (F : fst (pos p) = 2 * R /\ snd (pos p) = 2 * K) by lia. clearbody R K.
        destruct (Z.leb_spec K (R - 1)); [|destruct (Z.eqb_spec K (R + 1))]; cbn [fst snd]; lia. }
      destruct (kpos_ps a KZ _ Hz) as (pz & Hpz & Kz & Ez). exists pz. do 2 (split; [assumption|]). split; [|exact Ez].
      unfold zlab. rewrite (place_of_ok p Hp). fold z. assert (L : labat ps (2 * fst z, 2 * snd z) = Some (pl_lab pz)) by (apply (labat_some _ _ _ _ _ P); eauto).
      now rewrite L. }
    assert (Fx : forall p, In p ps -> Some (pl_lab p) <> Some (pl_lab pa) <-> pos p <> (0, 2)).
    { intros p Hp. split; intros N E; apply N.
      - f_equal. f_equal. apply (pos_eq _ _ _ _ _ P _ _ Hp Hpa). congruence.
      - injection E as E. apply (lab_eq _ _ _ _ _ P _ _ Hp Hpa) in E. congruence. }
    assert (Sup : forall x, In x (labs ps KX) \/ In x (labs ps KZ) -> NoDup (support l x) /\ incl (support l x) (labs ps KD)).
    { intros x Hx. apply (support_ok _ _ _ _ _ P rot_shifts_nodup). now apply ancs_labs. }
    refine (s_end_all cz sg true (Some (pl_lab pa)) l (labs ps KD) (labs ps KX) (labs ps KZ) (ancs ps) _ _ _ _ (pn_data _ _ _ _ _ P) (pn_x _ _ _ _ _ P) (pn_z _ _ _ _ _ P) (pn_anc _ _ _ _ _ P)
      _ _ Sup _ _ _ (rot_apart a l P Hsq Hn tab Ht) zlab _ _).
    - intros q b Hq E. destruct (walk_inv pt (labat ps) tab Ht Linj (1, 1) (0, 2) Hh cz Wk q b E) as (E' & Ne & i & j & Eij). split; [|auto].
      refine (labat_data a l P _ _ _ Eij). unfold LogP11.at2. cbn [fst snd]. lia.
    - intros q g Hq Eg. destruct (data_inside a l P Hsq q Hq) as (i & j & I & E). destruct (Loc i j q I E) as (g' & Eg' & K & _). congruence.
    - discriminate.
    - intros q. apply ancs_labs.
    - intros q Hq. apply (node_place _ _ _ _ _ P). apply in_app_or in Hq as [Hq|Hq].
      + apply labs_place in Hq as (p & Hp & _ & L). eauto.
      + apply anc_place in Hq as (p & Hp & _ & L). eauto.
    - cbn. intros [E|[E|[E|[E|[E|[E|[]]]]]]]; discriminate.
    - intros q Hq. destruct (data_inside a l P Hsq q Hq) as (i & j & I & E). eauto.
    - intros q Hq. destruct (data_inside a l P Hsq q Hq) as (i & j & I & E). destruct (Loc i j q I E) as (g & Eg & _). eauto.
    - intros x Hx Nx. apply labs_place in Hx as (p & Hp & K & <-). apply (Fx p Hp) in Nx. destruct (Zl p Hp K Nx) as (z & Hz & Kz & -> & Ez).
      split; [apply labs_place; eauto|]. split.
      + intros q Hq. destruct (data_inside a l P Hsq q Hq) as (i & j & I & E). destruct (Part i j q I E) as (b & Eb & Lb). destruct (Loc i j q I E) as (g & Eg & _ & Sg).
        unfold on, czf, sf. rewrite (proj2 (mem_In q _) Hq), Eb, Eg. cbn [odef andb]. rewrite Sg.
        rewrite (close_mem a l P tab Ht z i j q Hz ltac:(congruence) E), (close_mem a l P tab Ht p i j q Hp ltac:(congruence) E),
          (close_mem a l P tab Ht p _ _ b Hp ltac:(congruence) Lb), Ez. cbn [fst snd].
        replace (2 * fst (zof (fst (pos p) / 2, snd (pos p) / 2)) / 2) with (fst (zof (fst (pos p) / 2, snd (pos p) / 2))) by lia.
        replace (2 * snd (zof (fst (pos p) / 2, snd (pos p) / 2)) / 2) with (snd (zof (fst (pos p) / 2, snd (pos p) / 2))) by lia.
        pose proof (ps_kpos a p Hp) as Q. rewrite K in Q. cbn [kpos] in Q. unfold xpos in Q.
        apply (zof_ok a); [lia|lia|lia| |exact I]. intros F. apply Nx. pose proof (f_equal fst F) as F1. pose proof (f_equal snd F) as F2. cbn [fst snd] in F1, F2.
        apply injective_projections; cbn [fst snd]; lia.
      + apply xorl_false. intros v Hv. apply in_map_iff in Hv as (y & <- & Hy).
        assert (Iy : In y (labs ps KD)) by (apply (Sup (pl_lab p)); [left; apply labs_place; eauto|exact Hy]).
        destruct (data_inside a l P Hsq y Iy) as (i & j & I & E). destruct (Part i j y I E) as (b & Eb & _).
        unfold contrib, czf. now rewrite (proj2 (mem_In y _) Iy), Eb.
    - intros b Hb. apply labs_place in Hb as (z & Hz & Kz & <-). pose proof (ps_kpos a z Hz) as Q. rewrite Kz in Q. cbn [kpos] in Q. unfold zpos in Q.
      set (R := fst (pos z) / 2) in *. set (K := snd (pos z) / 2) in *. assert (F : fst (pos z) = 2 * R /\ snd (pos z) = 2 * K) by lia.
      set (x := if K =? R then (R, R + 1) else if R <? K then (K - 1, R) else (K, R + 1)).
      assert (Hx : kpos dx (ga_dz a) KX (2 * fst x, 2 * snd x) /\ zof x = (R, K) /\ x <> (0, 1)).
      { cbn [kpos]. unfold xpos, x, zof. clearbody R K. destruct (Z.eqb_spec K R); [|destruct (Z.ltb_spec R K)]; cbn [fst snd].
        - destruct (Z.leb_spec (R + 1) (R - 1)); [lia|]. rewrite Z.eqb_refl. split; [lia|]. split; [f_equal; lia|intros X; injection X as X1 X2; lia].
        - destruct (Z.leb_spec R (K - 1 - 1)); [|lia]. split; [lia|]. split; [f_equal; lia|intros X; injection X as X1 X2; lia].
        - destruct (Z.leb_spec (R + 1) (K - 1)); [lia|]. destruct (Z.eqb_spec (R + 1) (K + 1)); [lia|]. split; [lia|]. split; [f_equal; lia|intros X; injection X as X1 X2; lia]. }
      destruct Hx as (Hx & Zx & Nx). destruct (kpos_ps a KX _ Hx) as (p & Hp & Kp & Ep).
      assert (Np : pos p <> (0, 2)).
      { intros X. rewrite Ep in X. apply Nx. pose proof (f_equal fst X) as X1. pose proof (f_equal snd X) as X2. cbn [fst snd] in X1, X2. apply injective_projections; cbn [fst snd]; lia. }
      exists (pl_lab p). split; [apply labs_place; eauto|]. split; [now apply Fx|].
      destruct (Zl p Hp Kp Np) as (z' & Hz' & _ & -> & Ez'). f_equal. apply (pos_eq _ _ _ _ _ P _ _ Hz' Hz). rewrite Ez', Ep. cbn [fst snd].
      replace (2 * fst x / 2) with (fst x) by lia. replace (2 * snd x / 2) with (snd x) by lia. rewrite <- surjective_pairing, Zx. cbn [fst snd]. apply injective_projections; cbn [fst snd]; lia.
  Qed.
End Gate.
