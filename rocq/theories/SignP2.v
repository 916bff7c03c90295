(** Proofs about the transversal gates with signs, part 2: the powers of i of the S gates. *)
From Coq Require Import QArith Qcanon.
From Verif Require Import Base Lib StimM NoiseM DetM LayoutM SpecLayout LayoutP LayoutP2 GenM GenP SpecGen GeomP BlockM SpecTrack TrackP
  RoundP RotP RotP2 UnrotP LiftP SpecLog SpecSign LogM LogP LogP2 LogP3 LogP4 LogP5 LogP6 LogP7 LogP11 LogP12 SignP.
Open Scope Z_scope.

(** * Sums over the support of an ancilla *)
Section Support.
  Context (l : layout) (shifts : list (Z * Z)) (dirn : Z * Z -> string) (pt : Qc * Qc) (ps : list placed).
  Hypothesis P : planar l shifts dirn pt ps.
  Hypothesis Ns : NoDup shifts.
  Definition olist {A} (o : option A) : list A := match o with Some x => [x] | None => [] end.
  Lemma labat_one rc rc' q : labat ps rc = Some q -> labat ps rc' = Some q -> rc = rc'.
  Proof.
    intros H H'. apply (labat_some _ _ _ _ _ P) in H as (p & Hp & <- & L). apply (labat_some _ _ _ _ _ P) in H' as (p' & Hp' & <- & L').
    f_equal. apply (lab_eq _ _ _ _ _ P); congruence.
  Qed.
  Lemma labat_lab p : In p ps -> labat ps (pos p) = Some (pl_lab p).
  Proof. intros Hp. apply (labat_some _ _ _ _ _ P). eauto. Qed.
  Lemma support_at p : In p ps -> Permutation (support l (pl_lab p)) (flat_map (fun s => olist (labat ps (padd (pos p) s))) shifts).
  Proof.
    intros Hp. apply NoDup_Permutation.
    - apply (support_nodup _ _ _ _ _ P Ns p Hp).
    - assert (G : forall ss, NoDup ss -> NoDup (flat_map (fun s => olist (labat ps (padd (pos p) s))) ss)); [|now apply G].
      induction ss as [|s ss IH]; intros N; [constructor|]. inversion N as [|? ? Hn N']; subst. cbn [flat_map].
      destruct (labat ps (padd (pos p) s)) as [q|] eqn:E; [|now apply IH]. cbn [olist app]. constructor; [|now apply IH].
      intros I. apply in_flat_map in I as (s' & Is & I). destruct (labat ps (padd (pos p) s')) as [q'|] eqn:E'; [|destruct I].
      destruct I as [->|[]]. pose proof (labat_one _ _ _ E E') as K. unfold padd in K. injection K as K1 K2.
      apply Hn. replace s with s'; [exact Is|]. destruct s, s'. cbn [fst snd] in *. f_equal; lia.
    - intros q. rewrite (support_mem _ _ _ _ _ P Ns p q Hp), in_flat_map. split.
      + intros (x & s & Hx & Is & <- & E). exists s. split; [exact Is|]. rewrite <- E, labat_lab by exact Hx. now left.
      + intros (s & Is & I). destruct (labat ps (padd (pos p) s)) as [q'|] eqn:E; [|destruct I]. destruct I as [->|[]].
        apply (labat_some _ _ _ _ _ P) in E as (x & Hx & Ex & <-). exists x, s. auto.
  Qed.
  Lemma support_sum (f : string -> Z) p : In p ps ->
    sum_of (map f (support l (pl_lab p))) = sum_of (map (fun s => match labat ps (padd (pos p) s) with Some q => f q | None => 0 end) shifts).
  Proof.
    intros Hp. rewrite (sum_perm _ _ (Permutation_map f (support_at p Hp))). clear. induction shifts as [|s ss IH]; [reflexivity|].
    cbn [flat_map map]. rewrite map_app, sum_app, IH. unfold sum_of. cbn [fold_right]. destruct (labat ps _); cbn [olist map fold_right]; lia.
  Qed.
  Lemma support_filter p : In p ps -> knd p <> KD -> Permutation (filter (fun q => mem q (support l (pl_lab p))) (labs ps KD)) (support l (pl_lab p)).
  Proof.
    intros Hp K. assert (Ia : In (pl_lab p) (ancs ps)).
    { apply ancs_labs. rewrite !labs_place. destruct (knd p) eqn:E; [tauto| |]; [left|right]; eauto. }
    destruct (support_ok _ _ _ _ _ P Ns _ Ia) as [N I]. apply NoDup_Permutation; [apply NoDup_filter; apply (kind_nodup _ _ _ _ _ P)|exact N|].
    intros q. rewrite filter_In, mem_In. split; [tauto|]. intros H. split; [now apply I|exact H].
  Qed.
  Lemma in_support p q rc : In p ps -> labat ps rc = Some q -> mem q (support l (pl_lab p)) = true <-> In (fst rc - fst (pos p), snd rc - snd (pos p)) shifts.
  Proof.
    intros Hp E. rewrite mem_In, (support_mem _ _ _ _ _ P Ns p q Hp). split.
    - intros (x & s & Hx & Is & <- & Ex). pose proof (labat_lab x Hx) as E'. pose proof (labat_one _ _ _ E E') as K. rewrite K, Ex.
      unfold padd. cbn [fst snd]. replace (_, _) with s; [exact Is|]. destruct s. cbn [fst snd]. f_equal; lia.
    - intros I. apply (labat_some _ _ _ _ _ P) in E as (x & Hx & Ex & <-). eexists x, _. split; [exact Hx|]. split; [exact I|]. split; [reflexivity|].
      rewrite Ex. unfold padd. cbn [fst snd]. destruct rc. cbn [fst snd]. f_equal; lia.
  Qed.
End Support.

Lemma even_Z k : Z.even (Z.of_nat k) = Nat.even k.
Proof.
  induction k as [|k IH]; [reflexivity|]. rewrite Nat2Z.inj_succ, Z.even_succ, <- Z.negb_even, IH, Nat.even_succ, <- Nat.negb_even. reflexivity.
Qed.
(** * S of the unrotated code *)
Section Unrot.
  Context (a : gen_args) (l : layout).
  Notation ps := (unrot_ps a).
  Hypothesis P : planar l unrot_shifts unrot_dirn (ga_pt a) ps.
  Hypothesis Hdx : l_dx l = ga_dx a.
  Hypothesis Hdz : l_dz l = ga_dz a.
  Hypothesis Hsq : ga_dz a = ga_dx a.
  Context (c e : Z * Z).
  Hypothesis He1 : fst e = 1 \/ fst e = -1.
  Hypothesis He2 : snd e = 1 \/ snd e = -1.
  Hypothesis Hc : ukind c = KD.
  Context (tab : dict vec string).
  Hypothesis Htab : label_table l = Ok tab.
  Context (cz : dict (option string) (option string)) (s : dict (option string) string).
  Hypothesis Hcz : partners l tab (crd (ga_pt a) c) (vz e) (labs ps KD) = Ok cz.
  Hypothesis Hs : diagonal_gates l tab (crd (ga_pt a) c) (vz e) (labs ps KD) = Ok s.
  Definition dg (k : Z) : Z * Z := padd c (pscale k e).
  Definition dgate (k : Z) : string := if Z.even k then "S" else "S_DAG".
  Lemma dg_inj k k' : dg k = dg k' -> k = k'.
  Proof. unfold dg, padd, pscale. cbn [fst snd]. intros [= E1 E2]. destruct He1 as [E|E]; rewrite E in *; lia. Qed.
  Lemma diagonal_all k : 0 <= k < 2 * ga_dx a - 1 -> exists q, labat ps (dg k) = Some q /\ dget (Some q) s = Some (dgate k).
  Proof.
    intros Hk. pose proof Hs as H. unfold diagonal_gates in H. rewrite Hdz, Hsq in H.
    destruct (table_ok _ _ _ _ _ P) as (tab' & Et & Ht). rewrite Htab in Et. injection Et as <-.
    assert (G : forall ks d s, NoDup ks ->
      foldM (fun d k => do q <- dget_err (vadd (crd (ga_pt a) c) (vscale (natq k) (vz e))) tab;
                    Ok (dset (Some q) (if Nat.even k then "S" else "S_DAG") d)) ks d = Ok s ->
      (forall k, In k ks -> exists q, labat ps (dg (Z.of_nat k)) = Some q /\ dget (Some q) s = Some (dgate (Z.of_nat k))) /\
      (forall q, (forall k, In k ks -> labat ps (dg (Z.of_nat k)) <> Some q) -> dget (Some q) s = dget (Some q) d)).
    { clear Hk k H. induction ks as [|k ks IH]; intros d s0 N H; cbn [foldM] in H; [injection H as <-; split; [intros k []|reflexivity]|].
      inversion N as [|? ? Hn N']; subst. apply bind_ok in H as [d1 [H1 H]]. apply bind_ok in H1 as [b [Eb H1]]. injection H1 as <-.
      unfold dget_err in Eb. rewrite vscale_vz, vadd_crd, Ht in Eb. change (padd c (pscale (Z.of_nat k) e)) with (dg (Z.of_nat k)) in Eb.
      destruct (labat ps (dg (Z.of_nat k))) as [b'|] eqn:E; [|discriminate]. injection Eb as ->.
      destruct (IH _ _ N' H) as [A B]. split.
      - intros k' [<-|Hk']; [|now apply A]. exists b. split; [exact E|]. rewrite B.
        + rewrite dget_dset_same. unfold dgate. now rewrite even_Z.
        + intros k' Hk' E'. pose proof (labat_one _ _ _ _ _ P _ _ _ E E') as K. apply dg_inj, Nat2Z.inj in K. now subst k'.
      - intros q Hq. rewrite B by (intros k' Hk'; apply Hq; now right). apply dget_dset_other. intros [= ->]. apply (Hq k); [now left|exact E]. }
    destruct (G _ _ _ (seq_NoDup _ _) H) as [A _]. destruct (A (Z.to_nat k)) as (q & Eq & D); [apply in_seq; lia|].
    rewrite Z2Nat.id in * by lia. eauto.
  Qed.
  Lemma dg_box k : 0 <= k < 2 * ga_dx a - 1 -> uin (ga_dx a) (ga_dz a) (dg k).
  Proof.
    intros Hk. destruct (diagonal_all k Hk) as (q & Eq & _). apply (labat_some _ _ _ _ _ P) in Eq as (p & Hp & <- & _). apply (ups_pos _ _ Hp).
  Qed.
  (* the place of a qubit along the diagonal and next to it *)
  Definition along (y : Z * Z) : Z := (fst y - fst c) * fst e.
  Definition across (y : Z * Z) : Z := (snd y - snd c) * snd e.
  Lemma along_dg y : along y = across y -> y = dg (along y).
  Proof.
    unfold along, across, dg, padd, pscale. destruct y as [y1 y2]. cbn [fst snd]. destruct He1 as [E|E], He2 as [F|F]; rewrite E, F; intros K; f_equal; lia.
  Qed.
  Lemma in_box y : uin (ga_dx a) (ga_dz a) y -> 0 <= along y < 2 * ga_dx a - 1 /\ 0 <= across y < 2 * ga_dx a - 1.
  Proof.
    intros U. unfold uin in U. assert (D : 1 <= ga_dx a) by lia. pose proof (dg_box 0 ltac:(lia)) as B0. pose proof (dg_box (2 * ga_dx a - 2) ltac:(lia)) as B1.
    unfold uin, dg, padd, pscale in B0, B1. cbn [fst snd] in B0, B1. unfold along, across. rewrite Hsq in *.
    destruct He1 as [E|E], He2 as [F|F]; rewrite E, F in *; lia.
  Qed.
  Definition dterm (y : Z * Z) : Z := if along y =? across y then (if Z.even (along y) then -1 else 1) else 0.
  Lemma loc_at y q : labat ps y = Some q -> sf s q = if along y =? across y then dgate (along y) else "I".
  Proof.
    intros E. assert (U : uin (ga_dx a) (ga_dz a) y) by (apply (labat_some _ _ _ _ _ P) in E as (p & Hp & <- & _); apply (ups_pos _ _ Hp)).
    unfold sf. destruct (Z.eqb_spec (along y) (across y)) as [D|D].
    - destruct (diagonal_all (along y)) as (q' & E' & G); [now apply in_box|]. rewrite <- (along_dg y D), E in E'. injection E' as <-. now rewrite G.
    - destruct (dget (Some q) s) as [g|] eqn:G; [|reflexivity]. cbn [odef].
      destruct (diagonal_get a l P c e tab Htab s Hs q g G) as [|[_ [k Ek]]]; [assumption|].
      exfalso. apply D. rewrite (labat_one _ _ _ _ _ P _ _ _ E Ek). unfold along, across, padd, pscale. cbn [fst snd].
      destruct He1 as [H1|H1], He2 as [H2|H2]; rewrite H1, H2; lia.
  Qed.
  Lemma no_pair p y q : In p ps -> knd p = KX -> labat ps y = Some q -> In q (labs ps KD) -> mem q (support l (pl_lab p)) = true ->
    match czf cz (labs ps KD) q with Some b => mem b (support l (pl_lab p)) | None => false end = false.
  Proof.
    intros Hp Kp E Hq M. unfold czf. rewrite (proj2 (mem_In q _) Hq). apply labs_place in Hq as (x & Hx & Kx & <-).
    destruct (partner_at a l P c e He1 He2 Hc tab Htab cz Hcz x Hx Kx) as (x' & Hx' & Kx' & Ex & ->).
    destruct (eqb_spec (pl_lab x') (pl_lab x)) as [|Ne]; [reflexivity|]. apply not_true_is_false. intros M'.
    apply (in_support _ _ _ _ _ P unrot_shifts_nodup p _ _ Hp (labat_lab _ _ _ _ _ P x Hx)) in M.
    apply (in_support _ _ _ _ _ P unrot_shifts_nodup p _ _ Hp (labat_lab _ _ _ _ _ P x' Hx')) in M'.
    rewrite Ex in M'. apply In_unrot_shifts in M, M'. cbn [fst snd] in M, M'.
    assert (Nx : mirror c e (pos x) <> pos x). { intros K. apply Ne. rewrite K in Ex. f_equal. now apply (pos_eq _ _ _ _ _ P). }
    destruct (ups_pos _ _ Hp) as [_ U]. rewrite Kp in U. pose proof (ukind_spec (pos p)) as X1. rewrite <- U in X1.
    pose proof (ukind_spec c) as X2. rewrite Hc in X2.
    unfold mirror in *. destruct (pos x) as [x1 x2], (pos p) as [p1 p2]. cbn [fst snd] in *.
    assert (Nx' : ~ (fst c + fst e * snd e * (x2 - snd c) = x1 /\ snd c + fst e * snd e * (x1 - fst c) = x2)) by (intros [K1 K2]; apply Nx; now rewrite K1, K2).
    clear - Nx' X1 X2 M M' He1 He2. destruct He1 as [E|E], He2 as [F|F]; rewrite E, F in *; lia.
  Qed.
  Lemma unrot_s_phase p : In p ps -> knd p = KX ->
    s_phase (labs ps KD) (czf cz (labs ps KD)) (sf s) (fun q => mem q (support l (pl_lab p))) = 0.
  Proof.
    intros Hp Kp. unfold s_phase.
    rewrite (sum_perm _ _ (Permutation_map _ (support_filter _ _ _ _ _ P unrot_shifts_nodup p Hp ltac:(congruence)))).
    set (N := fun q => mem q (support l (pl_lab p))).
    rewrite (support_sum _ _ _ _ _ P unrot_shifts_nodup _ p Hp).
    rewrite (sum_ext _ (fun t => dterm (padd (pos p) t))).
    - destruct (ups_pos _ _ Hp) as [U _]. pose proof (in_box _ U) as [B1 B2].
      unfold unrot_shifts, sum_of. cbn [map fold_right]. unfold dterm, along, across, padd in *. cbn [fst snd] in *.
      set (u := fst (pos p) - fst c) in *. set (v := snd (pos p) - snd c) in *.
      replace (fst (pos p) + 0 - fst c) with u by lia. replace (snd (pos p) + 0 - snd c) with v by lia.
      replace (fst (pos p) + 1 - fst c) with (u + 1) by lia. replace (fst (pos p) + -1 - fst c) with (u - 1) by lia.
      replace (snd (pos p) + 1 - snd c) with (v + 1) by lia. replace (snd (pos p) + -1 - snd c) with (v - 1) by lia.
      clear - He1 He2.
      assert (Ev : forall z, Z.even (z + 1) = negb (Z.even z)) by (intros z; now rewrite Z.add_1_r, Z.even_succ, Z.negb_even).
      assert (Ev' : forall z, Z.even (z - 1) = negb (Z.even z)) by (intros z; now rewrite Z.sub_1_r, Z.even_pred, Z.negb_even).
      assert (Eo : forall z, Z.even (- z) = Z.even z) by (intros z; apply Z.even_opp).
      destruct He1 as [E|E], He2 as [F|F]; rewrite E, F; rewrite ?Z.mul_1_r; repeat rewrite <- Z.opp_eq_mul_m1 in *; rewrite ?Eo, ?Ev, ?Ev';
        repeat match goal with |- context[Z.eqb ?x ?y] => destruct (Z.eqb_spec x y) end; try lia; destruct (Z.even u); cbn [negb]; lia.
    - intros t It. destruct (labat ps (padd (pos p) t)) as [q|] eqn:E.
      + assert (Hq : In q (labs ps KD)).
        { apply (labat_some _ _ _ _ _ P) in E as (x & Hx & Ex & <-). apply labs_place. exists x. split; [exact Hx|]. split; [|reflexivity].
          destruct (ups_pos _ _ Hx) as [_ ->]. rewrite Ex. destruct (ups_pos _ _ Hp) as [_ U]. rewrite Kp in U. pose proof (ukind_spec (pos p)) as X1. rewrite <- U in X1.
          apply In_unrot_shifts in It. pose proof (ukind_spec (padd (pos p) t)) as X2. unfold padd in *. cbn [fst snd] in *.
          destruct (ukind (fst (pos p) + fst t, snd (pos p) + snd t)); [reflexivity| |]; lia. }
        unfold s_term, N. cbv beta. rewrite (no_pair p _ q Hp Kp E Hq).
        * rewrite (loc_at _ _ E). unfold dterm, dgate. destruct (_ =? _); [|reflexivity]. destruct (Z.even _); reflexivity.
        * apply (in_support _ _ _ _ _ P unrot_shifts_nodup p q _ Hp E). unfold padd. cbn [fst snd].
          replace (_, _) with t; [exact It|]. destruct t. cbn [fst snd]. f_equal; lia.
      + unfold dterm. destruct (Z.eqb_spec (along (padd (pos p) t)) (across (padd (pos p) t))) as [D|D]; [|reflexivity]. exfalso.
        destruct (ups_pos _ _ Hp) as [U _]. pose proof (in_box _ U) as [B1 B2].
        destruct (diagonal_all (along (padd (pos p) t))) as (q & Eq & _).
        { apply In_unrot_shifts in It. clear - It B1 B2 D He1 He2. unfold along, across, padd in *. cbn [fst snd] in *.
          destruct t as [t1 t2]. cbn [fst snd] in *.
          destruct It as [[-> [-> | ->]]|[-> [-> | ->]]]; destruct He1 as [E|E], He2 as [F|F]; rewrite E, F in *; lia. }
        rewrite <- (along_dg _ D) in Eq. congruence.
  Qed.
End Unrot.

(** * S of the rotated code *)
Section Rot.
  Context (a : gen_args) (l : layout) (pf : string -> option string) (loc : string -> string).
  Notation ps := (rot_ps a).
  Hypothesis P : planar l rot_shifts rot_dirn (rot_pt a) ps.
  Hypothesis Hpl : rot_places a pf loc.
  Notation dx := (ga_dx a).
  Lemma cell_some i j : (exists q, cell a i j = Some q) <-> 0 <= i < dx /\ 0 <= j < dx + 1.
  Proof.
    destruct Hpl as [D _]. split.
    - intros [q E]. apply (labat_some _ _ _ _ _ P) in E as (p & Hp & Ep & _). pose proof (ps_kpos a p Hp) as K. rewrite Ep in K.
      destruct (knd p); cbn [kpos] in K; unfold dpos, xpos, zpos in K; cbn [fst snd] in K; lia.
    - intros H. destruct (data_at a l P (2 * i + 1) (2 * j + 1)) as (q & E & _); try lia. exists q. exact E.
  Qed.
  (* the term of a data qubit in the sum of the X ancilla between the rows r - 1, r and the columns k - 1, k *)
  Definition inside (r k i j : Z) : bool := ((i =? r - 1) || (i =? r)) && ((j =? k - 1) || (j =? k)).
  Definition cterm (r k i j : Z) : Z :=
    if (0 <=? i) && (i <? dx) && (0 <=? j) && (j <? dx + 1) then
      b2z (inside r k (fst (other (i, j))) (snd (other (i, j)))) +
      (if (i =? 0) && (j =? 0) then -1 else if j =? i + 1 then (if i =? dx - 1 then 1 else -1) else 0)
    else 0.
  Lemma rot_s_phase p : In p ps -> knd p = KX ->
    (s_phase (labs ps KD) pf loc (fun q => mem q (support l (pl_lab p)))) mod 4 =
    if existsb (fun q => eqb (loc q) "S_DAG") (support l (pl_lab p)) then 2 else 0.
  Proof.
    intros Hp Kp. unfold s_phase.
    rewrite (sum_perm _ _ (Permutation_map _ (support_filter _ _ _ _ _ P rot_shifts_nodup p Hp ltac:(congruence)))).
    rewrite (support_sum _ _ _ _ _ P rot_shifts_nodup _ p Hp).
    pose proof (ps_kpos a p Hp) as K. rewrite Kp in K. cbn [kpos] in K. unfold xpos in K. destruct Hpl as [D Pl]. rewrite D in K.
    set (r := fst (pos p) / 2). set (k := snd (pos p) / 2).
    assert (Er : fst (pos p) = 2 * r) by (unfold r; lia). assert (Ek : snd (pos p) = 2 * k) by (unfold k; lia). clearbody r k.
    assert (Es : pos p = (2 * r, 2 * k)) by (destruct (pos p); cbn [fst snd] in *; congruence).
    assert (Rk : (r + k) mod 2 = 1 /\ 0 <= r <= dx /\ 1 <= k <= dx) by lia.
    assert (Term : forall i j, inside r k i j = true ->
      match labat ps (2 * i + 1, 2 * j + 1) with Some q => s_term pf loc (fun q => mem q (support l (pl_lab p))) q | None => 0 end = cterm r k i j).
    { intros i j I. unfold cterm. destruct (labat ps (2 * i + 1, 2 * j + 1)) as [q|] eqn:E.
      - assert (R : 0 <= i < dx /\ 0 <= j < dx + 1) by (apply cell_some; eauto).
        replace ((0 <=? i) && (i <? dx) && (0 <=? j) && (j <? dx + 1)) with true by lia.
        destruct (Pl i j q ltac:(lia) ltac:(lia) E) as [E1 E2]. unfold s_term. rewrite E1, E2. f_equal.
        + f_equal. set (o := other (i, j)). destruct (cell a (fst o) (snd o)) as [b|] eqn:Eb.
          * apply eq_true_iff_eq. rewrite (in_support _ _ _ _ _ P rot_shifts_nodup p b _ Hp Eb), In_rot_shifts, Es. cbn [fst snd]. unfold inside. lia.
          * symmetry. apply not_true_is_false. intros M.
            assert (No : ~ (0 <= fst o < dx /\ 0 <= snd o < dx + 1)) by (intros O; apply cell_some in O as [b O]; congruence).
            unfold o, other, inside in *. cbn [fst snd] in *. destruct (Z.leb_spec j i); cbn [fst snd] in *; lia.
        + destruct ((i =? 0) && (j =? 0)); [reflexivity|]. destruct (j =? i + 1); [|reflexivity]. destruct (i =? dx - 1); reflexivity.
      - destruct ((0 <=? i) && (i <? dx) && (0 <=? j) && (j <? dx + 1)) eqn:B; [|reflexivity]. exfalso.
        assert (R : exists q, cell a i j = Some q) by (apply cell_some; lia). destruct R as [q R]. unfold cell in R. congruence. }
    assert (Sum : sum_of (map (fun s => match labat ps (padd (pos p) s) with Some q => s_term pf loc (fun q => mem q (support l (pl_lab p))) q | None => 0 end) rot_shifts)
      = cterm r k r k + (cterm r k r (k - 1) + (cterm r k (r - 1) k + cterm r k (r - 1) (k - 1)))).
    { unfold rot_shifts, sum_of. cbn [map fold_right]. rewrite Es. unfold padd. cbn [fst snd].
      rewrite <- !Term by (unfold inside; lia).
      replace (2 * (r - 1) + 1) with (2 * r + -1) by lia. replace (2 * (k - 1) + 1) with (2 * k + -1) by lia. lia. }
    rewrite Sum.
    assert (Ex : existsb (fun q => eqb (loc q) "S_DAG") (support l (pl_lab p)) = inside r k (dx - 1) dx).
    { apply eq_true_iff_eq. rewrite existsb_exists. split.
      - intros (q & Iq & Lq). apply (support_mem _ _ _ _ _ P rot_shifts_nodup p q Hp) in Iq as (x & t & Hx & It & <- & Et).
        apply In_rot_shifts in It. rewrite Es in Et. unfold padd in Et. cbn [fst snd] in Et.
        set (i := if fst t =? 1 then r else r - 1). set (j := if snd t =? 1 then k else k - 1).
        assert (Eij : pos x = (2 * i + 1, 2 * j + 1)).
        { rewrite Et. unfold i, j. destruct (Z.eqb_spec (fst t) 1), (Z.eqb_spec (snd t) 1); f_equal; lia. }
        assert (Ec : cell a i j = Some (pl_lab x)) by (unfold cell; rewrite <- Eij; now apply (labat_lab _ _ _ _ _ P)).
        assert (R : 0 <= i < dx /\ 0 <= j < dx + 1) by (apply cell_some; eauto).
        destruct (Pl i j _ ltac:(lia) ltac:(lia) Ec) as [_ E2]. rewrite E2 in Lq.
        assert (i = dx - 1 /\ j = dx) as [<- Ej].
        { destruct ((i =? 0) && (j =? 0)); [discriminate|]. destruct (Z.eqb_spec j (i + 1)); [|discriminate]. destruct (Z.eqb_spec i (dx - 1)); [lia|discriminate]. }
        rewrite <- Ej. unfold inside, i, j. destruct (Z.eqb_spec (fst t) 1), (Z.eqb_spec (snd t) 1); lia.
      - intros I. assert (Dx : 1 <= dx) by lia. destruct (proj2 (cell_some (dx - 1) dx) ltac:(lia)) as [q Eq]. exists q. split.
        + apply mem_In, (in_support _ _ _ _ _ P rot_shifts_nodup p q _ Hp Eq), In_rot_shifts. rewrite Es. cbn [fst snd]. unfold inside in I. lia.
        + destruct (Pl (dx - 1) dx q ltac:(lia) ltac:(lia) Eq) as [_ ->].
          replace ((dx - 1 =? 0) && (dx =? 0)) with false by lia. replace (dx =? dx - 1 + 1) with true by lia. now rewrite Z.eqb_refl. }
    rewrite Ex. clear - Rk.
    assert (Zero : k - r <> 1 -> forall i j, inside r k i j = true -> cterm r k i j = 0).
    { intros Nd i j I. unfold cterm. destruct ((0 <=? i) && (i <? dx) && (0 <=? j) && (j <? dx + 1)) eqn:B; [|reflexivity].
      assert (Eo : inside r k (fst (other (i, j))) (snd (other (i, j))) = false).
      { unfold inside, other in *. cbn [fst snd]. destruct (Z.leb_spec j i); cbn [fst snd]; lia. }
      rewrite Eo. unfold inside in I. replace ((i =? 0) && (j =? 0)) with false by lia. replace (j =? i + 1) with false by lia. reflexivity. }
    destruct (Z.eq_dec (k - r) 1) as [Ed|Nd].
    - assert (k = r + 1) as -> by lia.
      assert (E1 : cterm r (r + 1) r (r + 1) = if r <? dx then (if r =? dx - 1 then 2 else 0) else 0).
      { unfold cterm, inside, other. cbn [fst snd]. replace (r + 1 <=? r) with false by lia. cbn [fst snd].
        destruct (Z.ltb_spec r dx); [|replace ((0 <=? r) && false) with false by (now destruct (0 <=? r)); reflexivity].
        replace ((0 <=? r) && true && (0 <=? r + 1) && (r + 1 <? dx + 1)) with true by lia.
        replace (((r + 1 - 1 =? r - 1) || (r + 1 - 1 =? r)) && ((r =? r + 1 - 1) || (r =? r + 1))) with true by lia.
        replace ((r =? 0) && (r + 1 =? 0)) with false by lia. rewrite Z.eqb_refl. destruct (r =? dx - 1); reflexivity. }
      assert (E2 : cterm r (r + 1) r (r + 1 - 1) = if r <? dx then (if r =? 0 then 0 else 1) else 0).
      { unfold cterm, inside, other. cbn [fst snd]. replace (r + 1 - 1 <=? r) with true by lia. cbn [fst snd].
        destruct (Z.ltb_spec r dx); [|replace ((0 <=? r) && false) with false by (now destruct (0 <=? r)); reflexivity].
        replace ((0 <=? r) && true && (0 <=? r + 1 - 1) && (r + 1 - 1 <? dx + 1)) with true by lia.
        replace (((r + 1 - 1 =? r - 1) || (r + 1 - 1 =? r)) && ((r + 1 =? r + 1 - 1) || (r + 1 =? r + 1))) with true by lia.
        replace (r + 1 - 1 =? r + 1) with false by lia. destruct (Z.eqb_spec r 0).
        - replace (r + 1 - 1 =? 0) with true by lia. reflexivity.
        - reflexivity. }
      assert (E3 : cterm r (r + 1) (r - 1) (r + 1) = 0).
      { unfold cterm, inside, other. cbn [fst snd]. replace (r + 1 <=? r - 1) with false by lia. cbn [fst snd].
        destruct ((0 <=? r - 1) && (r - 1 <? dx) && (0 <=? r + 1) && (r + 1 <? dx + 1)); [|reflexivity].
        replace (((r + 1 - 1 =? r - 1) || (r + 1 - 1 =? r)) && ((r - 1 =? r + 1 - 1) || (r - 1 =? r + 1))) with false by lia.
        replace ((r - 1 =? 0) && (r + 1 =? 0)) with false by lia. replace (r + 1 =? r - 1 + 1) with false by lia. reflexivity. }
      assert (E4 : cterm r (r + 1) (r - 1) (r + 1 - 1) = if r =? 0 then 0 else if r - 1 =? dx - 1 then 1 else -1).
      { unfold cterm, inside, other. cbn [fst snd]. replace (r + 1 - 1 <=? r - 1) with false by lia. cbn [fst snd].
        destruct (Z.eqb_spec r 0); [replace (0 <=? r - 1) with false by lia; reflexivity|].
        replace ((0 <=? r - 1) && (r - 1 <? dx) && (0 <=? r + 1 - 1) && (r + 1 - 1 <? dx + 1)) with true by lia.
        replace (((r + 1 - 1 - 1 =? r - 1) || (r + 1 - 1 - 1 =? r)) && ((r - 1 =? r + 1 - 1) || (r - 1 =? r + 1))) with false by lia.
        replace ((r - 1 =? 0) && (r + 1 - 1 =? 0)) with false by lia. replace (r + 1 - 1 =? r - 1 + 1) with true by lia.
        destruct (r - 1 =? dx - 1); reflexivity. }
      rewrite E1, E2, E3, E4. unfold inside.
      destruct (Z.ltb_spec r dx), (Z.eqb_spec r (dx - 1)), (Z.eqb_spec r 0), (Z.eqb_spec (r - 1) (dx - 1)); try lia;
        match goal with |- _ = if ?b then _ else _ => first [replace b with true by lia | replace b with false by lia] end; reflexivity.
    - rewrite !Zero by (unfold inside; lia).
      replace (inside r k (dx - 1) dx) with false by (unfold inside; lia). reflexivity.
  Qed.
End Rot.
