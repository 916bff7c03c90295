(** Proofs about the transversal gates, part 12: the attributes of set_trans_s of the
    rotated code, on a generated layout. *)
From Coq Require Import QArith Qcanon.
From Verif Require Import Base Lib StimM NoiseM DetM LayoutM SpecLayout LayoutP LayoutP2 GenM GenP SpecGen GeomP BlockM SpecTrack TrackP
  RoundP RotP RotP2 LiftP SpecLog LogM LogP LogP2 LogP3 LogP4 LogP5 LogP6 LogP7 LogP11.
Open Scope Z_scope.

Lemma s_keys cz s both fixed l gate l2 data : trans_s_end cz s both fixed l gate = Ok l2 -> get_role l "data" = Ok data ->
  forall q, In q data -> exists o, dget (Some q) cz = Some o.
Proof.
  intros H Hd q Hq. unfold trans_s_end in H. rewrite Hd in H. cbn [bind] in H.
  apply bind_ok in H as [ancs [_ H]]. apply bind_ok in H as [xs [_ H]]. apply bind_ok in H as [zs [_ H]]. apply bind_ok in H as [l1 [H1 _]].
  destruct (set_params_ok [] gate (s_attr cz s) data (fun K => K) _ _ H1) as (_ & V & _). destruct (V q Hq) as (v & Ev & _).
  unfold s_attr in Ev. apply bind_ok in Ev as [b [Eb _]]. unfold dget_err in Eb. destruct (dget (Some q) cz); [eauto|discriminate].
Qed.

Section Rot.
  Context (ord : nat -> list string -> list string) (ordp : nat -> list (string * string) -> list (string * string)).
  Hypothesis Hord : forall n s, Permutation (ord n s) s.
  Hypothesis Hordp : forall n s, Permutation (ordp n s) s.
  Context (a : gen_args) (l l2 l3 : layout) (dq : string).
  Notation ps := (rot_ps a).
  Notation dx := (ga_dx a).
  Notation dz := (ga_dz a).
  Notation pt := (rot_pt a).
  Hypothesis P : planar l rot_shifts rot_dirn pt ps.
  Hypothesis Hlog : l_logs l = [ga_log a].
  Hypothesis Hcode : l_code l = "rotated_surface_code".
  Hypothesis Hdx : l_dx l = dx.
  Hypothesis Hdz : l_dz l = dz.
  (* row i, column j of the data qubits *)
  Definition cell (i j : Z) : option string := labat ps (2 * i + 1, 2 * j + 1).
  Definition rot_places (pf : string -> option string) (loc : string -> string) : Prop :=
    dz = dx + 1 /\
    forall i j q, 0 <= i -> 0 <= j -> cell i j = Some q ->
      pf q = cell (fst (other (i, j))) (snd (other (i, j))) /\
      loc q = if (i =? 0) && (j =? 0) then "S" else if j =? i + 1 then (if i =? dx - 1 then "S_DAG" else "S") else "I".
  Lemma rot_s_labels_at :
    set_trans_s_rot l dq = Ok l2 -> touched (("trans-s_" ++ ga_log a) :: structure)%string l2 l3 ->
    exists pf loc nd, pairing (labs ps KD) pf /\ first_log l3 = Ok (ga_log a) /\ new_stab_dict l3 ("trans-s_" ++ ga_log a) = Ok nd /\
      label_act (fun ord ordp => trans_s_blocks ord ordp l3) (css l) (ancs ps) (s_op (labs ps KD) pf loc) nd /\
      s_attrs l3 ("trans-s_" ++ ga_log a) (labs ps KD) pf loc /\ s_shape (labs ps KX) (labs ps KZ) nd /\ rot_places pf loc /\
      2 <= dx /\ labat ps (1, 1) = Some dq.
  Proof.
    intros H T3. unfold set_trans_s_rot in H. apply bind_ok in H as [[] [F H]].
    assert (Rd : get_role l "data" = Ok (labs ps KD)) by apply P. rewrite Rd in H. cbn [bind] in H.
    unfold gate_s in H. rewrite (first_one l _ Hlog) in H. cbn [bind] in H. apply bind_ok in H as [[[ax p0] v0] [L H]].
    apply bind_ok in H as [tab [Et H]]. apply bind_ok in H as [cz [Ec H]]. apply bind_ok in H as [[s1 e] [Es H]].
    apply fold_data in F as (data & Ed & Id & _ & Sz). rewrite Rd in Ed. injection Ed as <-.
    apply eqb_true in Sz. rewrite Hdx, Hdz in Sz.
    apply labs_place in Id as (d & Hd & Kd & Ld). rewrite <- Ld in L.
    destruct (fold_line_ok _ _ _ _ _ P d ax p0 v0 Hd L) as (pa & pz & ph & t1 & t2 & Ha & Hz & Hph & S1 & S2 & Ka & Kz & La & Ea & Ez & Eh & -> & ->).
    set (h := padd t1 t2) in *. set (c0 := pos d) in *.
    pose proof (ps_kpos a d Hd) as Qd. rewrite Kd in Qd. cbn [kpos] in Qd. unfold dpos in Qd. fold c0 in Qd.
    pose proof (ps_kpos a pa Ha) as Qa. rewrite Ka in Qa. cbn [kpos] in Qa. unfold xpos in Qa. rewrite Ea in Qa. unfold padd in Qa. cbn [fst snd] in Qa.
    pose proof (ps_kpos a pz Hz) as Qz. rewrite Kz in Qz. cbn [kpos] in Qz. unfold zpos in Qz. rewrite Ez in Qz. unfold padd in Qz. cbn [fst snd] in Qz.
    pose proof (ps_kpos a ph Hph) as Qh. rewrite Eh, Ea in Qh.
    apply In_rot_shifts in S1, S2.
    assert (Eh1 : fst h = fst t1 + fst t2) by reflexivity. assert (Eh2 : snd h = snd t1 + snd t2) by reflexivity. clearbody h.
    assert (Hh : (fst h = 0 /\ (snd h = 2 \/ snd h = -2)) \/ (snd h = 0 /\ (fst h = 2 \/ fst h = -2))) by lia.
    destruct (table_ok _ _ _ _ _ P) as (tab' & Et' & Ht). rewrite Et in Et'. injection Et' as <-.
    pose proof (labat_inj a l P) as Linj.
    rewrite vec_v in Ec, Es, H.
    assert (C0 : c0 = at2 c0 h 0 0) by (unfold at2; destruct c0; cbn [fst snd]; f_equal; lia).
    assert (Wk : walk_ok (labat ps) c0 h cz).
    { rewrite C0 in Ec at 1. refine (cz_loop_ok pt (labat ps) tab Ht Linj c0 h _ 0 0%nat [] cz _ _ Ec); [lia|]. intros q o E. discriminate. }
    assert (E01 : vadd (crd pt c0) (vz h) = crd pt (at2 c0 h 0 (0 + 1))).
    { rewrite vadd_crd. f_equal. unfold padd, at2. cbn [fst snd]. f_equal; lia. }
    rewrite E01 in Es.
    destruct (s_loop_ok pt (labat ps) tab Ht Linj c0 h _ 0 _ _ _ (Z.le_refl 0) Es) as ((i' & Li & Ee & Lt) & SA & SB & SC).
    assert (P01 : labat ps (at2 c0 h 0 1) = Some (pl_lab ph)).
    { apply (labat_some _ _ _ _ _ P). exists ph. split; [exact Hph|]. split; [|reflexivity]. rewrite Eh, Ea. unfold padd, at2. cbn [fst snd]. f_equal; lia. }
    change (0 + 1) with 1 in *. rewrite P01 in Lt. specialize (Lt ltac:(discriminate)).
    assert (Elast : vsub (vsub e (vz h)) (vz (snd h, - fst h)) = crd pt (at2 c0 h (i' - 1) i')).
    { rewrite Ee. unfold vsub, crd, vz, at2. cbn [fst snd].
      replace (fst c0 + i' * snd h + (i' + 1) * fst h) with ((fst c0 + (i' - 1) * snd h + i' * fst h) + fst h + snd h) by lia.
      replace (snd c0 - i' * fst h + (i' + 1) * snd h) with ((snd c0 - (i' - 1) * fst h + i' * snd h) + snd h + - fst h) by lia.
      rewrite !zq_add, !zq_opp. f_equal; ring. }
    rewrite Elast, Ht in H.
    set (sg := dset (labat ps (at2 c0 h (i' - 1) i')) "S_DAG" s1) in *.
    (* the local gates *)
    assert (Sneg : forall q g, In q (labs ps KD) -> dget (Some q) sg = Some g -> g = "I" \/ is_s g = true /\ (q = dq \/ exists k, 0 <= k /\ labat ps (at2 c0 h k (k + 1)) = Some q)).
    { intros q g Hq E. unfold sg in E. rewrite dget_dset in E. destruct (eqb_spec (labat ps (at2 c0 h (i' - 1) i')) (Some q)) as [El|_].
      - injection E as <-. right. split; [reflexivity|]. right. exists (i' - 1). split; [lia|]. replace (i' - 1 + 1) with i' by lia. exact El.
      - destruct (SA q g E) as [E'|[-> K]]; [|right; split; [reflexivity|now right]]. rewrite dget_dset in E'.
        destruct (eqb_spec (Some dq) (Some q)) as [[= <-]|_]; [injection E' as <-; right; split; [reflexivity|now left]|].
        left. unfold no_gate in E'. apply dget_In in E'. apply in_map_iff in E' as (x & [= _ <-] & _). reflexivity. }
    assert (Spos : forall q, (exists g, dget (Some q) s1 = Some g /\ is_s g = true) -> is_s (sf sg q) = true).
    { intros q (g & Eg & Sg). unfold sf, sg. rewrite dget_dset. destruct (eqb _ (Some q)); [reflexivity|]. now rewrite Eg. }
    (* the partners *)
    assert (Hinv : forall q b, In q (labs ps KD) -> dget (Some q) cz = Some (Some b) -> In b (labs ps KD) /\ dget (Some b) cz = Some (Some q) /\ b <> q).
    { intros q b _ E. destruct (walk_inv pt (labat ps) tab Ht Linj c0 h Hh cz Wk q b E) as (E' & Ne & i & j & Ei). split; [|auto].
      refine (labat_data a l P _ _ _ Ei). unfold at2. cbn [fst]. destruct Hh as [[H0 [H1|H1]]|[H0 [H1|H1]]]; rewrite H0, H1; lia. }
    assert (Hs : forall q g, In q (labs ps KD) -> dget (Some q) sg = Some g -> g = "I" \/ is_s g = true).
    { intros q g Hq E. destruct (Sneg q g Hq E) as [|[]]; auto. }
    assert (Hboth : true = false -> forall q g, In q (labs ps KD) -> dget (Some q) sg = Some g -> g <> "I" -> dget (Some q) cz = Some None) by discriminate.
    pose proof (s_keys _ _ _ _ _ _ _ _ H Rd) as Keys.
    assert (All : forall q, In q (labs ps KD) -> exists i j, 0 <= i /\ 0 <= j /\ labat ps (at2 c0 h i j) = Some q /\
      dget (Some q) cz = Some (labat ps (at2' c0 h (other (i, j))))).
    { intros q Hq. destruct (Keys q Hq) as [o Eo]. destruct (Wk q o Eo) as (i & j & Hi & Hj & E & -> & _). exists i, j. auto. }
    assert (Box : forall r k, r mod 2 = 1 -> k mod 2 = 1 -> 0 < r < 2 * dx + 1 -> 0 < k < 2 * dz + 1 -> exists i j, 0 <= i /\ 0 <= j /\ (r, k) = at2 c0 h i j).
    { intros r k H1 H2 H3 H4. destruct (data_at a l P r k H1 H2 H3 H4) as (q & Eq & Hq). destruct (All q Hq) as (i & j & Hi & Hj & E & _).
      exists i, j. do 2 (split; [assumption|]). exact (Linj _ _ _ Eq E). }
    assert (Czf : forall q i j, 0 <= i -> 0 <= j -> In q (labs ps KD) -> labat ps (at2 c0 h i j) = Some q ->
      czf cz (labs ps KD) q = labat ps (at2' c0 h (other (i, j)))).
    { intros q i j Hi Hj Hq E. unfold czf. rewrite (proj2 (mem_In q _) Hq). destruct (All q Hq) as (i2 & j2 & _ & _ & E2 & ->).
      pose proof (Linj _ _ _ E E2) as K. apply (at2_inj pt (labat ps) tab Ht Linj c0 h Hh) in K as [-> ->]. reflexivity. }
    assert (Sup : forall q p i j, In p ps -> labat ps (at2 c0 h i j) = Some q ->
      mem q (support l (pl_lab p)) = true <-> exists t, In t rot_shifts /\ at2 c0 h i j = padd (pos p) t).
    { intros q p i j Hp E. rewrite mem_In, (support_mem _ _ _ _ _ P rot_shifts_nodup p q Hp). apply (labat_some _ _ _ _ _ P) in E as (x & Hx & Ex & <-). split.
      - intros (y & t & Hy & It & Ly & Ey). apply (lab_eq _ _ _ _ _ P _ _ Hy Hx) in Ly. subst y. exists t. split; [exact It|]. congruence.
      - intros (t & It & Et2). exists x, t. split; [exact Hx|]. split; [exact It|]. split; [reflexivity|]. congruence. }
    assert (Dist : ga_dz a = ga_dx a + 1) by exact Sz.
    assert (Sd : fst t1 - fst t2 = - snd h /\ snd t1 - snd t2 = fst h).
    { assert (Sides : (fst t1 - fst t2 = - snd h /\ snd t1 - snd t2 = fst h) \/ (fst t1 - fst t2 = snd h /\ snd t1 - snd t2 = - fst h)) by lia.
      destruct Sides as [G|[B1 B2]]; [exact G|].
      - (* the ancilla is in the quadrant: another one has no new stabilizer *)
        exfalso.
        assert (Dx : 2 <= dx) by lia.
        destruct (Box 1 1) as (i1 & j1 & I1 & J1 & X1); try reflexivity; try lia.
        destruct (Box 1 (2 * dz - 1)) as (i2 & j2 & I2 & J2 & X2); try reflexivity; try lia.
        destruct (Box (2 * dx - 1) 1) as (i3 & j3 & I3 & J3 & X3); try reflexivity; try lia.
        destruct (Box (2 * dx - 1) (2 * dz - 1)) as (i4 & j4 & I4 & J4 & X4); try lia.
        unfold at2 in X1, X2, X3, X4.
        pose proof (f_equal fst X1) as Y1. pose proof (f_equal snd X1) as Z1. pose proof (f_equal fst X2) as Y2. pose proof (f_equal snd X2) as Z2.
        pose proof (f_equal fst X3) as Y3. pose proof (f_equal snd X3) as Z3. pose proof (f_equal fst X4) as Y4. pose proof (f_equal snd X4) as Z4.
        cbn [fst snd] in Y1, Z1, Y2, Z2, Y3, Z3, Y4, Z4.
        assert (Two : snd h = 0 /\ ((fst h = 2 /\ fst c0 = 1 /\ snd c0 = 2 * dz - 1 /\ dx mod 2 = 0) \/
                                    (fst h = -2 /\ fst c0 = 2 * dx - 1 /\ snd c0 = 1 /\ dx mod 2 = 1))).
        { clear - Hh Eh1 Eh2 B1 B2 S1 S2 Qd Qa Qz Dist I1 J1 I2 J2 I3 J3 I4 J4 Y1 Z1 Y2 Z2 Y3 Z3 Y4 Z4.
          assert (V : 2 * fst t1 = fst h + snd h /\ 2 * snd t1 = snd h - fst h /\ 2 * fst t2 = fst h - snd h /\ 2 * snd t2 = snd h + fst h) by lia.
          clear B1 B2 Eh1 Eh2 S1 S2.
          destruct Hh as [[H0 [H1|H1]]|[H0 [H1|H1]]]; rewrite H0, H1 in Y1, Z1, Y2, Z2, Y3, Z3, Y4, Z4, V.
          - assert (fst t1 = 1 /\ snd t1 = 1) as [E1 E2] by lia. rewrite E1, E2 in Qa. exfalso.
            assert (fst c0 = 1) by lia. assert (snd c0 = 1) by lia. lia.
          - assert (fst t2 = 1 /\ snd t2 = -1) as [E1 E2] by lia. rewrite E1, E2 in Qz. exfalso.
            assert (fst c0 = 2 * dx - 1) by lia. lia.
          - assert (fst t1 = 1 /\ snd t1 = -1) as [E1 E2] by lia. rewrite E1, E2 in Qa.
            assert (fst c0 = 1) by lia. assert (snd c0 = 2 * dz - 1) by lia. split; [exact H0|]. left. lia.
          - assert (fst t1 = -1 /\ snd t1 = 1) as [E1 E2] by lia. rewrite E1, E2 in Qa.
            assert (fst c0 = 2 * dx - 1) by lia. assert (snd c0 = 1) by lia. split; [exact H0|]. right. lia. }
        clear i1 j1 I1 J1 X1 Y1 Z1 i2 j2 I2 J2 X2 Y2 Z2 i3 j3 I3 J3 X3 Y3 Z3 i4 j4 I4 J4 X4 Y4 Z4.
        assert (Bad : exists px, In px ps /\ knd px = KX /\ pl_lab px <> ax /\
          forall i j q, labat ps (at2 c0 h i j) = Some q -> j <= dx - 1 /\ i <= dx /\
            (mem q (support l (pl_lab px)) = true -> j = dx - 1 /\ (i = dx - 1 \/ i = dx))).
        { assert (Lim : forall i j q, labat ps (at2 c0 h i j) = Some q -> 0 < fst (at2 c0 h i j) < 2 * dx + 1 /\ 0 < snd (at2 c0 h i j) < 2 * dz + 1).
          { intros i j q E. apply (labat_some _ _ _ _ _ P) in E as (p & Hp & Ep & _). pose proof (ps_kpos a p Hp) as K. rewrite Ep in K.
            assert (O : fst (at2 c0 h i j) mod 2 = 1 /\ snd (at2 c0 h i j) mod 2 = 1).
            { unfold at2. cbn [fst snd]. destruct Two as [H0 [(H1 & _)|(H1 & _)]]; rewrite H0, H1; clear - Qd; lia. }
            clear - K O. destruct (knd p); cbn [kpos] in K; unfold dpos, xpos, zpos in K; lia. }
          destruct Two as [H0 [(H1 & C1 & C2 & Pr)|(H1 & C1 & C2 & Pr)]].
          - destruct (kpos_ps a KX (2 * dx, 2)) as (px & Hpx & Kx & Ex).
            { cbn [kpos]. unfold xpos. cbn [fst snd]. clear - Pr Dist Dx. lia. }
            exists px. do 2 (split; [assumption|]). split.
            { intros E. rewrite <- La in E. apply (lab_eq _ _ _ _ _ P _ _ Hpx Ha) in E. subst px. rewrite Ea in Ex. unfold padd in Ex.
              pose proof (f_equal fst Ex) as Ex1. pose proof (f_equal snd Ex) as Ex2. cbn [fst snd] in Ex1, Ex2. clear - Ex1 Ex2 C1 C2 S1 S2 Dx Dist. lia. }
            intros i j q E. pose proof (Lim i j q E) as Lm. unfold at2 in Lm. cbn [fst snd] in Lm. rewrite H0, H1 in Lm. rewrite C1, C2 in Lm.
            split; [clear - Lm; lia|]. split; [clear - Lm Dist; lia|].
            intros M. apply (Sup q px i j Hpx E) in M as (t & It & Et2). rewrite Ex in Et2. apply In_rot_shifts in It. unfold at2, padd in Et2. cbn [fst snd] in Et2.
            pose proof (f_equal fst Et2) as U1. pose proof (f_equal snd Et2) as U2. cbn [fst snd] in U1, U2. rewrite H0, H1, C1, C2 in *. clear - U1 U2 It Dist Lm. lia.
          - destruct (kpos_ps a KX (0, 2 * dz - 2)) as (px & Hpx & Kx & Ex).
            { cbn [kpos]. unfold xpos. cbn [fst snd]. clear - Pr Dist Dx. lia. }
            exists px. do 2 (split; [assumption|]). split.
            { intros E. rewrite <- La in E. apply (lab_eq _ _ _ _ _ P _ _ Hpx Ha) in E. subst px. rewrite Ea in Ex. unfold padd in Ex.
              pose proof (f_equal fst Ex) as Ex1. pose proof (f_equal snd Ex) as Ex2. cbn [fst snd] in Ex1, Ex2. clear - Ex1 Ex2 C1 C2 S1 S2 Dx Dist. lia. }
            intros i j q E. pose proof (Lim i j q E) as Lm. unfold at2 in Lm. cbn [fst snd] in Lm. rewrite H0, H1 in Lm. rewrite C1, C2 in Lm.
            split; [clear - Lm; lia|]. split; [clear - Lm Dist; lia|].
            intros M. apply (Sup q px i j Hpx E) in M as (t & It & Et2). rewrite Ex in Et2. apply In_rot_shifts in It. unfold at2, padd in Et2. cbn [fst snd] in Et2.
            pose proof (f_equal fst Et2) as U1. pose proof (f_equal snd Et2) as U2. cbn [fst snd] in U1, U2. rewrite H0, H1, C1, C2 in *. clear - U1 U2 It Dist Lm. lia. }
        destruct Bad as (px & Hpx & Kx & Nx & Lim).
        assert (Ix : In (pl_lab px) (labs ps KX)) by (apply labs_place; eauto).
        destruct (s_made cz sg true (Some ax) l (labs ps KD) (labs ps KX) (labs ps KZ) Hinv Hs Hboth Rd (pn_x _ _ _ _ _ P) (pn_z _ _ _ _ _ P)
          (ancs ps) ("trans-s_" ++ ga_log a)%string (pn_anc _ _ _ _ _ P)) with (l2 := l2) as (_ & _ & Tot & new & V & G).
        { apply (data_ancs _ _ _ _ _ P). }
        { intros y Iy. apply (support_ok _ _ _ _ _ P rot_shifts_nodup). apply ancs_labs. auto. }
        { apply gate_s_new. }
        { exact H. }
        destruct (V (pl_lab px)) as (st & Es2 & _); [apply ancs_labs; auto|].
        destruct (G _ _ Es2) as [[Iz _]|[_ [[_ Ef]|(az & Iz & _ & K)]]].
        { revert Iz. apply (labs_disj _ _ _ _ _ P KX); [discriminate|exact Ix]. }
        { injection Ef as Ef. congruence. }
        apply labs_place in Iz as (z & Hzz & Kzz & <-). pose proof (ps_kpos a z Hzz) as Qzz. rewrite Kzz in Qzz. cbn [kpos] in Qzz. unfold zpos in Qzz.
        assert (exists k, (k = 1 \/ k = -1) /\ 0 < snd (pos z) + k < 2 * dz + 1) as (k & Ek & Rk).
        { destruct (Z.eq_dec (snd (pos z)) 0) as [E0|E0]; [exists 1|exists (-1)]; lia. }
        destruct (data_at a l P (fst (pos z) - 1) (snd (pos z) + k)) as (y & Ey & Iy); try lia.
        assert (My : mem y (support l (pl_lab z)) = true).
        { apply mem_In, (support_mem _ _ _ _ _ P rot_shifts_nodup z y Hzz). apply (labat_some _ _ _ _ _ P) in Ey as (p & Hp & Ep & <-).
          exists p, (-1, k). split; [exact Hp|]. split; [apply In_rot_shifts; cbn [fst snd]; lia|]. split; [reflexivity|].
          rewrite Ep. unfold padd. cbn [fst snd]. f_equal. }
        rewrite (K y Iy) in My. destruct (All y Iy) as (i & j & Hi & Hj & Eij & _). unfold on in My.
        rewrite (Czf y i j Hi Hj Iy Eij), (proj2 (mem_In y _) Iy) in My. cbn [andb] in My.
        destruct (Lim i j y Eij) as (L1 & L2 & L3).
        assert (M1 : match labat ps (at2' c0 h (other (i, j))) with Some b => mem b (support l (pl_lab px)) | None => false end = false).
        { destruct (labat ps (at2' c0 h (other (i, j)))) as [b|] eqn:Eb; [|reflexivity]. apply not_true_is_false. intros M.
          destruct (Lim _ _ b Eb) as (_ & _ & M3). specialize (M3 M). unfold other in M3. cbn [fst snd] in M3.
          destruct (Z.leb_spec j i); cbn [fst snd] in M3; lia. }
        rewrite M1, xorb_false_l in My. apply andb_true_iff in My as [Sy My]. specialize (L3 My).
        destruct (Tot y Iy) as [g Eg]. unfold sf in Sy. rewrite Eg in Sy. cbn [odef] in Sy.
        destruct (Sneg y g Iy Eg) as [-> |[_ [-> |(k' & Hk' & Ek')]]].
        + discriminate.
        + assert (E0 : labat ps (at2 c0 h 0 0) = Some dq).
          { apply (labat_some _ _ _ _ _ P). exists d. split; [exact Hd|]. split; [exact C0|exact Ld]. }
          pose proof (Linj _ _ _ Eij E0) as U. apply (at2_inj pt (labat ps) tab Ht Linj c0 h Hh) in U. lia.
        + pose proof (Linj _ _ _ Eij Ek') as U. apply (at2_inj pt (labat ps) tab Ht Linj c0 h Hh) in U. lia. }
    assert (Corner : c0 = (1, 1) /\ h = (0, 2)).
    { assert (D1 : 1 <= dx) by lia.
      destruct (Box 1 1) as (i1 & j1 & I1 & J1 & X1); try reflexivity; try lia.
      destruct (Box 1 (2 * dz - 1)) as (i2 & j2 & I2 & J2 & X2); try reflexivity; try lia.
      destruct (Box (2 * dx - 1) 1) as (i3 & j3 & I3 & J3 & X3); try reflexivity; try lia.
      unfold at2 in X1, X2, X3.
      pose proof (f_equal fst X1) as Y1. pose proof (f_equal snd X1) as Z1. pose proof (f_equal fst X2) as Y2. pose proof (f_equal snd X2) as Z2.
      pose proof (f_equal fst X3) as Y3. pose proof (f_equal snd X3) as Z3. cbn [fst snd] in Y1, Z1, Y2, Z2, Y3, Z3.
      clear - Hh Eh1 Eh2 Sd S1 S2 Qd Qa Qz Dist I1 J1 I2 J2 I3 J3 Y1 Z1 Y2 Z2 Y3 Z3 D1.
      assert (V : 2 * fst t1 = fst h - snd h /\ 2 * snd t1 = snd h + fst h) by lia.
      clear Sd Eh1 Eh2 S1 S2. destruct c0 as [r k], h as [h1 h2]. cbn [fst snd] in *.
      destruct Hh as [[H0 [H1|H1]]|[H0 [H1|H1]]]; subst h1 h2.
      - split; [|reflexivity]. f_equal; lia.
      - exfalso. assert (fst t1 = 1 /\ snd t1 = -1) as [E1 E2] by lia. rewrite E1, E2 in Qa. assert (r = 2 * dx - 1) by lia. assert (k = 2 * dz - 1) by lia. lia.
      - exfalso. assert (fst t1 = 1 /\ snd t1 = 1) as [E1 E2] by lia. rewrite E1, E2 in Qa. assert (k = 2 * dz - 1) by lia. lia.
      - exfalso. assert (fst t1 = -1 /\ snd t1 = -1) as [E1 E2] by lia. rewrite E1, E2 in Qa. assert (k = 1) by lia. lia. }
    assert (Hfix : forall x, Some ax = Some x -> forall q, In q (labs ps KD) -> on cz sg (labs ps KD) (support l x) q = false).
    { intros x [= <-] q Hq. destruct Sd as [G1 G2].
      (* the ancilla is outside of the quadrant *)
        assert (N : forall b i j, 0 <= i -> 0 <= j -> labat ps (at2 c0 h i j) = Some b -> mem b (support l ax) = true <-> i = 0 /\ (j = 0 \/ j = 1)).
        { intros b i j Hi Hj E. rewrite <- La, (Sup b pa i j Ha E), Ea. split.
          - intros (t & It & Et2). apply In_rot_shifts in It. unfold at2, padd in Et2. cbn [fst snd] in Et2. injection Et2 as X1 X2.
            destruct Hh as [[H0 [H1|H1]]|[H0 [H1|H1]]]; rewrite H0, H1 in *; lia.
          - intros [-> J]. exists (j * fst h - fst t1, j * snd h - snd t1).
            split; [apply In_rot_shifts; cbn [fst snd]; destruct J as [-> | ->]; lia|].
            unfold at2, padd. cbn [fst snd]. f_equal; lia. }
        destruct (All q Hq) as (i & j & Hi & Hj & Eq & _). unfold on. rewrite (Czf q i j Hi Hj Hq Eq), (proj2 (mem_In q _) Hq). cbn [andb].
        assert (Ho : 0 <= fst (other (i, j)) /\ 0 <= snd (other (i, j))).
        { unfold other. cbn [fst snd]. destruct (Z.leb_spec j i); cbn [fst snd]; lia. }
        assert (D : (i = 0 /\ (j = 0 \/ j = 1)) \/ ~ (i = 0 /\ (j = 0 \/ j = 1))) by lia.
        destruct D as [D|D].
        + assert (Mq : mem q (support l ax) = true) by (now apply (N q i j)). rewrite Mq.
          assert (Sq : is_s (sf sg q) = true).
          { apply Spos. destruct D as [-> [-> | ->]].
            - apply SB. assert (q = dq).
              { rewrite <- Ld. rewrite <- C0 in Eq. apply (labat_some _ _ _ _ _ P) in Eq as (y & Hy & Ey & <-).
                f_equal. now apply (pos_eq _ _ _ _ _ P). }
              subst q. exists "S". split; [apply dget_dset_same|reflexivity].
            - now apply SC. }
          rewrite Sq. assert (exists b, labat ps (at2' c0 h (other (i, j))) = Some b) as [b Eb].
          { destruct D as [-> [-> | ->]].
            - exists (pl_lab ph). exact P01.
            - exists (pl_lab d). apply (labat_some _ _ _ _ _ P). exists d. split; [exact Hd|]. split; [exact C0|reflexivity]. }
          rewrite Eb. rewrite (proj2 (N b _ _ (proj1 Ho) (proj2 Ho) Eb)); [reflexivity|].
          destruct D as [-> [-> | ->]]; cbn; lia.
        + assert (Mq : mem q (support l ax) = false).
          { apply not_true_is_false. intros K. apply D. now apply (N q i j). }
          rewrite Mq, andb_false_r, xorb_false_r. destruct (labat ps (at2' c0 h (other (i, j)))) as [b|] eqn:Eb; [|reflexivity].
          apply not_true_is_false. intros K. apply D. apply (N b _ _ (proj1 Ho) (proj2 Ho) Eb) in K.
          unfold other in K. cbn [fst snd] in K. destruct (Z.leb_spec j i); cbn [fst snd] in K; lia. }
    assert (First : 2 <= dx /\ labat ps (1, 1) = Some dq).
    { destruct Corner as [EC EH]. split.
      - rewrite EC in Qz. rewrite EH in Eh1, Eh2, Sd. cbn [fst snd] in *. clear - Qz Eh1 Eh2 Sd. lia.
      - apply (labat_some _ _ _ _ _ P). exists d. split; [exact Hd|]. split; [exact EC|exact Ld]. }
    assert (Places : rot_places (czf cz (labs ps KD)) (sf sg)).
    { split; [exact Dist|]. destruct Corner as [EC EH].
      assert (Cell : forall i j, cell i j = labat ps (at2 c0 h i j)).
      { intros i j. unfold cell, at2. rewrite EC, EH. cbn [fst snd]. do 2 f_equal; lia. }
      destruct (s_loop_all pt (labat ps) tab Ht Linj c0 h _ 0 _ _ _ (Z.le_refl 0) Es) as (i2 & Ee2 & None2 & All2).
      assert (Ei : i' = dx).
      { assert (i2 = i').
        { rewrite Ee in Ee2. apply crd_inj in Ee2. apply (at2_inj pt (labat ps) tab Ht Linj c0 h Hh) in Ee2. lia. }
        subst i2. clear - Cell None2 All2 Lt P Dist Hd Qd.
        destruct (Z.lt_trichotomy i' dx) as [L|[E|G]]; [exfalso|exact E|exfalso].
        - rewrite <- Cell in None2. unfold cell in None2. destruct (data_at a l P (2 * i' + 1) (2 * (i' + 1) + 1)) as (q & Eq & _); try lia. congruence.
        - destruct (All2 dx) as (q & Eq & _); [lia|]. rewrite <- Cell in Eq. unfold cell in Eq. apply (labat_some _ _ _ _ _ P) in Eq as (p & Hp & Ep & _).
          pose proof (ps_kpos a p Hp) as K. rewrite Ep in K. destruct (knd p); cbn [kpos] in K; unfold dpos, xpos, zpos in K; cbn [fst snd] in K; lia. }
      assert (i2 = dx).
      { rewrite Ee in Ee2. apply crd_inj in Ee2. apply (at2_inj pt (labat ps) tab Ht Linj c0 h Hh) in Ee2. lia. }
      subst i2. intros i j q Hi Hj Eq. rewrite Cell in Eq.
      assert (Hq : In q (labs ps KD)).
      { refine (labat_data a l P _ _ _ Eq). unfold at2. rewrite EC, EH. cbn [fst snd]. lia. }
      split; [rewrite (Czf q i j Hi Hj Hq Eq), Cell; reflexivity|].
      assert (Uniq : forall i2 j2, labat ps (at2 c0 h i2 j2) = Some q -> i2 = i /\ j2 = j).
      { intros i2 j2 E2. pose proof (Linj _ _ _ E2 Eq) as K. now apply (at2_inj pt (labat ps) tab Ht Linj c0 h Hh) in K. }
      assert (E0 : labat ps (at2 c0 h 0 0) = Some dq).
      { apply (labat_some _ _ _ _ _ P). exists d. split; [exact Hd|]. split; [exact C0|exact Ld]. }
      unfold sf, sg. rewrite Ei, dget_dset.
      destruct (eqb_spec (labat ps (at2 c0 h (dx - 1) dx)) (Some q)) as [El|Nl].
      - apply Uniq in El as [<- <-]. cbn [odef]. destruct (Z.eqb_spec (dx - 1) 0), (Z.eqb_spec dx 0); cbn [andb]; try lia;
          (destruct (Z.eqb_spec dx (dx - 1 + 1)); [|lia]); now rewrite Z.eqb_refl.
      - destruct (Z.eqb_spec i 0) as [->|Ni]; [destruct (Z.eqb_spec j 0) as [->|Nj]|]; cbn [andb].
        + assert (q = dq) by congruence. subst q. destruct (SB dq) as (g & Eg & _); [exists "S"; split; [apply dget_dset_same|reflexivity]|].
          rewrite Eg. cbn [odef]. destruct (SA dq g Eg) as [E'|[-> _]]; [|reflexivity]. rewrite dget_dset_same in E'. now injection E' as <-.
        + destruct (Z.eqb_spec j (0 + 1)) as [->|Nj1].
          * destruct (Z.eqb_spec 0 (dx - 1)) as [Z0|Z0]; [exfalso; apply Nl; replace (dx - 1) with 0 by lia; replace dx with (0 + 1) by lia; exact Eq|].
            destruct (All2 0) as (q2 & Eq2 & Ds); [lia|]. rewrite Eq in Eq2. injection Eq2 as <-. now rewrite Ds.
          * destruct (dget (Some q) s1) as [g|] eqn:Eg; [|reflexivity]. cbn [odef]. destruct (SA q g Eg) as [E'|[_ (k & Hk & Ek)]]; [|apply Uniq in Ek; lia].
            rewrite dget_dset in E'. destruct (eqb_spec (Some dq) (Some q)) as [[= <-]|_]; [apply Uniq in E0; lia|].
            unfold no_gate in E'. apply dget_In in E'. apply in_map_iff in E' as (x & [= _ <-] & _). reflexivity.
        + destruct (Z.eqb_spec j (i + 1)) as [->|Nj1].
          * assert (Il : i < dx).
            { apply (labat_some _ _ _ _ _ P) in Eq as (p & Hp & Ep & _). pose proof (ps_kpos a p Hp) as K. rewrite Ep in K. unfold at2 in K. rewrite EC, EH in K.
              clear - K. destruct (knd p); cbn [kpos] in K; unfold dpos, xpos, zpos in K; cbn [fst snd] in K; lia. }
            destruct (Z.eqb_spec i (dx - 1)) as [Z0|Z0]; [exfalso; apply Nl; replace (dx - 1) with i by lia; replace dx with (i + 1) by lia; exact Eq|].
            destruct (All2 i) as (q2 & Eq2 & Ds); [lia|]. rewrite Eq in Eq2. injection Eq2 as <-. now rewrite Ds.
          * destruct (dget (Some q) s1) as [g|] eqn:Eg; [|reflexivity]. cbn [odef]. destruct (SA q g Eg) as [E'|[_ (k & Hk & Ek)]]; [|apply Uniq in Ek; lia].
            rewrite dget_dset in E'. destruct (eqb_spec (Some dq) (Some q)) as [[= <-]|_]; [apply Uniq in E0; lia|].
            unfold no_gate in E'. apply dget_In in E'. apply in_map_iff in E' as (x & [= _ <-] & _). reflexivity. }
    exists (czf cz (labs ps KD)), (sf sg).
    destruct (s_labels_at cz sg true (Some ax) l l2 l3 (labs ps KD) (labs ps KX) (labs ps KZ) (ancs ps) (ga_log a)
             Hinv Hs Hboth Rd (pn_x _ _ _ _ _ P) (pn_z _ _ _ _ _ P) (pn_anc _ _ _ _ _ P)) as (nd & R1 & R2 & R3 & R4 & R5 & R6); auto.
    - apply (data_ancs _ _ _ _ _ P).
    - intros x. apply (labs_disj _ _ _ _ _ P). discriminate.
    - apply ancs_labs.
    - apply (support_ok _ _ _ _ _ P rot_shifts_nodup).
    - exact (first_one l _ Hlog).
    - unfold trans_code_ok. now rewrite Hcode.
    - exists nd. destruct First. auto 12.
  Qed.
  Lemma rot_s_labels :
    set_trans_s_rot l dq = Ok l2 -> touched (("trans-s_" ++ ga_log a) :: structure)%string l2 l3 ->
    exists pf loc nd, pairing (labs ps KD) pf /\ first_log l3 = Ok (ga_log a) /\ new_stab_dict l3 ("trans-s_" ++ ga_log a) = Ok nd /\
      label_act (fun ord ordp => trans_s_blocks ord ordp l3) (css l) (ancs ps) (s_op (labs ps KD) pf loc) nd.
  Proof. intros H T3. destruct (rot_s_labels_at H T3) as (pf & loc & nd & A & B & C & D & _). exists pf, loc, nd. auto. Qed.
  Lemma rot_s_conjugates w w' c :
    set_trans_s_rot l dq = Ok l2 -> touched (("trans-s_" ++ ga_log a) :: structure)%string l2 l3 ->
    SpecNoise.wf_inds (inds (fst w)) -> log_trans_s ord ordp l3 w = (w', Ok c) ->
    exists nd, new_stab_dict l3 ("trans-s_" ++ ga_log a) = Ok nd /\ update_from_dict nd (snd w) = (snd w', Ok tt) /\ involutive_map nd /\
      forall x, In x (ancs ps) -> exists new, dget x nd = Some new /\ conjugates (inds (fst w)) (css l) c x new.
  Proof.
    intros H T3 W Hw. destruct (rot_s_labels H T3) as (pf & loc & nd & _ & El & En & A). exists nd. split; [exact En|].
    exact (label_conjugates "trans-s_" trans_s_blocks l3 _ _ _ nd (ga_log a) ord ordp w w' c Hord Hordp El En A W Hw).
  Qed.
End Rot.
