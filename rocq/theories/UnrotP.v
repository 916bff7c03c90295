(** The unrotated layout: positions, code and distances. *)
From Coq Require Import QArith Qcanon.
From Verif Require Import Base Lib StimM LayoutM SpecLayout LayoutP LayoutP2 GenM GenP SpecGen GeomP RotP RotP2.
Open Scope Z_scope.

(** * Positions *)
Definition ukind (rc : Z * Z) : kind :=
  if eqb ((fst rc + snd rc) mod 2) 0 then KD else if eqb (fst rc mod 2) 0 then KX else KZ.
Definition uin (dx dz : Z) (rc : Z * Z) : Prop := 0 <= fst rc < 2 * dx - 1 /\ 0 <= snd rc < 2 * dz - 1.
Definition mk (rc : Z * Z) : item := {| it_kind := ukind rc; it_pos := rc; it_extra := [] |}.
Definition unrot_items (dx dz : Z) : list item := map mk (unrot_pos dx dz).
Lemma ukind_spec rc : match ukind rc with
  | KD => (fst rc + snd rc) mod 2 = 0 | KX => fst rc mod 2 = 0 /\ snd rc mod 2 = 1 | KZ => fst rc mod 2 = 1 /\ snd rc mod 2 = 0 end.
Proof.
  unfold ukind. destruct (eqb ((fst rc + snd rc) mod 2) 0) eqn:E; [now apply eqb_true in E|]. apply eqb_neq in E.
  destruct (eqb (fst rc mod 2) 0) eqn:F; [apply eqb_true in F|apply eqb_neq in F]; lia.
Qed.
Lemma ukind_D rc : (fst rc + snd rc) mod 2 = 0 -> ukind rc = KD.
Proof. intros H. unfold ukind. now rewrite H, eqb_refl. Qed.
Lemma ukind_X rc : fst rc mod 2 = 0 -> snd rc mod 2 = 1 -> ukind rc = KX.
Proof. intros H G. pose proof (ukind_spec rc) as S. destruct (ukind rc); [exfalso; lia|reflexivity|exfalso; lia]. Qed.
Lemma ukind_Z rc : fst rc mod 2 = 1 -> snd rc mod 2 = 0 -> ukind rc = KZ.
Proof. intros H G. pose proof (ukind_spec rc) as S. destruct (ukind rc); [exfalso; lia|exfalso; lia|reflexivity]. Qed.
Lemma unrot_pos_In dx dz rc : In rc (unrot_pos dx dz) <-> uin dx dz rc.
Proof.
  destruct rc as [r c]. unfold unrot_pos, uin. rewrite in_flat_map. cbn [fst snd]. split.
  - intros (x & Hx & H). apply in_map_iff in H as (y & E & Hy). injection E as -> ->. now apply range_In in Hx, Hy.
  - intros [H1 H2]. exists r. split; [now apply range_In|]. apply in_map. now apply range_In.
Qed.
Lemma unrot_pos_nodup dx dz : NoDup (unrot_pos dx dz).
Proof. unfold unrot_pos. apply (grid_nodup _ (fun _ => range (2 * dz - 1))); [|intros r]; apply range_nodup. Qed.
Lemma items_uin dx dz i : In i (unrot_items dx dz) -> uin dx dz (it_pos i) /\ it_kind i = ukind (it_pos i).
Proof. intros H. apply in_map_iff in H as (rc & <- & H). now apply unrot_pos_In in H. Qed.
Lemma uin_item dx dz rc : uin dx dz rc -> In (mk rc) (unrot_items dx dz).
Proof. intros H. apply in_map. now apply unrot_pos_In. Qed.
Lemma unrot_items_nodup dx dz : NoDup (map it_pos (unrot_items dx dz)).
Proof. unfold unrot_items. rewrite map_map. cbn [it_pos mk]. rewrite map_id. apply unrot_pos_nodup. Qed.

Definition unrot_dirn (s : Z * Z) : string := match unrot_direction s with Ok d => d | Err _ => "" end.
Definition unrot_ps (a : gen_args) : list placed :=
  place (unrot_index (2 * ga_dz a - 1) (ga_data a)) (unrot_items (ga_dx a) (ga_dz a)) (ga_ind a) (ga_xanc a) (ga_zanc a).
Definition unrot_logz (a : gen_args) : list string := map (fun i => label "D" (i + ga_data a)) (range (ga_dz a)).
Definition unrot_logx (a : gen_args) : list string := map (fun i => label "D" (i * (2 * ga_dz a - 1) + ga_data a)) (range (ga_dx a)).
Lemma In_unrot_shifts s : In s unrot_shifts <->
  fst s = 0 /\ (snd s = 1 \/ snd s = -1) \/ snd s = 0 /\ (fst s = 1 \/ fst s = -1).
Proof.
  destruct s as [x y]. unfold unrot_shifts. simpl. split.
  - intros [[= <- <-]|[[= <- <-]|[[= <- <-]|[[= <- <-]|[]]]]]; auto.
  - intros [[-> [->| ->]]|[-> [->| ->]]]; auto 6.
Qed.
Lemma unrot_loop_char a : exists st, unrot_loop a = Ok st /\
  gs_infos st = map (info_of (ga_pt a)) (unrot_ps a) /\
  gs_nbr st = fold_left wr (flat_map (writes_of unrot_dirn (is_valid (2 * ga_dx a - 1) (2 * ga_dz a - 1))
     (unrot_index (2 * ga_dz a - 1) (ga_data a)) unrot_shifts) (unrot_ps a)) [].
Proof.
  assert (D : forall s, In s unrot_shifts -> unrot_direction s = Ok (unrot_dirn s) /\
     unrot_direction (invert_shift s) = Ok (unrot_dirn (invert_shift s))).
  { intros s Hs. unfold unrot_shifts in Hs. simpl in Hs. destruct Hs as [<-|[<-|[<-|[<-|[]]]]]; split; reflexivity. }
  destruct (run_char unrot_direction unrot_dirn (is_valid (2 * ga_dx a - 1) (2 * ga_dz a - 1)) (unrot_index (2 * ga_dz a - 1) (ga_data a))
    unrot_shifts (ga_pt a) D (unrot_items (ga_dx a) (ga_dz a)) (gst0 a)) as (st & E & E1 & E2).
  exists st. split; [|split; [exact E1|exact E2]]. rewrite <- E. clear. unfold unrot_loop, unrot_items.
  generalize (gst0 a). induction (unrot_pos (ga_dx a) (ga_dz a)) as [|rc rcs IH]; intros st; [reflexivity|].
  cbn [map foldM].
  assert (S : gstep unrot_direction (is_valid (2 * ga_dx a - 1) (2 * ga_dz a - 1)) (unrot_index (2 * ga_dz a - 1) (ga_data a)) unrot_shifts (ga_pt a) st (mk rc) =
    let (r, c) := rc in
    if eqb ((r + c) mod 2) 0 then place_data (unrot_index (2 * ga_dz a - 1) (ga_data a)) (ga_pt a) r c [] st
    else place_anc unrot_direction (is_valid (2 * ga_dx a - 1) (2 * ga_dz a - 1)) (unrot_index (2 * ga_dz a - 1) (ga_data a)) unrot_shifts (ga_pt a) (eqb (r mod 2) 0) r c [] st).
  { destruct rc as [r c]. unfold gstep, mk, ukind; cbn [it_pos it_kind it_extra fst snd].
    destruct (eqb ((r + c) mod 2) 0); [reflexivity|]. now destruct (eqb (r mod 2) 0). }
  rewrite S. match goal with |- bind ?x _ = bind ?x _ => destruct x as [st'|e]; cbn [bind]; [apply IH|reflexivity] end.
Qed.

(* the index determines the position *)
Lemma unrot_index_even cs s i j : unrot_index cs s (2 * i) (2 * j) = s + i * cs + j.
Proof.
  unfold unrot_index. replace (2 * i mod 2) with 0 by lia. change (eqb 0 1) with false. cbv iota.
  replace (2 * i / 2) with i by lia. replace (2 * j / 2) with j by lia. lia.
Qed.
Lemma unrot_index_odd cs s i j : unrot_index (2 * cs - 1) s (2 * i + 1) (2 * j + 1) = s + i * (2 * cs - 1) + (j + cs).
Proof.
  unfold unrot_index. replace ((2 * i + 1) mod 2) with 1 by lia. change (eqb 1 1) with true. cbv iota.
  replace ((2 * i + 1 - 1) / 2) with i by lia. replace ((2 * j + 1 + (2 * cs - 1)) / 2) with (j + cs) by lia. lia.
Qed.
Lemma upos_form dx dz rc : uin dx dz rc -> ukind rc = KD ->
  (exists i j, rc = (2 * i, 2 * j) /\ 0 <= i < dx /\ 0 <= j < dz) \/
  (exists i j, rc = (2 * i + 1, 2 * j + 1) /\ 0 <= i < dx - 1 /\ 0 <= j < dz - 1).
Proof.
  intros H K. pose proof (ukind_spec rc) as S. rewrite K in S. destruct rc as [r c]. unfold uin in H. cbn [fst snd] in *.
  assert (D : r mod 2 = 0 /\ c mod 2 = 0 \/ r mod 2 = 1 /\ c mod 2 = 1) by lia.
  destruct D as [D|D]; [left|right]; exists (r / 2), (c / 2); (split; [f_equal; lia|lia]).
Qed.
Lemma divrem_inj m a b i j : a * m + i = b * m + j -> 0 <= i < m -> 0 <= j < m -> a = b /\ i = j.
Proof. intros E Hi Hj. assert (a = b) by nia. subst. lia. Qed.
Lemma unrot_index_inj dx dz s p q : uin dx dz p -> uin dx dz q -> ukind p = KD -> ukind q = KD ->
  unrot_index (2 * dz - 1) s (fst p) (snd p) = unrot_index (2 * dz - 1) s (fst q) (snd q) -> p = q.
Proof.
  intros Hp Hq Kp Kq E.
  destruct (upos_form _ _ _ Hp Kp) as [(i & j & -> & Hi & Hj)|(i & j & -> & Hi & Hj)];
  destruct (upos_form _ _ _ Hq Kq) as [(i' & j' & -> & Hi' & Hj')|(i' & j' & -> & Hi' & Hj')];
  cbn [fst snd] in E; rewrite ?unrot_index_even, ?unrot_index_odd in E.
  - destruct (divrem_inj (2 * dz - 1) i i' j j'); [lia..|]. f_equal; lia.
  - destruct (divrem_inj (2 * dz - 1) i i' j (j' + dz)); lia.
  - destruct (divrem_inj (2 * dz - 1) i i' (j + dz) j'); lia.
  - destruct (divrem_inj (2 * dz - 1) i i' (j + dz) (j' + dz)); [lia..|]. f_equal; lia.
Qed.

Lemma unrot_planar a : 0 <= ga_dx a -> 0 <= ga_dz a ->
  exists l r, unrot_surface_code_rectangle a = Ok l /\ layout_init r = Ok l /\ py_dicts r /\
    planar l unrot_shifts unrot_dirn (ga_pt a) (unrot_ps a) /\
    l_logs l = [ga_log a] /\ l_logz l = [(ga_log a, unrot_logz a)] /\ l_logx l = [(ga_log a, unrot_logx a)] /\
    l_dx l = ga_dx a /\ l_dz l = ga_dz a /\ l_order l = unrot_order /\ l_code l = "unrotated_surface_code".
Proof.
  intros Hx Hz. unfold unrot_surface_code_rectangle, check_distance.
  destruct (Z.ltb_spec (ga_dx a) 0); [lia|]. destruct (Z.ltb_spec (ga_dz a) 0); [lia|]. cbn [bind].
  destruct (unrot_loop_char a) as (st & -> & E1 & E2). cbn [bind].
  fold (unrot_logz a). fold (unrot_logx a).
  match goal with |- exists l r, layout_init ?x = _ /\ _ => set (r0 := x) end.
  assert (Inj : forall i j, In i (unrot_items (ga_dx a) (ga_dz a)) -> In j (unrot_items (ga_dx a) (ga_dz a)) ->
     it_kind i = KD -> it_kind j = KD ->
     unrot_index (2 * ga_dz a - 1) (ga_data a) (fst (it_pos i)) (snd (it_pos i)) =
     unrot_index (2 * ga_dz a - 1) (ga_data a) (fst (it_pos j)) (snd (it_pos j)) -> it_pos i = it_pos j).
  { intros i j Hi Hj Ki Kj. apply items_uin in Hi as [Hi Ei], Hj as [Hj Ej]. rewrite Ki in Ei. rewrite Kj in Ej.
    apply (unrot_index_inj (ga_dx a)); auto. }
  assert (Flip : forall rc s, In s unrot_shifts -> (ukind rc = KD <-> ukind (padd rc s) <> KD)).
  { intros rc s Hs. apply In_unrot_shifts in Hs. pose proof (ukind_spec rc) as S1. pose proof (ukind_spec (padd rc s)) as S2.
    unfold padd in *; cbn [fst snd] in *. destruct (ukind rc), (ukind _); split; intros; try congruence; exfalso; lia. }
  assert (Val : forall i s, In i (unrot_items (ga_dx a) (ga_dz a)) -> it_kind i <> KD -> In s unrot_shifts ->
    (vld (is_valid (2 * ga_dx a - 1) (2 * ga_dz a - 1)) (padd (it_pos i) s) = true <->
     exists d, In d (unrot_items (ga_dx a) (ga_dz a)) /\ it_kind d = KD /\ it_pos d = padd (it_pos i) s)).
  { intros i s Hi Ki Hs. unfold vld. rewrite is_valid_spec. apply items_uin in Hi as [Hi Ei]. split.
    - intros V. exists (mk (padd (it_pos i) s)). split; [now apply uin_item|]. split; [|reflexivity]. cbn [it_kind mk].
      pose proof (Flip (it_pos i) s Hs) as F. destruct (ukind (padd (it_pos i) s)); [reflexivity| |]; exfalso; apply Ki; rewrite Ei; apply F; discriminate.
    - intros (d & Hd & Kd & <-). now apply items_uin in Hd as [Hd _]. }
  assert (Par : forall i j s, In i (unrot_items (ga_dx a) (ga_dz a)) -> In j (unrot_items (ga_dx a) (ga_dz a)) ->
    In s unrot_shifts -> it_pos j = padd (it_pos i) s -> (it_kind i = KD <-> it_kind j <> KD)).
  { intros i j s Hi Hj Hs E. apply items_uin in Hi as [_ Hi], Hj as [_ Hj]. rewrite Hi, Hj, E. now apply Flip. }
  assert (Inv : forall s, In s unrot_shifts -> In (invert_shift s) unrot_shifts).
  { intros s Hs. apply In_unrot_shifts in Hs. apply In_unrot_shifts. unfold invert_shift; cbn [fst snd]. lia. }
  assert (Dinj : forall s s', In s unrot_shifts -> In s' unrot_shifts -> unrot_dirn s = unrot_dirn s' -> s = s').
  { intros s s' Hs Hs'. unfold unrot_shifts in Hs, Hs'. simpl in Hs, Hs'.
    destruct Hs as [<-|[<-|[<-|[<-|[]]]]]; destruct Hs' as [<-|[<-|[<-|[<-|[]]]]]; intros E; (reflexivity || discriminate). }
  assert (Ext : forall i, In i (unrot_items (ga_dx a) (ga_dz a)) -> ext_ok (it_extra i)).
  { intros i Hi. apply in_map_iff in Hi as (rc & <- & _). now left. }
  destruct (planar_intro unrot_dirn (is_valid (2 * ga_dx a - 1) (2 * ga_dz a - 1)) (unrot_index (2 * ga_dz a - 1) (ga_data a))
    unrot_shifts (ga_pt a) (unrot_items (ga_dx a) (ga_dz a)) (ga_ind a) (ga_xanc a) (ga_zanc a)
    (unrot_items_nodup _ _) Inj Val Par Inv Dinj Ext (gs_nbr st) r0) as (l & L & Pd & Pl & A1 & A2 & A3 & A4 & A5 & A6 & _ & A7 & _).
  - rewrite E2. apply nbrs_ok_plain; auto using unrot_items_nodup.
  - unfold r0, layout_setup; cbn [rl_layout]. rewrite E1. reflexivity.
  - apply names_ok_one.
  - exists l, r0. split; [exact L|]. split; [exact L|]. split; [exact Pd|]. split; [exact Pl|].
    split; [exact A3|]. split; [exact A1|]. split; [exact A2|]. split; [exact A5|]. split; [exact A6|]. split; [exact A4|exact A7].
Qed.
Lemma unrot_shifts_nodup : NoDup unrot_shifts.
Proof. apply nodupb_spec. reflexivity. Qed.

Section Unrot.
  Context (a : gen_args) (l : layout).
  Hypothesis Hx : 1 <= ga_dx a.
  Hypothesis Hz : 1 <= ga_dz a.
  Hypothesis P : planar l unrot_shifts unrot_dirn (ga_pt a) (unrot_ps a).
  Local Notation dx := (ga_dx a).
  Local Notation dz := (ga_dz a).
  Local Notation ps := (unrot_ps a).
  Local Notation Ns := unrot_shifts_nodup.
  Local Notation idx := (unrot_index (2 * ga_dz a - 1) (ga_data a)).

  Lemma ups_pos p : In p ps -> uin dx dz (pos p) /\ knd p = ukind (pos p).
  Proof. intros Hp. apply items_uin. eapply ps_item; eauto. Qed.
  Lemma pos_ups rc : uin dx dz rc -> exists p, In p ps /\ knd p = ukind rc /\ pos p = rc.
  Proof.
    intros H. apply uin_item in H. 
    destruct (item_ps idx (unrot_items dx dz) (ga_ind a) (ga_xanc a) (ga_zanc a) _ H) as (p & Hp & E). exists p.
    unfold knd, pos. rewrite E. auto.
  Qed.
  Lemma udata_label p : In p ps -> knd p = KD -> pl_lab p = label "D" (idx (fst (pos p)) (snd (pos p))).
  Proof. intros Hp K. pose proof (place_lab _ _ _ _ _ _ Hp) as L. rewrite K in L. exact L. Qed.

  Lemma ufv_data op rc : uin dx dz rc -> ukind rc = KD -> fv ps op rc = op (label "D" (idx (fst rc) (snd rc))).
  Proof.
    intros H D. destruct (pos_ups rc H) as (p & Hp & K & E). rewrite <- E, fv_at; [|apply (pn_npos _ _ _ _ _ P)|exact Hp].
    rewrite udata_label by congruence. reflexivity.
  Qed.
  Lemma ufv_out op rc : ~ uin dx dz rc -> fv ps op rc = false.
  Proof. intros H. apply fv_none. intros q Hq E. apply ups_pos in Hq as [Hq _]. rewrite E in Hq. auto. Qed.
  Lemma uin_dec rc : uin dx dz rc \/ ~ uin dx dz rc.
  Proof. unfold uin. lia. Qed.
  Lemma ufv_spec op rc : ukind rc = KD -> fv ps op rc = true <-> uin dx dz rc /\ op (label "D" (idx (fst rc) (snd rc))) = true.
  Proof.
    intros K. destruct (uin_dec rc) as [D|D].
    - rewrite ufv_data by assumption. tauto.
    - rewrite ufv_out by assumption. split; [discriminate|tauto].
  Qed.
  Lemma ulogz_In rc : uin dx dz rc -> ukind rc = KD -> on (unrot_logz a) (label "D" (idx (fst rc) (snd rc))) = true <-> fst rc = 0.
  Proof.
    intros H K. unfold on. rewrite mem_In. unfold unrot_logz. rewrite in_map_iff.
    destruct (upos_form _ _ _ H K) as [(i & j & -> & Hi & Hj)|(i & j & -> & Hi & Hj)]; cbn [fst snd];
      rewrite ?unrot_index_even, ?unrot_index_odd.
    - split.
      + intros (k & E & Hk). apply label_inj in E as [_ E]. apply range_In in Hk.
        destruct (divrem_inj (2 * dz - 1) 0 i k j); lia.
      + intros E. exists j. split; [f_equal; nia|apply range_In; lia].
    - split; [|lia]. intros (k & E & Hk). apply label_inj in E as [_ E]. apply range_In in Hk.
      destruct (divrem_inj (2 * dz - 1) 0 i k (j + dz)); lia.
  Qed.
  Lemma ulogx_In rc : uin dx dz rc -> ukind rc = KD -> on (unrot_logx a) (label "D" (idx (fst rc) (snd rc))) = true <-> snd rc = 0.
  Proof.
    intros H K. unfold on. rewrite mem_In. unfold unrot_logx. rewrite in_map_iff.
    destruct (upos_form _ _ _ H K) as [(i & j & -> & Hi & Hj)|(i & j & -> & Hi & Hj)]; cbn [fst snd];
      rewrite ?unrot_index_even, ?unrot_index_odd.
    - split.
      + intros (k & E & Hk). apply label_inj in E as [_ E]. apply range_In in Hk.
        destruct (divrem_inj (2 * dz - 1) k i 0 j); lia.
      + intros E. exists i. split; [f_equal; lia|apply range_In; lia].
    - split; [|lia]. intros (k & E & Hk). apply label_inj in E as [_ E]. apply range_In in Hk.
      destruct (divrem_inj (2 * dz - 1) k i 0 (j + dz)); lia.
  Qed.
  Definition near (p q : Z * Z) : Prop :=
    fst p = fst q /\ Z.abs (snd p - snd q) = 1 \/ snd p = snd q /\ Z.abs (fst p - fst q) = 1.
  Lemma usup_In p rc : In p ps -> uin dx dz rc -> ukind rc = KD ->
    on (support l (pl_lab p)) (label "D" (idx (fst rc) (snd rc))) = true <-> near rc (pos p).
  Proof.
    intros Hp H K. rewrite <- ufv_data by assumption. rewrite (fv_support _ _ _ _ _ P Ns p rc Hp). unfold near. split.
    - intros (q & s & _ & _ & Hs & ->). apply In_unrot_shifts in Hs. unfold padd; cbn [fst snd]. lia.
    - intros N. destruct (pos_ups _ H) as (q & Hq & _ & E). exists q, (fst rc - fst (pos p), snd rc - snd (pos p)).
      split; [exact Hq|]. split; [exact E|]. split; [apply In_unrot_shifts; cbn [fst snd]; lia|].
      destruct rc. unfold padd; cbn [fst snd]. f_equal; lia.
  Qed.
  Lemma usup_xor op p : In p ps -> xorl (map op (support l (pl_lab p))) =
    let (r, c) := pos p in
    xorb (fv ps op (r, c + 1)) (xorb (fv ps op (r, c + -1))
      (xorb (fv ps op (r + 1, c)) (xorb (fv ps op (r + -1, c)) false))).
  Proof.
    intros Hp. rewrite (support_xor _ _ _ _ _ P Ns op p Hp). destruct (pos p) as [r c].
    unfold unrot_shifts, padd. cbn [map fst snd]. rewrite !Z.add_0_r. reflexivity.
  Qed.
  Lemma unrot_stabs p q : In p ps -> knd p = KX -> In q ps -> knd q = KZ -> commutes (on (support l (pl_lab q))) (support l (pl_lab p)).
  Proof.
    intros Hp Kp Hq Kq. apply commutes_xor. rewrite usup_xor by exact Hp.
    destruct (ups_pos p Hp) as [Ip Ep]. destruct (ups_pos q Hq) as [Iq Eq'].
    pose proof (ukind_spec (pos p)) as Sp. rewrite <- Ep, Kp in Sp. pose proof (ukind_spec (pos q)) as Sq. rewrite <- Eq', Kq in Sq.
    clear Ep Eq'. destruct (pos p) as [r c]. destruct (pos q) as [r' c'] eqn:Eq. unfold uin in *; cbn [fst snd] in *.
    assert (S : forall i j, (i + j) mod 2 = 0 -> fv ps (on (support l (pl_lab q))) (i, j) = true <->
              uin dx dz (i, j) /\ near (i, j) (r', c')).
    { intros i j Hi. assert (K : ukind (i, j) = KD) by now apply ukind_D.
      rewrite ufv_spec by exact K. split; intros [D H]; (split; [exact D|]).
      - apply (usup_In q (i, j)) in H; [|assumption..]. now rewrite Eq in H.
      - apply (usup_In q (i, j)); [assumption..|]. now rewrite Eq. }
    unfold uin, near in S. cbn [fst snd] in S.
    assert (M : (r - r') mod 2 = 1 /\ (c - c') mod 2 = 1 /\ (r + c) mod 2 = 1) by lia. clear Sp Sq. destruct M as (M1 & M2 & M3).
    pose proof (S r (c + 1)) as S1. pose proof (S r (c + -1)) as S2. pose proof (S (r + 1) c) as S3. pose proof (S (r + -1) c) as S4. clear S.
    assert (M4 : (r + (c + 1)) mod 2 = 0 /\ (r + (c + -1)) mod 2 = 0 /\ (r + 1 + c) mod 2 = 0 /\ (r + -1 + c) mod 2 = 0) by lia.
    destruct M4 as (N1 & N2 & N3 & N4). specialize (S1 N1). specialize (S2 N2). specialize (S3 N3). specialize (S4 N4).
    assert (M5 : r <> r' /\ c <> c') by lia. clear N1 N2 N3 N4 M1 M2 M3.
    destruct (fv ps _ (r, c + 1)), (fv ps _ (r, c + -1)), (fv ps _ (r + 1, c)), (fv ps _ (r + -1, c));
      try reflexivity; exfalso; lia.
  Qed.
  Lemma unrot_lzx p : In p ps -> knd p = KX -> commutes (on (unrot_logz a)) (support l (pl_lab p)).
  Proof.
    intros Hp Kp. apply commutes_xor. rewrite usup_xor by exact Hp.
    destruct (ups_pos p Hp) as [Ip Ep]. pose proof (ukind_spec (pos p)) as Sp. rewrite <- Ep, Kp in Sp. clear Ep.
    destruct (pos p) as [r c]. unfold uin in *; cbn [fst snd] in *.
    assert (S : forall i j, (i + j) mod 2 = 0 -> fv ps (on (unrot_logz a)) (i, j) = true <-> uin dx dz (i, j) /\ i = 0).
    { intros i j Hi. assert (K : ukind (i, j) = KD) by now apply ukind_D.
      rewrite ufv_spec by exact K. split; intros [D H]; (split; [exact D|]); now apply (ulogz_In (i, j)). }
    unfold uin in S. cbn [fst snd] in S.
    apply even_pairs; apply eq_true_iff_eq; rewrite !S by lia; lia.
  Qed.
  Lemma unrot_lxz p : In p ps -> knd p = KZ -> commutes (on (unrot_logx a)) (support l (pl_lab p)).
  Proof.
    intros Hp Kp. apply commutes_xor. rewrite usup_xor by exact Hp.
    destruct (ups_pos p Hp) as [Ip Ep]. pose proof (ukind_spec (pos p)) as Sp. rewrite <- Ep, Kp in Sp. clear Ep.
    destruct (pos p) as [r c]. unfold uin in *; cbn [fst snd] in *.
    assert (S : forall i j, (i + j) mod 2 = 0 -> fv ps (on (unrot_logx a)) (i, j) = true <-> uin dx dz (i, j) /\ j = 0).
    { intros i j Hi. assert (K : ukind (i, j) = KD) by now apply ukind_D.
      rewrite ufv_spec by exact K. split; intros [D H]; (split; [exact D|]); now apply (ulogx_In (i, j)). }
    unfold uin in S. cbn [fst snd] in S.
    apply even_pairs; apply eq_true_iff_eq; rewrite !S by lia; lia.
  Qed.
  Lemma unrot_shared : filter (on (unrot_logx a)) (unrot_logz a) = [label "D" (ga_data a)].
  Proof.
    unfold unrot_logz. rewrite range_cons by exact Hz. cbn [map filter].
    assert (E : on (unrot_logx a) (label "D" (0 + ga_data a)) = true).
    { unfold on. apply mem_In. unfold unrot_logx. apply in_map_iff. exists 0. split; [reflexivity|]. apply range_In. lia. }
    rewrite E. rewrite Z.add_0_l. f_equal. rewrite map_map. apply filter_all_false. intros q Hq.
    apply in_map_iff in Hq as (k & <- & Hk). apply range_In in Hk.
    destruct (on (unrot_logx a) (label "D" (k + 1 + ga_data a))) eqn:O; [|reflexivity]. exfalso.
    apply mem_In in O. unfold unrot_logx in O. apply in_map_iff in O as (i & O & Hi). apply label_inj in O as [_ O].
    apply range_In in Hi. destruct (divrem_inj (2 * dz - 1) i 0 0 (k + 1)); lia.
  Qed.
  Lemma ulogz_nodup : NoDup (unrot_logz a).
  Proof.
    unfold unrot_logz. apply FinFun.Injective_map_NoDup; [|apply range_nodup]. intros i j E. apply label_inj in E as [_ E]. lia.
  Qed.
  Lemma ulogx_nodup : NoDup (unrot_logx a).
  Proof.
    unfold unrot_logx. apply FinFun.Injective_map_NoDup; [|apply range_nodup]. intros i j E. apply label_inj in E as [_ E].
    apply (Z.mul_reg_r i j (2 * dz - 1)); lia.
  Qed.
  Lemma ulog_data i j : 0 <= i < dx -> 0 <= j < dz ->
    In (label "D" (ga_data a + i * (2 * dz - 1) + j)) (map pl_lab (filter (isk KD) ps)).
  Proof.
    intros Hi Hj. destruct (pos_ups (2 * i, 2 * j)) as (p & Hp & K & E); [unfold uin; cbn [fst snd]; lia|].
    rewrite ukind_D in K by (cbn [fst snd]; lia). apply (data_In _ ). exists p. split; [exact Hp|]. split; [exact K|].
    rewrite udata_label, E by assumption. cbn [fst snd]. now rewrite unrot_index_even.
  Qed.
  Lemma ulogz_data : incl (unrot_logz a) (map pl_lab (filter (isk KD) ps)).
  Proof.
    intros q Hq. unfold unrot_logz in Hq. apply in_map_iff in Hq as (i & <- & Hi). apply range_In in Hi.
    replace (i + ga_data a) with (ga_data a + 0 * (2 * dz - 1) + i) by lia. apply ulog_data; lia.
  Qed.
  Lemma ulogx_data : incl (unrot_logx a) (map pl_lab (filter (isk KD) ps)).
  Proof.
    intros q Hq. unfold unrot_logx in Hq. apply in_map_iff in Hq as (i & <- & Hi). apply range_In in Hi.
    replace (i * (2 * dz - 1) + ga_data a) with (ga_data a + i * (2 * dz - 1) + 0) by lia. apply ulog_data; lia.
  Qed.

  (** * Distances *)
  Section Op.
    Context (op : string -> bool).
    Definition E (r c : nat) : bool := fv ps op (2 * Z.of_nat r, 2 * Z.of_nat c).
    Definition O (r c : nat) : bool := fv ps op (2 * Z.of_nat r + 1, 2 * Z.of_nat c + 1).
    Lemma E_true r c : E r c = true -> exists p, In p ps /\ knd p = KD /\ op (pl_lab p) = true /\
      pos p = (2 * Z.of_nat r, 2 * Z.of_nat c).
    Proof.
      intros H. apply fv_true in H as (p & Hp & F & T). exists p. split; [exact Hp|]. split; [|auto].
      apply ups_pos in Hp as [_ ->]. rewrite F. apply ukind_D. cbn [fst snd]. lia.
    Qed.
    Lemma ulogz_xor : xorl (map op (unrot_logz a)) = xs (Z.to_nat dz) (E 0).
    Proof.
      unfold unrot_logz, xs, range. rewrite !map_map. f_equal. apply map_ext_in. intros c Hc. apply in_seq in Hc. unfold E.
      rewrite ufv_data; [|unfold uin; cbn [fst snd]; lia|apply ukind_D; cbn [fst snd]; lia]. cbn [fst snd].
      rewrite unrot_index_even. f_equal. f_equal. lia.
    Qed.
    Lemma ulogx_xor : xorl (map op (unrot_logx a)) = xs (Z.to_nat dx) (fun r => E r 0).
    Proof.
      unfold unrot_logx, xs, range. rewrite !map_map. f_equal. apply map_ext_in. intros r Hr. apply in_seq in Hr. unfold E.
      rewrite ufv_data; [|unfold uin; cbn [fst snd]; lia|apply ukind_D; cbn [fst snd]; lia]. cbn [fst snd].
      rewrite unrot_index_even. f_equal. f_equal. lia.
    Qed.
    Lemma urow_step r : (forall p, In p ps -> knd p = KZ -> commutes op (support l (pl_lab p))) -> (S r < Z.to_nat dx)%nat ->
      xs (Z.to_nat dz) (E (S r)) = xs (Z.to_nat dz) (E r).
    Proof.
      intros C Hr.
      assert (T : xs (Z.to_nat dz) (fun c => xorb (E r c) (E (S r) c)) = false).
      { rewrite (telescope _ (O r)).
        - destruct (Z.to_nat dz =? 0)%nat; [reflexivity|]. apply ufv_out. unfold uin; cbn [fst snd]. lia.
        - intros j Hj. destruct (pos_ups (2 * Z.of_nat r + 1, 2 * Z.of_nat j)) as (p & Hp & K & F); [unfold uin; cbn [fst snd]; lia|].
          rewrite ukind_Z in K by (cbn [fst snd]; lia). pose proof (C p Hp K) as Cp. apply commutes_xor in Cp. rewrite usup_xor, F in Cp by exact Hp.
          fold (O r j) in Cp.
          assert (A2 : fv ps op (2 * Z.of_nat r + 1, 2 * Z.of_nat j + -1) = if (j =? 0)%nat then false else O r (j - 1)).
          { destruct (Nat.eqb_spec j 0); [apply ufv_out; unfold uin; cbn [fst snd]; lia|]. unfold O. f_equal. f_equal. lia. }
          rewrite A2 in Cp. replace (2 * Z.of_nat r + 1 + 1) with (2 * Z.of_nat (S r)) in Cp by lia.
          replace (2 * Z.of_nat r + 1 + -1) with (2 * Z.of_nat r) in Cp by lia. fold (E r j) in Cp. fold (E (S r) j) in Cp.
          destruct (j =? 0)%nat; revert Cp; destruct (E r j), (E (S r) j), (O r j), (O r (j - 1)); cbn; intros; congruence. }
      rewrite xs_xor in T. destruct (xs _ (E r)), (xs _ (E (S r))); cbn in T; congruence.
    Qed.
    Lemma ucol_step c : (forall p, In p ps -> knd p = KX -> commutes op (support l (pl_lab p))) -> (S c < Z.to_nat dz)%nat ->
      xs (Z.to_nat dx) (fun r => E r (S c)) = xs (Z.to_nat dx) (fun r => E r c).
    Proof.
      intros C Hr.
      assert (T : xs (Z.to_nat dx) (fun r => xorb (E r c) (E r (S c))) = false).
      { rewrite (telescope _ (fun r => O r c)).
        - destruct (Z.to_nat dx =? 0)%nat; [reflexivity|]. apply ufv_out. unfold uin; cbn [fst snd]. lia.
        - intros j Hj. destruct (pos_ups (2 * Z.of_nat j, 2 * Z.of_nat c + 1)) as (p & Hp & K & F); [unfold uin; cbn [fst snd]; lia|].
          rewrite ukind_X in K by (cbn [fst snd]; lia). pose proof (C p Hp K) as Cp. apply commutes_xor in Cp. rewrite usup_xor, F in Cp by exact Hp.
          fold (O j c) in Cp.
          assert (A2 : fv ps op (2 * Z.of_nat j + -1, 2 * Z.of_nat c + 1) = if (j =? 0)%nat then false else O (j - 1) c).
          { destruct (Nat.eqb_spec j 0); [apply ufv_out; unfold uin; cbn [fst snd]; lia|]. unfold O. f_equal. f_equal. lia. }
          rewrite A2 in Cp. replace (2 * Z.of_nat c + 1 + 1) with (2 * Z.of_nat (S c)) in Cp by lia.
          replace (2 * Z.of_nat c + 1 + -1) with (2 * Z.of_nat c) in Cp by lia. fold (E j c) in Cp. fold (E j (S c)) in Cp.
          destruct (j =? 0)%nat; revert Cp; destruct (E j c), (E j (S c)), (O j c), (O (j - 1) c); cbn; intros; congruence. }
      rewrite xs_xor in T. destruct (xs _ (fun r => E r c)), (xs _ (fun r => E r (S c))); cbn in T; congruence.
    Qed.
    Lemma umin_x : (forall p, In p ps -> knd p = KZ -> commutes op (support l (pl_lab p))) -> ~ commutes op (unrot_logz a) ->
      (Z.to_nat dx <= weight op (map pl_lab (filter (isk KD) ps)))%nat.
    Proof.
      intros C A. apply not_commutes_xor in A. rewrite ulogz_xor in A.
      assert (R : forall r, (r < Z.to_nat dx)%nat -> xs (Z.to_nat dz) (E r) = true).
      { induction r as [|r IH]; intros Hr; [exact A|]. rewrite urow_step by assumption. apply IH. lia. }
      apply (lines_weight _ _ _ _ _ P (fun rc => Z.to_nat (fst rc / 2))). intros r Hr.
      apply R, xs_true in Hr as (c & _ & Hc). apply E_true in Hc as (p & Hp & K & T & F). exists p.
      do 3 (split; [assumption|]). rewrite F. cbn [fst]. lia.
    Qed.
    Lemma umin_z : (forall p, In p ps -> knd p = KX -> commutes op (support l (pl_lab p))) -> ~ commutes op (unrot_logx a) ->
      (Z.to_nat dz <= weight op (map pl_lab (filter (isk KD) ps)))%nat.
    Proof.
      intros C A. apply not_commutes_xor in A. rewrite ulogx_xor in A.
      assert (R : forall c, (c < Z.to_nat dz)%nat -> xs (Z.to_nat dx) (fun r => E r c) = true).
      { induction c as [|c IH]; intros Hc; [exact A|]. rewrite ucol_step by assumption. apply IH. lia. }
      apply (lines_weight _ _ _ _ _ P (fun rc => Z.to_nat (snd rc / 2))). intros c Hc.
      apply R, xs_true in Hc as (r & _ & Hr). apply E_true in Hr as (p & Hp & K & T & F). exists p.
      do 3 (split; [assumption|]). rewrite F. cbn [snd]. lia.
    Qed.
  End Op.
  Lemma unrot_weight p : In p ps -> knd p <> KD -> (1 < dx \/ 1 < dz) ->
    (2 <= length (support l (pl_lab p)) <= 4)%nat.
  Proof.
    intros Hp K _. rewrite (Permutation_length (support_perm _ _ _ _ _ P Ns p Hp)), map_length. unfold nbrs, unrot_shifts.
    cbn [flat_map]. rewrite !app_length, !(at_length _ _ _ _ _ P). apply ups_pos in Hp as [Hp Ep]. rewrite Ep in K. pose proof (ukind_spec (pos p)) as Sp.
    destruct (pos p) as [r c]. unfold padd, uin in *; cbn [fst snd] in *.
    assert (S : forall i j, (i + j) mod 2 = 0 -> fv ps (fun _ => true) (i, j) = true <-> uin dx dz (i, j))
      by (intros i j Hi; rewrite ufv_spec by (now apply ukind_D); tauto).
    unfold uin in S. cbn [fst snd] in S.
    pose proof (S (r + 0) (c + 1)) as S1. pose proof (S (r + 0) (c + -1)) as S2.
    pose proof (S (r + 1) (c + 0)) as S3. pose proof (S (r + -1) (c + 0)) as S4. clear S.
    destruct (ukind (r, c)); [congruence| |];
      destruct (fv ps _ (r + 0, c + 1)), (fv ps _ (r + 0, c + -1)), (fv ps _ (r + 1, c + 0)), (fv ps _ (r + -1, c + 0));
      cbn [length]; try lia; exfalso; lia.
  Qed.
End Unrot.

(** * Counts *)
Lemma cnt_cols n par : (par = 0 \/ par = 1) ->
  Z.of_nat (length (filter (fun c => eqb ((par + c) mod 2) 0) (map Z.of_nat (seq 0 n)))) = (Z.of_nat n + 1 - par) / 2.
Proof.
  intros Hp. induction n as [|n IH]; [cbn; destruct Hp as [->| ->]; reflexivity|].
  rewrite seq_S, map_app, filter_app, app_length, Nat2Z.inj_add, IH. cbn [map filter Nat.add].
  destruct (eqb ((par + Z.of_nat n) mod 2) 0) eqn:F; cbn [length]; [apply eqb_true in F|apply eqb_neq in F]; lia.
Qed.
Lemma filter_flat_map {A B} (f : B -> bool) (g : A -> list B) l : filter f (flat_map g l) = flat_map (fun x => filter f (g x)) l.
Proof. induction l as [|a l IH]; [reflexivity|]. cbn [flat_map]. now rewrite filter_app, IH. Qed.
Lemma filter_map_comm {A B} (f : B -> bool) (g : A -> B) l : filter f (map g l) = map g (filter (fun x => f (g x)) l).
Proof. induction l as [|a l IH]; [reflexivity|]. cbn [map filter]. destruct (f (g a)); cbn [map]; now rewrite IH. Qed.
Lemma udata_count n dz : 1 <= dz ->
  Z.of_nat (length (filter (fun rc : Z * Z => kd (ukind rc)) (flat_map (fun r => map (pair r) (range (2 * dz - 1))) (map Z.of_nat (seq 0 n))))) =
  (Z.of_nat n + 1) / 2 * dz + Z.of_nat n / 2 * (dz - 1).
Proof.
  intros Hz. induction n as [|n IH]; [reflexivity|].
  rewrite seq_S, map_app, flat_map_app, filter_app, app_length, Nat2Z.inj_add, IH. cbn [map Nat.add flat_map]. rewrite app_nil_r, filter_map_comm, map_length.
  assert (Ex : filter (fun c => kd (ukind (Z.of_nat n, c))) (range (2 * dz - 1)) =
               filter (fun c => eqb ((Z.of_nat n mod 2 + c) mod 2) 0) (map Z.of_nat (seq 0 (Z.to_nat (2 * dz - 1))))).
  { unfold range. apply filter_ext. intros c. unfold ukind; cbn [fst snd].
    replace ((Z.of_nat n mod 2 + c) mod 2) with ((Z.of_nat n + c) mod 2) by lia.
    destruct (eqb ((Z.of_nat n + c) mod 2) 0); [reflexivity|]. now destruct (eqb (Z.of_nat n mod 2) 0). }
  rewrite Ex, cnt_cols by lia. rewrite Z2Nat.id by lia.
  assert (M : Z.of_nat n mod 2 = 0 \/ Z.of_nat n mod 2 = 1) by lia.
  destruct M as [M|M]; rewrite M.
  - replace ((Z.of_nat (S n) + 1) / 2) with ((Z.of_nat n + 1) / 2 + 1) by lia.
    replace (Z.of_nat (S n) / 2) with (Z.of_nat n / 2) by lia. replace ((2 * dz - 1 + 1 - 0) / 2) with dz by lia. lia.
  - replace ((Z.of_nat (S n) + 1) / 2) with ((Z.of_nat n + 1) / 2) by lia.
    replace (Z.of_nat (S n) / 2) with (Z.of_nat n / 2 + 1) by lia. replace ((2 * dz - 1 + 1 - 1) / 2) with (dz - 1) by lia. lia.
Qed.
Lemma filter_compl {A} (f : A -> bool) l : (length (filter f l) + length (filter (fun x => negb (f x)) l) = length l)%nat.
Proof. induction l as [|a l IH]; [reflexivity|]. cbn [filter]. destruct (f a); cbn [negb length]; lia. Qed.
Lemma unrot_counts a : 1 <= ga_dx a -> 1 <= ga_dz a ->
  let n := ga_dx a * ga_dz a + (ga_dx a - 1) * (ga_dz a - 1) in
  Z.of_nat (length (filter (isk KD) (unrot_ps a))) = n /\ Z.of_nat (length (filter isanc (unrot_ps a))) = n - 1 /\
  Z.of_nat (length (unrot_ps a)) = 2 * n - 1.
Proof.
  intros Hx Hz n.
  assert (T : Z.of_nat (length (unrot_ps a)) = 2 * n - 1).
  { unfold unrot_ps. rewrite place_length. unfold unrot_items, unrot_pos. rewrite map_length, (grid_length _ (fun _ => range (2 * ga_dz a - 1))), list_sum_const.
    unfold range. rewrite !map_length, !seq_length, Nat2Z.inj_mul, !Z2Nat.id by lia. unfold n. lia. }
  assert (D : Z.of_nat (length (filter (isk KD) (unrot_ps a))) = n).
  { rewrite (filter_ext (isk KD) (fun p => kd (knd p))) by (intros p; unfold isk; now destruct (knd p)).
    unfold unrot_ps. rewrite filter_pl_lab. unfold unrot_items. rewrite filter_map_comm, map_length.
    rewrite (filter_ext (fun x => kd (it_kind (mk x))) (fun rc => kd (ukind rc))) by reflexivity.
    unfold unrot_pos. unfold range at 2. rewrite udata_count by lia. rewrite Z2Nat.id by lia.
    replace ((2 * ga_dx a - 1 + 1) / 2) with (ga_dx a) by lia. replace ((2 * ga_dx a - 1) / 2) with (ga_dx a - 1) by lia. reflexivity. }
  split; [exact D|]. split; [|exact T].
  pose proof (filter_compl (isk KD) (unrot_ps a)) as F.
  rewrite (filter_ext (fun x => negb (isk KD x)) isanc) in F by (intros p; unfold isk, isanc; now destruct (knd p)). lia.
Qed.

(** * Summary *)
Lemma unrot_code a : 1 <= ga_dx a -> 1 <= ga_dz a -> exists l data xs zs lx lz,
  unrot_surface_code_rectangle a = Ok l /\ css_code l (ga_log a) data xs zs lx lz /\
  has_distances l data xs zs lx lz (Z.to_nat (ga_dx a)) (Z.to_nat (ga_dz a)) /\
  (exists q, filter (on lx) lz = [q]) /\
  length lx = Z.to_nat (ga_dx a) /\ length lz = Z.to_nat (ga_dz a).
Proof.
  intros Hx Hz. destruct (unrot_planar a) as (l & r & E & _ & _ & P & Lg & Lz & Lx & _); [lia..|].
  exists l, (map pl_lab (filter (isk KD) (unrot_ps a))), (map pl_lab (filter (isk KX) (unrot_ps a))), (map pl_lab (filter (isk KZ) (unrot_ps a))),
    (unrot_logx a), (unrot_logz a).
  split; [exact E|]. split.
  { apply (css_intro _ _ _ _ _ P); auto using unrot_shifts_nodup.
    - now apply ulogx_nodup.
    - now apply ulogz_nodup.
    - now apply ulogx_data.
    - now apply ulogz_data.
    - now apply unrot_stabs.
    - now apply unrot_lzx.
    - now apply unrot_lxz.
    - unfold commutes, weight. rewrite unrot_shared by assumption. discriminate. }
  assert (L1 : length (unrot_logx a) = Z.to_nat (ga_dx a)) by (unfold unrot_logx; unfold range; now rewrite !map_length, seq_length).
  assert (L2 : length (unrot_logz a) = Z.to_nat (ga_dz a)) by (unfold unrot_logz; unfold range; now rewrite !map_length, seq_length).
  split.
  { apply (dist_intro _ _ _ _ _ P).
    - now apply ulogx_nodup.
    - now apply ulogz_nodup.
    - now apply ulogx_data.
    - now apply ulogz_data.
    - intros op. now apply (umin_x a l Hx Hz P op).
    - intros op. now apply (umin_z a l Hx Hz P op).
    - exact L1.
    - exact L2. }
  split; [exists (label "D" (ga_data a)); now apply unrot_shared|]. auto.
Qed.
Lemma unrot_count_lemma a : 1 <= ga_dx a -> 1 <= ga_dz a ->
  let n := ga_dx a * ga_dz a + (ga_dx a - 1) * (ga_dz a - 1) in exists l data ancs,
  unrot_surface_code_rectangle a = Ok l /\ get_role l "data" = Ok data /\ get_role l "anc" = Ok ancs /\
  Z.of_nat (length data) = n /\ Z.of_nat (length ancs) = n - 1 /\
  NoDup (map fst (l_nodes l)) /\
  lay_inds l (map fst (l_nodes l)) = Ok (map (fun k => ga_ind a + k) (range (2 * n - 1))).
Proof.
  intros Hx Hz n. destruct (unrot_planar a) as (l & r & E & _ & _ & P & _); [lia..|].
  destruct (unrot_counts a Hx Hz) as (C1 & C2 & C3). fold n in C1, C2, C3.
  destruct (count_lemma l _ _ _ _ _ _ _ _ _ eq_refl P) as [N I]. fold (unrot_ps a) in I. rewrite C3 in I.
  exists l, (map pl_lab (filter (isk KD) (unrot_ps a))), (map pl_lab (filter isanc (unrot_ps a))). rewrite !map_length.
  split; [exact E|]. split; [apply (pn_data _ _ _ _ _ P)|]. split; [apply (pn_anc _ _ _ _ _ P)|]. auto.
Qed.
Lemma unrot_dirs : lattice = map (fun s => (unrot_dirn s, s)) unrot_shifts.
Proof. reflexivity. Qed.
Lemma unrot_neighbours a l : unrot_surface_code_rectangle a = Ok l ->
  forall u v d,
  (In v (get_neighbors l [u] (Some d)) <-> exists s, In (d, s) lattice /\ displaced l u v s) /\
  (forall d', opposite lattice d d' -> In v (get_neighbors l [u] (Some d)) <-> In u (get_neighbors l [v] (Some d'))) /\
  (forall data ancs, get_role l "data" = Ok data -> get_role l "anc" = Ok ancs -> In v (get_neighbors l [u] (Some d)) ->
     In u data /\ In v ancs \/ In u ancs /\ In v data).
Proof.
  intros H u v d. assert (D : 0 <= ga_dx a /\ 0 <= ga_dz a).
  { unfold unrot_surface_code_rectangle, check_distance in H. destruct (Z.ltb_spec (ga_dx a) 0); [discriminate|].
    destruct (Z.ltb_spec (ga_dz a) 0); [discriminate|]. lia. }
  destruct (unrot_planar a) as (l' & r & E & _ & _ & P & _); [lia..|]. rewrite H in E. injection E as <-.
  rewrite unrot_dirs. split; [apply (neighbours_lemma _ _ _ _ _ P)|]. split; [intros d'; apply (symmetric_iff _ _ _ _ _ P)|].
  intros data ancs. apply (data_anc_lemma _ _ _ _ _ P).
Qed.
