(** The rotated layout: positions, counts, commutation and distances. *)
From Coq Require Import QArith Qcanon.
From Verif Require Import Base Lib StimM LayoutM SpecLayout LayoutP LayoutP2 GenM GenP SpecGen GeomP.
Open Scope Z_scope.

(** * Ranges *)
Lemma zrange_In a b s z : 0 < s -> In z (zrange a b s) <-> a <= z < b /\ (z - a) mod s = 0.
Proof.
  intros Hs. unfold zrange. rewrite in_map_iff. split.
  - intros (k & <- & Hk). apply in_seq in Hk. split.
    + split; [nia|]. assert (Z.of_nat k < (b - a + s - 1) / s) by lia.
      assert (s * Z.of_nat k + s <= b - a + s - 1); [|lia].
      pose proof (Z.mul_div_le (b - a + s - 1) s Hs). nia.
    + replace (a + s * Z.of_nat k - a) with (Z.of_nat k * s) by lia. apply Z.mod_mul. lia.
  - intros [Hz Hm]. apply Z.mod_divide in Hm as [k Hk]; [|lia]. exists (Z.to_nat k).
    assert (0 <= k) by nia. rewrite Z2Nat.id by assumption. split; [lia|]. apply in_seq. split; [lia|]. simpl.
    apply Z2Nat.inj_lt; [assumption|apply Z.div_pos; lia|].
    apply Z.lt_le_trans with ((s * (k + 1)) / s); [rewrite Z.mul_comm, Z.div_mul; lia|]. apply Z.div_le_mono; lia.
Qed.
Lemma zrange_nodup a b s : 0 < s -> NoDup (zrange a b s).
Proof.
  intros Hs. unfold zrange. apply FinFun.Injective_map_NoDup; [|apply seq_NoDup]. intros x y E. nia.
Qed.
Lemma zrange_length a b s : length (zrange a b s) = Z.to_nat ((b - a + s - 1) / s).
Proof. unfold zrange. now rewrite map_length, seq_length. Qed.
Lemma grid_nodup rows (cols : Z -> list Z) : NoDup rows -> (forall r, NoDup (cols r)) ->
  NoDup (flat_map (fun r => map (pair r) (cols r)) rows).
Proof.
  intros N F. apply NoDup_flat_map; [exact N| |].
  - intros r _. apply FinFun.Injective_map_NoDup; [|apply F]. intros x y [= E]. exact E.
  - intros r r' b _ _ H H'. apply in_map_iff in H as (c & <- & _), H' as (c' & E & _). now injection E.
Qed.
Lemma grid_In rows (cols : Z -> list Z) r c :
  In (r, c) (flat_map (fun r => map (pair r) (cols r)) rows) <-> In r rows /\ In c (cols r).
Proof.
  rewrite in_flat_map. split.
  - intros (r' & Hr & H). apply in_map_iff in H as (c' & [= <- <-] & Hc). auto.
  - intros [Hr Hc]. exists r. split; [exact Hr|]. now apply in_map.
Qed.

(** * Positions *)
Definition dpos (dx dz : Z) (rc : Z * Z) : Prop :=
  fst rc mod 2 = 1 /\ snd rc mod 2 = 1 /\ 0 < fst rc < 2 * dx + 1 /\ 0 < snd rc < 2 * dz + 1.
Definition xpos (dx dz : Z) (rc : Z * Z) : Prop :=
  fst rc mod 2 = 0 /\ (fst rc + snd rc) mod 4 = 2 /\ 0 <= fst rc <= 2 * dx /\ 2 <= snd rc <= 2 * dz - 2.
Definition zpos (dx dz : Z) (rc : Z * Z) : Prop :=
  fst rc mod 2 = 0 /\ (fst rc + snd rc) mod 4 = 0 /\ 2 <= fst rc <= 2 * dx - 2 /\ 0 <= snd rc <= 2 * dz.
Definition kpos (dx dz : Z) (k : kind) : Z * Z -> Prop :=
  match k with KD => dpos dx dz | KX => xpos dx dz | KZ => zpos dx dz end.

Definition d_items (dx dz : Z) : list item :=
  map (fun frc : string * (Z * Z) => {| it_kind := KD; it_pos := snd frc; it_extra := [("freq_group", PStr (fst frc))] |}) (rot_data_pos dx dz).
Definition mid (k : kind) (rc : Z * Z) : item :=
  {| it_kind := k; it_pos := rc; it_extra := [("freq_group", PStr "mid")] |}.
Definition rot_items (dx dz : Z) : list item :=
  d_items dx dz ++ map (mid KX) (rot_x_pos dx dz) ++ map (mid KZ) (rot_z_pos dx dz).

Lemma enumerate_snd {A} (l : list A) : forall n, map snd (enumerate_from n l) = l.
Proof. induction l as [|a l IH]; intros n; [reflexivity|]. cbn [enumerate_from map snd]. now rewrite IH. Qed.
Lemma data_grid dx dz : map snd (rot_data_pos dx dz) =
  flat_map (fun r => map (pair r) (zrange 1 (2 * dz + 1) 2)) (zrange 1 (2 * dx + 1) 2).
Proof.
  unfold rot_data_pos, enumerate. rewrite <- (enumerate_snd (zrange 1 (2 * dx + 1) 2) 0) at 2.
  generalize (enumerate_from 0 (zrange 1 (2 * dx + 1) 2)). intros ks.
  induction ks as [|[k r] ks IH]; [reflexivity|]. cbn [flat_map map fst snd]. rewrite map_app, IH, map_map. reflexivity.
Qed.
Lemma data_items_pos dx dz : map it_pos (d_items dx dz) =
  flat_map (fun r => map (pair r) (zrange 1 (2 * dz + 1) 2)) (zrange 1 (2 * dx + 1) 2).
Proof. unfold d_items. rewrite map_map. cbn [it_pos]. apply data_grid. Qed.
Lemma x_pos_In dx dz rc : In rc (rot_x_pos dx dz) <-> xpos dx dz rc.
Proof.
  destruct rc as [r c]. unfold rot_x_pos, xpos. rewrite grid_In, !zrange_In by lia. cbn [fst snd]. lia.
Qed.
Lemma z_pos_In dx dz rc : In rc (rot_z_pos dx dz) <-> zpos dx dz rc.
Proof.
  destruct rc as [r c]. unfold rot_z_pos, zpos. rewrite grid_In, !zrange_In by lia. cbn [fst snd]. lia.
Qed.
Lemma d_pos_In dx dz rc : In rc (map it_pos (d_items dx dz)) <-> dpos dx dz rc.
Proof.
  destruct rc as [r c]. rewrite data_items_pos. unfold dpos. rewrite grid_In, !zrange_In by lia. cbn [fst snd]. lia.
Qed.
Lemma items_kpos dx dz i : In i (rot_items dx dz) -> kpos dx dz (it_kind i) (it_pos i).
Proof.
  unfold rot_items. rewrite !in_app_iff. intros [H|[H|H]].
  - assert (K : it_kind i = KD) by (apply in_map_iff in H as (x & <- & _); reflexivity). rewrite K.
    apply d_pos_In. now apply in_map.
  - apply in_map_iff in H as (rc & <- & H). now apply x_pos_In.
  - apply in_map_iff in H as (rc & <- & H). now apply z_pos_In.
Qed.
Lemma kpos_item dx dz k rc : kpos dx dz k rc -> exists i, In i (rot_items dx dz) /\ it_kind i = k /\ it_pos i = rc.
Proof.
  unfold rot_items. destruct k; cbn [kpos]; intros H.
  - apply d_pos_In, in_map_iff in H as (i & E & H). exists i. rewrite in_app_iff. split; [now left|]. split; [|exact E].
    apply in_map_iff in H as (x & <- & _). reflexivity.
  - exists (mid KX rc). rewrite !in_app_iff. split; [right; left; apply in_map; now apply x_pos_In|]. auto.
  - exists (mid KZ rc). rewrite !in_app_iff. split; [right; right; apply in_map; now apply z_pos_In|]. auto.
Qed.
Lemma rot_items_nodup dx dz : NoDup (map it_pos (rot_items dx dz)).
Proof.
  unfold rot_items. rewrite !map_app, !map_map. cbn [it_pos mid].
  assert (Nx : NoDup (rot_x_pos dx dz)) by (apply grid_nodup; [|intros r]; apply zrange_nodup; lia).
  assert (Nz : NoDup (rot_z_pos dx dz)) by (apply grid_nodup; [|intros r]; apply zrange_nodup; lia).
  assert (Nd : NoDup (map it_pos (d_items dx dz))) by (rewrite data_items_pos; apply grid_nodup; [|intros r]; apply zrange_nodup; lia).
  rewrite !map_id. apply NoDup_app_intro; [exact Nd|apply NoDup_app_intro; [exact Nx|exact Nz|]|].
  - intros rc Hx Hz. apply x_pos_In in Hx. apply z_pos_In in Hz. unfold xpos, zpos in *. lia.
  - intros rc Hd H. apply d_pos_In in Hd. apply in_app_or in H as [H|H]; [apply x_pos_In in H|apply z_pos_In in H];
      unfold dpos, xpos, zpos in *; lia.
Qed.

(** * The loops *)
Lemma rot_loops_char a : exists st, rot_loops a = Ok st /\
  let index := rot_index (ga_dz a) (ga_data a) in
  let pt := ((fst (ga_pt a) - 1)%Qc, (snd (ga_pt a) - 1)%Qc) in
  let ps := place index (rot_items (ga_dx a) (ga_dz a)) (ga_ind a) (ga_xanc a) (ga_zanc a) in
  let dirn s := match rot_direction s with Ok d => d | Err _ => "" end in
  gs_infos st = map (info_of pt) ps /\
  gs_nbr st = fold_left wr (flat_map (writes_of dirn (is_valid (2 * ga_dx a + 1) (2 * ga_dz a + 1)) index rot_shifts) ps) [].
Proof.
  cbv zeta. set (index := rot_index (ga_dz a) (ga_data a)).
  set (pt := ((fst (ga_pt a) - 1)%Qc, (snd (ga_pt a) - 1)%Qc)).
  set (dirn s := match rot_direction s with Ok d => d | Err _ => "" end).
  destruct (run_char rot_direction dirn (is_valid (2 * ga_dx a + 1) (2 * ga_dz a + 1)) index rot_shifts pt
     (fun s _ => conj eq_refl eq_refl) (rot_items (ga_dx a) (ga_dz a)) (gst0 a)) as (st & E & E1 & E2).
  exists st. split; [|split; [exact E1|exact E2]]. rewrite <- E.
  unfold rot_loops, rot_items, d_items. rewrite !foldM_app. fold pt. fold index.
  assert (M : forall {X} (f : X -> item) (g : gst -> X -> res gst) xs st0,
    (forall s x, gstep rot_direction (is_valid (2 * ga_dx a + 1) (2 * ga_dz a + 1)) index rot_shifts pt s (f x) = g s x) ->
    foldM (gstep rot_direction (is_valid (2 * ga_dx a + 1) (2 * ga_dz a + 1)) index rot_shifts pt) (map f xs) st0 = foldM g xs st0).
  { intros X f g xs0. induction xs0 as [|y ys IH]; intros st0 H; [reflexivity|]. cbn [map foldM]. rewrite H.
    destruct (g st0 y); [|reflexivity]. cbn [bind]. now apply IH. }
  rewrite (M _ _ (fun st (frc : string * (Z * Z)) =>
     place_data index pt (fst (snd frc)) (snd (snd frc)) [("freq_group", PStr (fst frc))] st)).
  2:{ intros s [f [r c]]. reflexivity. }
  match goal with |- bind ?x ?f = bind ?x' ?f' => change x with x'; destruct x'; [|reflexivity]; cbn [bind] end.
  rewrite foldM_app, (M _ (mid KX) (fun st (rc : Z * Z) => place_anc rot_direction (is_valid (2 * ga_dx a + 1) (2 * ga_dz a + 1)) index rot_shifts pt true (fst rc) (snd rc)
                               [("freq_group", PStr "mid")] st)).
  2:{ intros s [r c]. reflexivity. }
  match goal with |- bind ?x ?f = bind ?x' ?f' => change x with x'; destruct x'; [|reflexivity]; cbn [bind] end.
  rewrite (M _ (mid KZ) (fun st (rc : Z * Z) => place_anc rot_direction (is_valid (2 * ga_dx a + 1) (2 * ga_dz a + 1)) index rot_shifts pt false (fst rc) (snd rc)
                               [("freq_group", PStr "mid")] st)).
  2:{ intros s [r c]. reflexivity. }
  reflexivity.
Qed.

Definition rot_dirn (s : Z * Z) : string := match rot_direction s with Ok d => d | Err _ => "" end.
Definition rot_ps (a : gen_args) : list placed :=
  place (rot_index (ga_dz a) (ga_data a)) (rot_items (ga_dx a) (ga_dz a)) (ga_ind a) (ga_xanc a) (ga_zanc a).
Definition rot_pt (a : gen_args) : Qc * Qc := ((fst (ga_pt a) - 1)%Qc, (snd (ga_pt a) - 1)%Qc).
Definition rot_logz (a : gen_args) : list string := map (fun i => label "D" (i + ga_data a)) (range (ga_dz a)).
Definition rot_logx (a : gen_args) : list string := map (fun i => label "D" (i * ga_dz a + ga_data a)) (range (ga_dx a)).

Lemma In_rot_shifts s : In s rot_shifts <-> (fst s = 1 \/ fst s = -1) /\ (snd s = 1 \/ snd s = -1).
Proof.
  destruct s as [x y]. unfold rot_shifts. simpl. split.
  - intros [[= <- <-]|[[= <- <-]|[[= <- <-]|[[= <- <-]|[]]]]]; auto.
  - intros [[->| ->] [->| ->]]; auto.
Qed.
Lemma is_valid_spec m n r c : is_valid m n r c = true <-> 0 <= r < m /\ 0 <= c < n.
Proof. unfold is_valid. destruct (_ && _) eqn:E1; destruct (_ && _) eqn:E2 in |- *; cbn [negb]; lia. Qed.
Lemma names_ok_one g z x : names_ok [g] [(g, z)] [(g, x)] = true.
Proof. unfold names_ok, set_eq, subset. cbn [dkeys map fst forallb mem]. rewrite !eqb_refl. reflexivity. Qed.

Lemma rot_planar a : 0 <= ga_dx a -> 0 <= ga_dz a ->
  exists l r, rot_surface_code_rectangle a = Ok l /\ layout_init r = Ok l /\ py_dicts r /\
    planar l rot_shifts rot_dirn (rot_pt a) (rot_ps a) /\
    l_logs l = [ga_log a] /\ l_logz l = [(ga_log a, rot_logz a)] /\ l_logx l = [(ga_log a, rot_logx a)] /\
    l_dx l = ga_dx a /\ l_dz l = ga_dz a /\ l_order l = rot_order /\ l_code l = "rotated_surface_code".
Proof.
  intros Hx Hz. unfold rot_surface_code_rectangle, check_distance.
  destruct (Z.ltb_spec (ga_dx a) 0); [lia|]. destruct (Z.ltb_spec (ga_dz a) 0); [lia|]. cbn [bind].
  destruct (rot_loops_char a) as (st & -> & E1 & E2). cbn [bind].
  fold (rot_logz a). fold (rot_logx a).
  fold (rot_ps a) in E1, E2. fold (rot_pt a) in E1.
  match goal with |- exists l r, layout_init ?x = _ /\ _ => set (r0 := x) end.
  assert (Inj : forall i j, In i (rot_items (ga_dx a) (ga_dz a)) -> In j (rot_items (ga_dx a) (ga_dz a)) ->
     it_kind i = KD -> it_kind j = KD ->
     rot_index (ga_dz a) (ga_data a) (fst (it_pos i)) (snd (it_pos i)) =
     rot_index (ga_dz a) (ga_data a) (fst (it_pos j)) (snd (it_pos j)) -> it_pos i = it_pos j).
  { intros i j Hi Hj Ki Kj. apply items_kpos in Hi, Hj. rewrite Ki in Hi. rewrite Kj in Hj.
    destruct (it_pos i) as [r c], (it_pos j) as [r' c']. cbn [kpos dpos fst snd] in *. unfold dpos in *; cbn [fst snd] in *.
    unfold rot_index. intros E. assert (r / 2 * ga_dz a + c / 2 = r' / 2 * ga_dz a + c' / 2) by lia.
    assert (0 <= c / 2 < ga_dz a) by lia. assert (0 <= c' / 2 < ga_dz a) by lia.
    assert (r / 2 = r' / 2) by nia. assert (c / 2 = c' / 2) by nia. f_equal; lia. }
  assert (Val : forall i s, In i (rot_items (ga_dx a) (ga_dz a)) -> it_kind i <> KD -> In s rot_shifts ->
    (vld (is_valid (2 * ga_dx a + 1) (2 * ga_dz a + 1)) (padd (it_pos i) s) = true <->
     exists d, In d (rot_items (ga_dx a) (ga_dz a)) /\ it_kind d = KD /\ it_pos d = padd (it_pos i) s)).
  { intros i s Hi Ki Hs. unfold vld. rewrite is_valid_spec. apply items_kpos in Hi. apply In_rot_shifts in Hs. split.
    - intros V. apply (kpos_item _ _ KD). cbn [kpos]. unfold dpos.
      destruct (it_kind i); [congruence| |]; cbn [kpos] in Hi; unfold xpos, zpos in Hi; unfold padd in *; cbn [fst snd] in *; lia.
    - intros (d & Hd & Kd & <-). apply items_kpos in Hd. rewrite Kd in Hd. cbn [kpos] in Hd. unfold dpos in Hd. lia. }
  assert (Par : forall i j s, In i (rot_items (ga_dx a) (ga_dz a)) -> In j (rot_items (ga_dx a) (ga_dz a)) ->
    In s rot_shifts -> it_pos j = padd (it_pos i) s -> (it_kind i = KD <-> it_kind j <> KD)).
  { intros i j s Hi Hj Hs E. apply items_kpos in Hi, Hj. apply In_rot_shifts in Hs. rewrite E in Hj.
    destruct (it_kind i), (it_kind j); cbn [kpos] in Hi, Hj; unfold dpos, xpos, zpos, padd in *; cbn [fst snd] in *;
      split; intros; try congruence; exfalso; lia. }
  assert (Inv : forall s, In s rot_shifts -> In (invert_shift s) rot_shifts).
  { intros s Hs. apply In_rot_shifts in Hs. apply In_rot_shifts. unfold invert_shift; cbn [fst snd]. lia. }
  assert (Dinj : forall s s', In s rot_shifts -> In s' rot_shifts -> rot_dirn s = rot_dirn s' -> s = s').
  { intros s s' Hs Hs'. unfold rot_shifts in Hs, Hs'. simpl in Hs, Hs'.
    destruct Hs as [<-|[<-|[<-|[<-|[]]]]]; destruct Hs' as [<-|[<-|[<-|[<-|[]]]]]; intros E; (reflexivity || discriminate). }
  assert (Ext : forall i, In i (rot_items (ga_dx a) (ga_dz a)) -> ext_ok (it_extra i)).
  { intros i Hi. unfold rot_items in Hi. right. rewrite !in_app_iff in Hi. destruct Hi as [Hi|[Hi|Hi]];
      apply in_map_iff in Hi as (x & <- & _); cbn [it_extra mid]; eauto. }
  destruct (planar_intro rot_dirn (is_valid (2 * ga_dx a + 1) (2 * ga_dz a + 1)) (rot_index (ga_dz a) (ga_data a))
    rot_shifts (rot_pt a) (rot_items (ga_dx a) (ga_dz a)) (ga_ind a) (ga_xanc a) (ga_zanc a)
    (rot_items_nodup _ _) Inj Val Par Inv Dinj Ext (add_missing (gs_nbr st)) r0) as (l & L & Pd & Pl & A1 & A2 & A3 & A4 & A5 & A6 & _ & A7 & _).
  - rewrite E2. apply add_missing_ok. apply nbrs_ok_plain; auto using rot_items_nodup.
  - unfold r0, layout_setup; cbn [rl_layout]. rewrite E1. reflexivity.
  - apply names_ok_one.
  - exists l, r0. split; [exact L|]. split; [exact L|]. split; [exact Pd|]. split; [exact Pl|].
    split; [exact A3|]. split; [exact A1|]. split; [exact A2|]. split; [exact A5|]. split; [exact A6|]. split; [exact A4|exact A7].
Qed.
