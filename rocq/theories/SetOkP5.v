(** Proofs about C77, part 5: when the transversal gates can be set. *)
From Coq Require Import QArith Qcanon.
From Verif Require Import Base Lib StimM NoiseM DetM LayoutM SpecLayout LayoutP LayoutP2 GenM GenP SpecGen GeomP BlockM SpecTrack TrackP
  RoundP UnrotP RotP RotP2 LiftP SpecLog LogM LogP LogP2 LogP3 LogP4 LogP5 LogP6 LogP7 LogP8 LogP9 LogP12 LogP13 SignP2 SignP3 SetOkP SetOkP2 SetOkP3 SetOkP4.
Open Scope Z_scope.

Lemma coord_place l sh dn pt ps q r c : planar l sh dn pt ps -> has_coord l q [(zq r + fst pt)%Qc; (zq c + snd pt)%Qc] ->
  exists p, In p ps /\ pl_lab p = q /\ pos p = (r, c).
Proof.
  intros P H. assert (K : In q (map pl_lab ps)).
  { rewrite <- (pn_nodes _ _ _ _ _ P). unfold has_coord, lparam, dget_err in H. destruct (dget q (l_nodes l)) eqn:E; [|discriminate]. eapply dget_Some_key; eauto. }
  apply in_map_iff in K as (p & <- & Hp). exists p. do 2 (split; [auto|]). pose proof (pn_coord _ _ _ _ _ P p Hp) as K.
  unfold has_coord in *. rewrite H in K.
  assert (I : forall x y u v : Qc, Ok (PList (map PNum [x; y])) = Ok (PList (map PNum [u; v])) -> x = u /\ y = v) by (intros x y u v [= -> ->]; auto).
  apply I in K as [K1 K2].
  assert (Q : forall x y u : Qc, (x + u)%Qc = (y + u)%Qc -> x = y).
  { intros x y u E. apply (f_equal (fun w => (w - u)%Qc)) in E. ring_simplify in E. exact E. }
  apply Q in K1, K2. apply zq_inj in K1, K2. destruct (pos p). cbn [fst snd] in *. congruence.
Qed.

Section One.
  Context (a : gen_args) (l0 l : layout) (dq : string).
  Hypothesis A : annotated structure l0 l.
  Notation T := (annotated_touched _ _ _ A).
  Lemma C77_s_rot_lemma : rot_surface_code_rectangle a = Ok l0 ->
    (exists l1, set_trans_s_rot l dq = Ok l1) <->
    ga_dz a = ga_dx a + 1 /\ 2 <= ga_dx a /\ has_coord l0 dq [fst (ga_pt a); snd (ga_pt a)].
  Proof.
    intros G. destruct (rot_after _ _ _ G (touched_refl _ _)) as (P0 & _).
    destruct (rot_after _ _ _ G T) as (P & Hlog & Hc & Hx & Hz & _).
    assert (E11 : [fst (ga_pt a); snd (ga_pt a)] = [(zq 1 + fst (rot_pt a))%Qc; (zq 1 + snd (rot_pt a))%Qc]).
    { assert (U : forall x : Qc, (zq 1 + (x - 1))%Qc = x) by (intros x; change (zq 1) with 1%Qc; ring).
      unfold rot_pt. cbn [fst snd]. rewrite !U. reflexivity. }
    rewrite E11. split.
    - intros [l1 S]. destruct (rot_s_labels_at (fun _ s => s) (fun _ s => Permutation_refl s) a l l1 l1 dq P Hlog Hc Hx Hz S (touched_refl _ _))
        as (_ & _ & _ & _ & _ & _ & _ & _ & _ & [D _] & B & F).
      split; [exact D|]. split; [exact B|]. apply (labat_some _ _ _ _ _ P0) in F as (p & Hp & Ep & <-).
      pose proof (pn_coord _ _ _ _ _ P0 p Hp) as K. rewrite Ep in K. exact K.
    - intros (D & B & H). apply (coord_place _ _ _ _ _ _ _ _ P0) in H as (p & Hp & <- & Ep).
      exact (set_s_rot_all a l P Hlog Hc Hx Hz D B p Hp Ep).
  Qed.
  Definition corner_at : Prop := exists r c, (r = 0 \/ r = 2 * (ga_dx a - 1)) /\ (c = 0 \/ c = 2 * (ga_dx a - 1)) /\
    has_coord l0 dq [(fst (ga_pt a) + coord r)%Qc; (snd (ga_pt a) + coord c)%Qc].
  Lemma swap_coord r c : [(fst (ga_pt a) + coord r)%Qc; (snd (ga_pt a) + coord c)%Qc] = [(zq r + fst (ga_pt a))%Qc; (zq c + snd (ga_pt a))%Qc].
  Proof. rewrite (Qcplus_comm (fst (ga_pt a))), (Qcplus_comm (snd (ga_pt a))). reflexivity. Qed.
  Lemma C77_s_unrot_lemma : unrot_surface_code_rectangle a = Ok l0 ->
    (exists l1, set_trans_s_unrot l dq = Ok l1) <-> ga_dz a = ga_dx a /\ 2 <= ga_dx a /\ corner_at.
  Proof.
    intros G. destruct (unrot_after _ _ _ G (touched_refl _ _)) as (P0 & _).
    destruct (unrot_after _ _ _ G T) as (P & Hlog & Hc & Hx & Hz & _). split.
    - intros [l1 H]. unfold set_trans_s_unrot in H. apply bind_ok in H as [[] [F H]]. rewrite (pn_data _ _ _ _ _ P) in H. cbn [bind] in H. fold (labs (unrot_ps a) KD) in H.
      unfold gate_s in H. rewrite (first_one l _ Hlog) in H. cbn [bind] in H. apply bind_ok in H as [[[ax p] v] [L H]].
      apply bind_ok in H as [tab [Et H]]. apply bind_ok in H as [cz [Ec H]]. apply bind_ok in H as [s [Es _]].
      apply fold_data in F as (data & Ed & Id & _ & Sz). rewrite (pn_data _ _ _ _ _ P) in Ed. injection Ed as <-.
      apply (proj1 (eqb_eq (l_dz l) (l_dx l))) in Sz. rewrite Hx, Hz in Sz. apply labs_place in Id as (d & Hd & Kd & Ld). rewrite <- Ld in L.
      destruct (fold_line_ok _ _ _ _ _ P d ax p v Hd L) as (pa & pz & ph & s1 & s2 & Ha & Hpz & _ & S1 & S2 & Ka & Kz & _ & Ea & Ez & _ & -> & ->).
      destruct (ups_pos _ _ Hd) as [B0 K0]. destruct (ups_pos _ _ Ha) as [B1 K1]. destruct (ups_pos _ _ Hpz) as [B2 K2]. rewrite Kd in K0. rewrite Ka in K1. rewrite Kz in K2.
      pose proof (ukind_spec (pos d)) as X0. pose proof (ukind_spec (pos pa)) as X1. pose proof (ukind_spec (pos pz)) as X2.
      rewrite <- K0 in X0. rewrite <- K1 in X1. rewrite <- K2 in X2. rewrite Ea in *. rewrite Ez in *. apply In_unrot_shifts in S1, S2.
      assert (He : (fst (padd s1 s2) = 1 \/ fst (padd s1 s2) = -1) /\ (snd (padd s1 s2) = 1 \/ snd (padd s1 s2) = -1)).
      { unfold padd in *. cbn [fst snd] in *. lia. }
      split; [exact Sz|]. assert (Big : 2 <= ga_dx a) by (unfold uin, padd in *; cbn [fst snd] in *; lia). split; [exact Big|].
      destruct (SignP2.diagonal_all a l P Hz Sz (pos d) (padd s1 s2) (proj1 He) tab Et s Es (2 * ga_dx a - 2)) as (q & Eq & _); [lia|].
      apply (labat_some _ _ _ _ _ P) in Eq as (p2 & Hp2 & Ep2 & _). destruct (ups_pos _ _ Hp2) as [B3 _]. rewrite Ep2 in B3.
      exists (fst (pos d)), (snd (pos d)). unfold dg, uin, padd, pscale in *. cbn [fst snd] in *. rewrite Sz in *.
      split; [lia|]. split; [lia|]. rewrite swap_coord, <- Ld. apply (pn_coord _ _ _ _ _ P0 d Hd).
    - intros (D & B & r & c & Hr & Hk & H). rewrite swap_coord in H. apply (coord_place _ _ _ _ _ _ _ _ P0) in H as (p & Hp & <- & Ep).
      apply (set_s_all a l P Hlog Hc Hx Hz D B p Hp); rewrite Ep; cbn [fst snd]; lia.
  Qed.
  Lemma C77_h_lemma : unrot_surface_code_rectangle a = Ok l0 -> ga_dz a = ga_dx a -> 2 <= ga_dx a -> corner_at ->
    exists l1, set_trans_h l dq = Ok l1.
  Proof.
    intros G D B (r & c & Hr & Hk & H). destruct (unrot_after _ _ _ G (touched_refl _ _)) as (P0 & _).
    destruct (unrot_after _ _ _ G T) as (P & Hlog & Hc & Hx & Hz & _). rewrite swap_coord in H.
    apply (coord_place _ _ _ _ _ _ _ _ P0) in H as (p & Hp & <- & Ep).
    apply (set_h_all a l P Hlog Hc Hx Hz D B p Hp); rewrite Ep; cbn [fst snd]; lia.
  Qed.
End One.

Section Two.
  Context (a a' : gen_args) (lc0 lc lt0 lt : layout) (monos : list (dict string string)).
  Hypothesis Ac : annotated structure lc0 lc.
  Hypothesis At : annotated structure lt0 lt.
  Hypothesis Hm : forall m, In m monos -> monomorphism lc lt m.
  Hypothesis Hall : forall m, monomorphism lc lt m -> exists m', In m' monos /\ Permutation m m'.
  Hypothesis Hx1 : 1 <= ga_dx a.
  Hypothesis Hz1 : 1 <= ga_dz a.
  Lemma set_overlap code lc1 lt1 : loaded lc0 -> loaded lt0 -> SpecLayout.all_coords lc0 -> SpecLayout.all_coords lt0 ->
    set_trans_cnot code monos lc lt = Ok (lc1, lt1) -> ~ share lc0 lt0.
  Proof.
    intros L0 L1 C0 C1 S. unfold set_trans_cnot in S. destruct (_ || _); [discriminate|]. destruct (_ || _); [discriminate|].
    apply bind_ok in S as [[] [Ov _]]. rewrite (touched_overlaps _ _ _ _ (annotated_touched _ _ _ Ac) (annotated_touched _ _ _ At)) in Ov.
    destruct (overlaps_lemma [lc0; lt0]) as [[_ N]|[E _]]; [auto|auto| |congruence]. intros Sh. apply N. exists [], lc0, [], lt0, []. auto.
  Qed.
  Lemma C77_cnot_rot_lemma : rot_surface_code_rectangle a = Ok lc0 -> rot_surface_code_rectangle a' = Ok lt0 ->
    (exists lc1 lt1, set_trans_cnot_rot monos lc lt = Ok (lc1, lt1)) <-> ga_dx a' = ga_dx a /\ ga_dz a' = ga_dz a /\ ~ share lc0 lt0.
  Proof.
    intros G G'. pose proof (annotated_touched _ _ _ Ac) as Tc. pose proof (annotated_touched _ _ _ At) as Tt.
    destruct (rot_after _ _ _ G (touched_refl _ _)) as (Pc0 & _). destruct (rot_after _ _ _ G' (touched_refl _ _)) as (Pt0 & _).
    destruct (rot_after _ _ _ G Tc) as (P & Hlog & Hc & Hx & Hz & _). destruct (rot_after _ _ _ G' Tt) as (P' & Hlog' & Hc' & Hx' & Hz' & _).
    assert (L0 : loaded lc0). { destruct (rot_sizes _ _ G) as [? ?]. destruct (rot_planar a) as (x & r & E & I & _); auto. rewrite G in E. injection E as <-. now exists r. }
    assert (L1 : loaded lt0). { destruct (rot_sizes _ _ G') as [? ?]. destruct (rot_planar a') as (x & r & E & I & _); auto. rewrite G' in E. injection E as <-. now exists r. }
    pose proof (planar_coords _ _ _ _ _ Pc0) as C0. pose proof (planar_coords _ _ _ _ _ Pt0) as C1. split.
    - intros (lc1 & lt1 & S). destruct (cnot_sizes lc lc1 lt lt1 monos _ S) as [Sx Sz].
      split; [congruence|]. split; [congruence|]. now apply (set_overlap _ lc1 lt1 L0 L1 C0 C1 S).
    - intros (Ex & Ez & N).
      assert (It : map pl_item (rot_ps a) = map pl_item (rot_ps a')) by (unfold rot_ps; rewrite !place_items; congruence).
      refine (set_cnot_all lc lt _ _ _ _ _ _ _ P P' It _ monos (ga_log a) (ga_log a') _ Hall Hlog Hlog' Hc Hc' _ _ _ _); [now apply Forall_forall|congruence|congruence| |].
      + rewrite (touched_overlaps _ _ _ _ Tc Tt). now apply disjoint_layouts.
      + destruct (kpos_ps a KD (1, 1)) as (p & Hp & _); [cbn [kpos]; unfold dpos; cbn [fst snd]; lia|]. intros E. rewrite E in Hp. destruct Hp.
  Qed.
  Lemma C77_cnot_unrot_lemma : unrot_surface_code_rectangle a = Ok lc0 -> unrot_surface_code_rectangle a' = Ok lt0 ->
    (exists lc1 lt1, set_trans_cnot_unrot monos lc lt = Ok (lc1, lt1)) <-> ga_dx a' = ga_dx a /\ ga_dz a' = ga_dz a /\ ~ share lc0 lt0.
  Proof.
    intros G G'. pose proof (annotated_touched _ _ _ Ac) as Tc. pose proof (annotated_touched _ _ _ At) as Tt.
    destruct (unrot_after _ _ _ G (touched_refl _ _)) as (Pc0 & _). destruct (unrot_after _ _ _ G' (touched_refl _ _)) as (Pt0 & _).
    destruct (unrot_after _ _ _ G Tc) as (P & Hlog & Hc & Hx & Hz & _). destruct (unrot_after _ _ _ G' Tt) as (P' & Hlog' & Hc' & Hx' & Hz' & _).
    assert (L0 : loaded lc0). { destruct (unrot_sizes _ _ G) as [? ?]. destruct (unrot_planar a) as (x & r & E & I & _); auto. rewrite G in E. injection E as <-. now exists r. }
    assert (L1 : loaded lt0). { destruct (unrot_sizes _ _ G') as [? ?]. destruct (unrot_planar a') as (x & r & E & I & _); auto. rewrite G' in E. injection E as <-. now exists r. }
    pose proof (planar_coords _ _ _ _ _ Pc0) as C0. pose proof (planar_coords _ _ _ _ _ Pt0) as C1. split.
    - intros (lc1 & lt1 & S). destruct (cnot_sizes lc lc1 lt lt1 monos _ S) as [Sx Sz].
      split; [congruence|]. split; [congruence|]. now apply (set_overlap _ lc1 lt1 L0 L1 C0 C1 S).
    - intros (Ex & Ez & N).
      assert (It : map pl_item (unrot_ps a) = map pl_item (unrot_ps a')) by (unfold unrot_ps; rewrite !place_items; congruence).
      refine (set_cnot_all lc lt _ _ _ _ _ _ _ P P' It _ monos (ga_log a) (ga_log a') _ Hall Hlog Hlog' Hc Hc' _ _ _ _); [now apply Forall_forall|congruence|congruence| |].
      + rewrite (touched_overlaps _ _ _ _ Tc Tt). now apply disjoint_layouts.
      + destruct (pos_ups a (0, 0)) as (p & Hp & _); [unfold uin; cbn [fst snd]; lia|]. intros E. rewrite E in Hp. destruct Hp.
  Qed.
End Two.
Lemma rot_apart a a' lc lt : rot_surface_code_rectangle a = Ok lc -> rot_surface_code_rectangle a' = Ok lt -> check_overlaps [lc; lt] = Ok tt -> ~ share lc lt.
Proof.
  intros G G' Ov.
  assert (H : forall b l, rot_surface_code_rectangle b = Ok l -> loaded l /\ SpecLayout.all_coords l).
  { intros b l E. destruct (rot_sizes _ _ E) as [? ?]. destruct (rot_planar b) as (x & r & E' & I & _ & P & _); auto. rewrite E in E'. injection E' as <-.
    split; [now exists r|exact (planar_coords _ _ _ _ _ P)]. }
  destruct (H _ _ G), (H _ _ G'). destruct (overlaps_lemma [lc; lt]) as [[_ N]|[E _]]; [auto|auto| |congruence]. intros Sh. apply N. exists [], lc, [], lt, []. auto.
Qed.
