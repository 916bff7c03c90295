(** Proofs about C79: a rotated code with one row or one column is a chain. *)
From Coq Require Import QArith Qcanon.
From Verif Require Import Base Lib StimM LayoutM SpecLayout LayoutP LayoutP2 GenM GenP SpecGen GeomP RotP RotP2 LogP LogP13 CoordM SpecCoord CoordP CoordP2 CoordP3.
Open Scope Z_scope.

Section Path.
  Context (a : gen_args) (l : layout) (n : Z) (path : Z -> Z * Z).
  Hypothesis Hx : 1 <= ga_dx a.
  Hypothesis Hz : 1 <= ga_dz a.
  Hypothesis G : rot_surface_code_rectangle a = Ok l.
  Hypothesis Hn : 2 <= n.
  Local Notation ps := (rot_ps a).
  Hypothesis H1 : forall c, 1 <= c <= 2 * n - 1 -> exists k, kpos (ga_dx a) (ga_dz a) k (path c).
  Hypothesis H2 : forall k rc, kpos (ga_dx a) (ga_dz a) k rc -> exists c, 1 <= c <= 2 * n - 1 /\ rc = path c.
  Hypothesis H3 : forall c c', 1 <= c <= 2 * n - 1 -> 1 <= c' <= 2 * n - 1 ->
    (exists s, In s rot_shifts /\ path c' = padd (path c) s) <-> (c' = c + 1 \/ c = c' + 1).
  Hypothesis H4 : forall c c', path c = path c' -> c = c'.
  Definition path_lab (c : Z) : string := match find (fun p => eqb (pos p) (path c)) ps with Some p => pl_lab p | None => "" end.
  Lemma path_at c : 1 <= c <= 2 * n - 1 -> exists p, In p ps /\ pos p = path c /\ path_lab c = pl_lab p.
  Proof.
    intros Hc. destruct (H1 c Hc) as [k K]. destruct (kpos_ps a k _ K) as (p & Hp & _ & E). unfold path_lab.
    destruct (find (fun p => eqb (pos p) (path c)) ps) as [p'|] eqn:F.
    - apply find_some in F as [Hp' F]. destruct (eqb_spec (pos p') (path c)) as [E'|]; [|discriminate]. exists p'. auto.
    - exfalso. eapply find_none in F; [|exact Hp]. cbn beta in F. rewrite E, eqb_refl in F. discriminate.
  Qed.
  Lemma path_lab_of p c : In p ps -> 1 <= c <= 2 * n - 1 -> pos p = path c -> path_lab c = pl_lab p.
  Proof.
    intros Hp Hc E. destruct (path_at c Hc) as (p' & Hp' & E' & ->). f_equal.
    pose proof (at_pos_one _ _ (pn_npos _ _ _ _ _ (gen_planar a l G)) Hp) as F. pose proof (at_pos_one _ _ (pn_npos _ _ _ _ _ (gen_planar a l G)) Hp') as F'. congruence.
  Qed.
  Definition path_qs : list string := map (fun i => path_lab (Z.of_nat i)) (seq 1 (Z.to_nat (2 * n - 1))).
  Lemma path_nth i q : nth_error path_qs i = Some q <-> Z.of_nat i + 1 <= 2 * n - 1 /\ q = path_lab (Z.of_nat i + 1).
  Proof.
    unfold path_qs. split.
    - intros H. assert (L : (i < length path_qs)%nat) by (apply nth_error_Some; unfold path_qs; congruence). unfold path_qs in L. rewrite map_length, seq_length in L.
      rewrite nth_error_map in H. rewrite (nth_error_nth' (seq 1 (Z.to_nat (2 * n - 1))) 0%nat) in H by (rewrite seq_length; lia). rewrite seq_nth in H by lia. cbn [option_map] in H. injection H as <-.
      split; [lia|]. f_equal. lia.
    - intros [L ->]. rewrite nth_error_map. rewrite (nth_error_nth' (seq 1 (Z.to_nat (2 * n - 1))) 0%nat) by (rewrite seq_length; lia). rewrite seq_nth by lia. cbn [option_map].
      do 2 f_equal. lia.
  Qed.
  Lemma lab_inj p p' : In p ps -> In p' ps -> pl_lab p = pl_lab p' -> p = p'.
  Proof.
    intros Hp Hp' E. pose proof (zplace_lab a l G p Hp) as A. pose proof (zplace_lab a l G p' Hp') as B. rewrite E in A.
    pose proof (at_pos_one _ _ (pn_npos _ _ _ _ _ (gen_planar a l G)) Hp) as F. pose proof (at_pos_one _ _ (pn_npos _ _ _ _ _ (gen_planar a l G)) Hp') as F'. congruence.
  Qed.
  Lemma path_chain : open_chain l path_qs.
  Proof.
    split.
    - apply NoDup_nth_error. intros i j Hi E. destruct (nth_error path_qs i) as [q|] eqn:Ei; [|apply nth_error_None in Ei; lia]. symmetry in E.
      apply path_nth in Ei as [Li ->]. apply path_nth in E as [Lj E].
      destruct (path_at (Z.of_nat i + 1)) as (p & Hp & Pp & Ep); [lia|]. destruct (path_at (Z.of_nat j + 1)) as (p' & Hp' & Pp' & Ep'); [lia|].
      assert (p = p') by (apply lab_inj; congruence). subst p'. assert (Z.of_nat i + 1 = Z.of_nat j + 1) by (apply H4; congruence). lia.
    - intros i q Ei nb. apply path_nth in Ei as [Li ->]. destruct (path_at (Z.of_nat i + 1)) as (p & Hp & Pp & Ep); [lia|]. rewrite Ep.
      unfold get_neighbors. rewrite in_map_iff. split.
      + intros ([x y] & E & H). cbn [snd] in E. subst y.
        apply (pn_any _ _ _ _ _ (gen_planar a l G)) in H as [[<-|[]] (d & p1 & p' & s & Hp1 & Hp' & Hs & E1 & <- & _ & E)].
        assert (p1 = p) by (apply lab_inj; auto). subst p1. destruct (H2 _ _ (ps_kpos a p' Hp')) as (c & Lc & Ec).
        assert (N : c = Z.of_nat i + 1 + 1 \/ Z.of_nat i + 1 = c + 1).
        { apply (H3 (Z.of_nat i + 1) c); [lia|lia|]. exists s. split; [exact Hs|]. congruence. }
        exists (Z.to_nat (c - 1)). split; [|lia]. apply path_nth. rewrite Z2Nat.id by lia. split; [lia|]. replace (c - 1 + 1) with c by lia. symmetry. now apply path_lab_of.
      + intros (j & Ej & N). apply path_nth in Ej as [Lj ->]. destruct (path_at (Z.of_nat j + 1)) as (p' & Hp' & Pp' & Ep'); [lia|]. rewrite Ep'.
        exists (pl_lab p, pl_lab p'). split; [reflexivity|]. apply (pn_any _ _ _ _ _ (gen_planar a l G)). split; [now left|].
        destruct (proj2 (H3 (Z.of_nat i + 1) (Z.of_nat j + 1) ltac:(lia) ltac:(lia))) as (s & Hs & E); [lia|].
        exists (rot_dirn s), p, p', s. do 3 (split; [assumption|]). do 3 (split; [reflexivity|]). congruence.
  Qed.
  Lemma path_in q : In q path_qs <-> In q (dkeys (l_nodes l)).
  Proof.
    unfold dkeys. rewrite (pn_nodes _ _ _ _ _ (gen_planar a l G)). rewrite in_map_iff. split.
    - intros H. apply In_nth_error in H as [i H]. apply path_nth in H as [L ->]. destruct (path_at (Z.of_nat i + 1)) as (p & Hp & _ & E); [lia|]. exists p. auto.
    - intros (p & <- & Hp). destruct (H2 _ _ (ps_kpos a p Hp)) as (c & Lc & Ec). apply (nth_error_In _ (Z.to_nat (c - 1))). apply path_nth.
      rewrite Z2Nat.id by lia. split; [lia|]. replace (c - 1 + 1) with c by lia. symmetry. now apply path_lab_of.
  Qed.
  Lemma path_index : exists l', gives (fun m => index_chain m l (path_lab 1)) l' /\ only_set "chain_ind" l l' /\
    forall p c, In p ps -> 1 <= c <= 2 * n - 1 -> pos p = path c -> chain_ind l' (pl_lab p) (c - 1).
  Proof.
    destruct (open_index l path_qs) with (init := path_lab 1) as (l' & Gv & O & V & _).
    - apply (pn_wf _ _ _ _ _ (gen_planar a l G)).
    - apply path_chain.
    - intros q Hq. now apply path_in.
    - unfold path_qs. rewrite map_length, seq_length. lia.
    - apply path_nth. split; [lia|reflexivity].
    - exists l'. split; [exact Gv|]. split; [exact O|]. intros p c Hp Hc E.
      replace (c - 1) with (Z.of_nat (Z.to_nat (c - 1))) by lia. apply V. apply path_nth. split; [lia|]. replace (Z.of_nat (Z.to_nat (c - 1)) + 1) with c by lia.
      symmetry. now apply path_lab_of.
  Qed.
End Path.

Definition row_path (c : Z) : Z * Z := (if c mod 2 =? 1 then 1 else if c mod 4 =? 2 then 0 else 2, c).
Definition col_path (r : Z) : Z * Z := (r, if r mod 2 =? 1 then 1 else if r mod 4 =? 0 then 0 else 2).
Ltac kp := cbn [kpos] in *; unfold dpos, xpos, zpos in *; cbn [fst snd] in *.
Lemma row_spec c : exists r, row_path c = (r, c) /\ (c mod 2 = 1 /\ r = 1 \/ c mod 4 = 2 /\ r = 0 \/ c mod 4 = 0 /\ r = 2).
Proof. unfold row_path. eexists. split; [reflexivity|]. destruct (Z.eqb_spec (c mod 2) 1); [auto|]. destruct (Z.eqb_spec (c mod 4) 2); [auto|]. right; right. lia. Qed.
Lemma col_spec r : exists c, col_path r = (r, c) /\ (r mod 2 = 1 /\ c = 1 \/ r mod 4 = 0 /\ c = 0 \/ r mod 4 = 2 /\ c = 2).
Proof. unfold col_path. eexists. split; [reflexivity|]. destruct (Z.eqb_spec (r mod 2) 1); [auto|]. destruct (Z.eqb_spec (r mod 4) 0); [auto|]. right; right. lia. Qed.
Lemma shifts_In s t : In (s, t) rot_shifts <-> (s = 1 \/ s = -1) /\ (t = 1 \/ t = -1).
Proof.
  cbn. split.
  - intros [[= <- <-]|[[= <- <-]|[[= <- <-]|[[= <- <-]|[]]]]]; auto.
  - intros [[-> | ->] [-> | ->]]; tauto.
Qed.
Lemma pair_shift (r c r' c' : Z) : (exists s, In s rot_shifts /\ (r', c') = padd (r, c) s) <-> (r' - r = 1 \/ r' - r = -1) /\ (c' - c = 1 \/ c' - c = -1).
Proof.
  split.
  - intros ([s t] & Hs & E). apply shifts_In in Hs. unfold padd in E. cbn [fst snd] in E. injection E as -> ->. lia.
  - intros H. exists (r' - r, c' - c). split; [now apply shifts_In|]. unfold padd. cbn [fst snd]. f_equal; lia.
Qed.
Section Rep.
  Context (a : gen_args) (l : layout).
  Hypothesis G : rot_surface_code_rectangle a = Ok l.
  Lemma row_index : ga_dx a = 1 -> 2 <= ga_dz a -> exists l', gives (fun m => index_chain m l (path_lab a row_path 1)) l' /\ only_set "chain_ind" l l' /\
    forall p, In p (rot_ps a) -> chain_ind l' (pl_lab p) (snd (pos p) - 1).
  Proof.
    intros Ex Hz. destruct (path_index a l (ga_dz a) row_path) as (l' & Gv & O & V); auto; try lia.
    - intros c Hc. destruct (row_spec c) as (r & -> & [[M ->]|[[M ->]|[M ->]]]); [exists KD|exists KX|exists KX]; kp; lia.
    - intros k [r c] K. exists c. destruct (row_spec c) as (r' & -> & E). assert (1 <= c <= 2 * ga_dz a - 1 /\ r = r') as [L ->]; [|auto].
      destruct k; kp; destruct E as [[M ->]|[[M ->]|[M ->]]]; lia.
    - intros c c' Hc Hc'. destruct (row_spec c) as (r & -> & E), (row_spec c') as (r' & -> & E'). rewrite pair_shift. lia.
    - intros c c' E. unfold row_path in E. now injection E.
    - exists l'. split; [exact Gv|]. split; [exact O|]. intros p Hp. pose proof (ps_kpos a p Hp) as K. destruct (pos p) as [r c] eqn:Ep. cbn [snd].
      assert (L : 1 <= c <= 2 * ga_dz a - 1 /\ (r, c) = row_path c).
      { destruct (row_spec c) as (r' & -> & E). assert (1 <= c <= 2 * ga_dz a - 1 /\ r = r') as [L ->]; [|auto].
        destruct (knd p); kp; destruct E as [[M ->]|[[M ->]|[M ->]]]; lia. }
      apply (V p c Hp); [lia|]. rewrite Ep. apply L.
  Qed.
  Lemma col_index : ga_dz a = 1 -> 2 <= ga_dx a -> exists l', gives (fun m => index_chain m l (path_lab a col_path 1)) l' /\ only_set "chain_ind" l l' /\
    forall p, In p (rot_ps a) -> chain_ind l' (pl_lab p) (fst (pos p) - 1).
  Proof.
    intros Ex Hz. destruct (path_index a l (ga_dx a) col_path) as (l' & Gv & O & V); auto; try lia.
    - intros c Hc. destruct (col_spec c) as (r & -> & [[M ->]|[[M ->]|[M ->]]]); [exists KD|exists KZ|exists KZ]; kp; lia.
    - intros k [r c] K. exists r. destruct (col_spec r) as (r' & -> & E). assert (1 <= r <= 2 * ga_dx a - 1 /\ c = r') as [L ->]; [|auto].
      destruct k; kp; destruct E as [[M ->]|[[M ->]|[M ->]]]; lia.
    - intros c c' Hc Hc'. destruct (col_spec c) as (r & -> & E), (col_spec c') as (r' & -> & E'). rewrite pair_shift. lia.
    - intros c c' E. unfold col_path in E. now injection E.
    - exists l'. split; [exact Gv|]. split; [exact O|]. intros p Hp. pose proof (ps_kpos a p Hp) as K. destruct (pos p) as [r c] eqn:Ep. cbn [fst].
      assert (L : 1 <= r <= 2 * ga_dx a - 1 /\ (r, c) = col_path r).
      { destruct (col_spec r) as (r' & -> & E). assert (1 <= r <= 2 * ga_dx a - 1 /\ c = r') as [L ->]; [|auto].
        destruct (knd p); kp; destruct E as [[M ->]|[[M ->]|[M ->]]]; lia. }
      apply (V p r Hp); [lia|]. rewrite Ep. apply L.
  Qed.
  Lemma rep_lemma (row : bool) init : (if row then ga_dx a = 1 /\ 2 <= ga_dz a else ga_dz a = 1 /\ 2 <= ga_dx a) ->
    lparam l "coords" init = Ok (PList (map PNum [fst (ga_pt a); snd (ga_pt a)])) ->
    exists l', gives (fun m => index_chain m l init) l' /\ only_set "chain_ind" l l' /\
      forall q x y, lparam l "coords" q = Ok (PList (map PNum [x; y])) ->
        exists i, (if row then y = (snd (ga_pt a) + zq i)%Qc else x = (fst (ga_pt a) + zq i)%Qc) /\ chain_ind l' q i.
  Proof.
    intros S Ei.
    assert (Sx : 1 <= ga_dx a /\ 1 <= ga_dz a) by (destruct row; lia). destruct Sx as [Sx Sz].
    assert (I : forall x y u v : Qc, Ok (PList (map PNum [x; y])) = Ok (PList (map PNum [u; v])) -> x = u /\ y = v) by (clear; intros x y u v E; injection E; auto).
    assert (Z1 : forall z t, (zq z + (t - 1))%Qc = (t + zq (z - 1))%Qc).
    { intros z t. pose proof (zq_add (z - 1) 1) as A. replace (z - 1 + 1) with z in A by lia. rewrite A. change (zq 1) with 1%Qc. ring. }
    assert (N : forall q v, lparam l "coords" q = Ok v -> exists p, In p (rot_ps a) /\ pl_lab p = q).
    { intros q v E. assert (K : In q (map fst (l_nodes l))).
      { unfold lparam, dget_err in E. destruct (dget q (l_nodes l)) as [w|] eqn:F; [|discriminate]. apply dget_In in F. change q with (fst (q, w)). now apply in_map. }
      rewrite (pn_nodes _ _ _ _ _ (gen_planar a l G)) in K. apply in_map_iff in K as (p & <- & Hp). now exists p. }
    assert (C : forall p x y, In p (rot_ps a) -> lparam l "coords" (pl_lab p) = Ok (PList (map PNum [x; y])) ->
      x = (fst (ga_pt a) + zq (fst (pos p) - 1))%Qc /\ y = (snd (ga_pt a) + zq (snd (pos p) - 1))%Qc).
    { intros p x y Hp E. rewrite (gen_coords a l G p Hp) in E. apply I in E as [E1 E2]. unfold rot_pt in E1, E2. cbn [fst snd] in E1, E2. rewrite Z1 in E1, E2. auto. }
    assert (P1 : forall path, path 1 = (1, 1) -> path_lab a path 1 = init).
    { intros path E1. destruct (N _ _ Ei) as (p & Hp & <-). destruct (C p _ _ Hp Ei) as [X Y].
      assert (Q0 : forall t z, t = (t + zq z)%Qc -> z = 0).
      { intros t z E. apply zq_inj. change (zq 0) with 0%Qc. transitivity (t + zq z - t)%Qc; [ring|]. rewrite <- E. ring. }
      apply Q0 in X. apply Q0 in Y. unfold path_lab. assert (Ep : pos p = path 1) by (rewrite E1; destruct (pos p); cbn [fst snd] in *; f_equal; lia).
      destruct (find (fun p => eqb (pos p) (path 1)) (rot_ps a)) as [p'|] eqn:F.
      - apply find_some in F as [Hp' F]. destruct (eqb_spec (pos p') (path 1)) as [E'|]; [|discriminate]. f_equal.
        pose proof (at_pos_one _ _ (pn_npos _ _ _ _ _ (gen_planar a l G)) Hp) as F1. pose proof (at_pos_one _ _ (pn_npos _ _ _ _ _ (gen_planar a l G)) Hp') as F2. congruence.
      - exfalso. eapply find_none in F; [|exact Hp]. cbn beta in F. rewrite Ep, eqb_refl in F. discriminate. }
    destruct row.
    - destruct (row_index (proj1 S) (proj2 S)) as (l' & Gv & O & V). rewrite (P1 row_path eq_refl) in Gv. exists l'. split; [exact Gv|]. split; [exact O|].
      intros q x y E. destruct (N _ _ E) as (p & Hp & <-). destruct (C p x y Hp E) as [-> ->]. eexists. split; [reflexivity|]. now apply V.
    - destruct (col_index (proj1 S) (proj2 S)) as (l' & Gv & O & V). rewrite (P1 col_path eq_refl) in Gv. exists l'. split; [exact Gv|]. split; [exact O|].
      intros q x y E. destruct (N _ _ E) as (p & Hp & <-). destruct (C p x y Hp E) as [-> ->]. eexists. split; [reflexivity|]. now apply V.
  Qed.
End Rep.
