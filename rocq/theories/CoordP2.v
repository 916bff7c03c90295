(** Proofs about C78, part 2: a rotated code is connected, so that set_coords gives the
    coordinates of the generator again. *)
From Coq Require Import QArith Qcanon.
From Verif Require Import Base Lib StimM LayoutM SpecLayout LayoutP LayoutP2 GenM GenP SpecGen GeomP RotP RotP2 LogP LogP13 CoordM SpecCoord CoordP.
Open Scope Z_scope.

Lemma reach_trans l a b c : reach l a b -> reach l b c -> reach l a c.
Proof. intros H. induction 1 as [|x y R IH N]; [exact H|]. econstructor; eauto. Qed.

Section Rot.
  Context (a : gen_args) (l : layout).
  Hypothesis Hx : 1 <= ga_dx a.
  Hypothesis Hz : 1 <= ga_dz a.
  Hypothesis P : planar l rot_shifts rot_dirn (rot_pt a) (rot_ps a).
  Local Notation dx := (ga_dx a).
  Local Notation dz := (ga_dz a).
  Local Notation ps := (rot_ps a).

  Lemma step_reach p q : In p ps -> In q ps -> In (fst (pos q) - fst (pos p), snd (pos q) - snd (pos p)) rot_shifts -> reach l (pl_lab p) (pl_lab q).
  Proof.
    intros Hp Hq Hs. eapply reach_next; [constructor|]. unfold get_neighbors. apply in_map_iff. exists (pl_lab p, pl_lab q). split; [reflexivity|].
    apply (pn_any _ _ _ _ _ P). split; [now left|]. eexists. exists p, q, (fst (pos q) - fst (pos p), snd (pos q) - snd (pos p)).
    do 3 (split; [assumption|]). do 3 (split; [reflexivity|]). unfold padd. cbn [fst snd]. destruct (pos q). cbn [fst snd]. f_equal; lia.
  Qed.
  Lemma reach_sym q q' : reach l q q' -> reach l q' q.
  Proof.
    induction 1 as [|b c R IH N]; [constructor|]. eapply reach_trans; [|exact IH]. unfold get_neighbors in N. apply in_map_iff in N as ([x y] & E & N). cbn [snd] in E. subst y.
    apply (pn_any _ _ _ _ _ P) in N as [[<-|[]] (d & p & p' & s & Hp & Hp' & Hs & <- & <- & _ & E)].
    apply step_reach; [exact Hp'|exact Hp|]. rewrite E. unfold padd. cbn [fst snd].
    destruct s as [s1 s2]. cbn [fst snd] in *. cbn in Hs |- *.
    destruct Hs as [[= <- <-]|[[= <- <-]|[[= <- <-]|[[= <- <-]|[]]]]]; (repeat ((left; f_equal; lia) || right)).
  Qed.
  Definition at_ (rc : Z * Z) (q : string) : Prop := exists p, In p ps /\ pos p = rc /\ pl_lab p = q.
  Lemma at_step k k' rc rc' : kpos dx dz k rc -> kpos dx dz k' rc' -> In (fst rc' - fst rc, snd rc' - snd rc) rot_shifts ->
    forall q q', at_ rc q -> at_ rc' q' -> reach l q q'.
  Proof. intros _ _ Hs q q' (p & Hp & Ep & <-) (p' & Hp' & Ep' & <-). apply step_reach; [exact Hp|exact Hp'|]. now rewrite Ep, Ep'. Qed.
  Lemma at_ex k rc : kpos dx dz k rc -> exists q, at_ rc q.
  Proof. intros H. destruct (kpos_ps a k rc H) as (p & Hp & _ & E). exists (pl_lab p), p. auto. Qed.
  Lemma at_one rc q q' : at_ rc q -> at_ rc q' -> q = q'.
  Proof.
    intros (p & Hp & Ep & <-) (p' & Hp' & Ep' & <-). f_equal. pose proof (at_pos_one _ _ (pn_npos _ _ _ _ _ P) Hp) as E. pose proof (at_pos_one _ _ (pn_npos _ _ _ _ _ P) Hp') as E'. congruence.
  Qed.
  Ltac kp := cbn [kpos]; unfold dpos, xpos, zpos in *; cbn [fst snd] in *.
  Ltac inshift := cbn; repeat ((left; f_equal; lia) || right).

  (* neighbouring data qubits of a row share an X stabilizer, those of a column a Z stabilizer *)
  Lemma row_step r c q q' : dpos dx dz (r, c) -> dpos dx dz (r, c + 2) -> at_ (r, c) q -> at_ (r, c + 2) q' -> reach l q q'.
  Proof.
    intros D D' A A'. assert (E : exists s, (s = 1 \/ s = -1) /\ xpos dx dz (r + s, c + 1)).
    { kp. assert (M : (r + 1 + (c + 1)) mod 4 = 2 \/ (r - 1 + (c + 1)) mod 4 = 2) by lia. destruct M; [exists 1|exists (-1)]; lia. }
    destruct E as (s & Hs & X). destruct (at_ex KX _ X) as [m M].
    apply (reach_trans _ _ m).
    - apply (at_step KD KX (r, c) (r + s, c + 1)); auto. cbn [fst snd]. destruct Hs as [-> | ->]; inshift.
    - apply (at_step KX KD (r + s, c + 1) (r, c + 2)); auto. cbn [fst snd]. destruct Hs as [-> | ->]; inshift.
  Qed.
  Lemma col_step r c q q' : dpos dx dz (r, c) -> dpos dx dz (r + 2, c) -> at_ (r, c) q -> at_ (r + 2, c) q' -> reach l q q'.
  Proof.
    intros D D' A A'. assert (E : exists s, (s = 1 \/ s = -1) /\ zpos dx dz (r + 1, c + s)).
    { kp. assert (M : (r + 1 + (c + 1)) mod 4 = 0 \/ (r + 1 + (c - 1)) mod 4 = 0) by lia. destruct M; [exists 1|exists (-1)]; lia. }
    destruct E as (s & Hs & X). destruct (at_ex KZ _ X) as [m M].
    apply (reach_trans _ _ m).
    - apply (at_step KD KZ (r, c) (r + 1, c + s)); auto. cbn [fst snd]. destruct Hs as [-> | ->]; inshift.
    - apply (at_step KZ KD (r + 1, c + s) (r + 2, c)); auto. cbn [fst snd]. destruct Hs as [-> | ->]; inshift.
  Qed.
  Lemma to_row n : forall r q q', at_ (r, 1) q -> at_ (r, 1 + 2 * Z.of_nat n) q' -> dpos dx dz (r, 1) -> dpos dx dz (r, 1 + 2 * Z.of_nat n) -> reach l q q'.
  Proof.
    induction n as [|n IH]; intros r q q' A A' D D'.
    - rewrite (at_one (r, 1) q q'); [constructor|exact A|exact A'].
    - assert (D1 : dpos dx dz (r, 1 + 2 * Z.of_nat n)) by (kp; lia). destruct (at_ex KD _ D1) as [m M].
      apply (reach_trans _ _ m); [now apply (IH r)|]. apply (row_step r (1 + 2 * Z.of_nat n)); auto.
      + replace (1 + 2 * Z.of_nat n + 2) with (1 + 2 * Z.of_nat (S n)) by lia. exact D'.
      + replace (1 + 2 * Z.of_nat n + 2) with (1 + 2 * Z.of_nat (S n)) by lia. exact A'.
  Qed.
  Lemma to_col n : forall q q', at_ (1, 1) q -> at_ (1 + 2 * Z.of_nat n, 1) q' -> dpos dx dz (1 + 2 * Z.of_nat n, 1) -> reach l q q'.
  Proof.
    induction n as [|n IH]; intros q q' A A' D'.
    - rewrite (at_one (1, 1) q q'); [constructor|exact A|exact A'].
    - assert (D1 : dpos dx dz (1 + 2 * Z.of_nat n, 1)) by (kp; lia). destruct (at_ex KD _ D1) as [m M].
      apply (reach_trans _ _ m); [now apply IH|]. apply (col_step (1 + 2 * Z.of_nat n) 1); auto.
      + replace (1 + 2 * Z.of_nat n + 2) with (1 + 2 * Z.of_nat (S n)) by lia. exact D'.
      + replace (1 + 2 * Z.of_nat n + 2) with (1 + 2 * Z.of_nat (S n)) by lia. exact A'.
  Qed.
  Lemma from_corner q0 r c q : at_ (1, 1) q0 -> dpos dx dz (r, c) -> at_ (r, c) q -> reach l q0 q.
  Proof.
    intros A D Q. assert (Dr : dpos dx dz (r, 1)) by (kp; lia). destruct (at_ex KD _ Dr) as [m M].
    assert (Er : r = 1 + 2 * Z.of_nat (Z.to_nat ((r - 1) / 2))) by (kp; lia). assert (Ec : c = 1 + 2 * Z.of_nat (Z.to_nat ((c - 1) / 2))) by (kp; lia).
    apply (reach_trans _ _ m).
    - rewrite Er in M, Dr. now apply (to_col _ q0 m A M).
    - rewrite Ec in Q, D. now apply (to_row _ r m q M Q).
  Qed.
  Lemma corner_reach q0 p : at_ (1, 1) q0 -> In p ps -> reach l q0 (pl_lab p).
  Proof.
    intros A Hp. pose proof (ps_kpos a p Hp) as K. assert (Ap : at_ (pos p) (pl_lab p)) by (exists p; auto).
    destruct (pos p) as [r c] eqn:E.
    assert (G : forall s t, (s = 1 \/ s = -1) -> (t = 1 \/ t = -1) -> dpos dx dz (r + s, c + t) -> reach l q0 (pl_lab p)).
    { intros s t Hs Ht D. destruct (at_ex KD _ D) as [m M]. apply (reach_trans _ _ m); [now apply (from_corner q0 (r + s) (c + t))|].
      apply (at_step KD (knd p) (r + s, c + t) (r, c)); auto. cbn [fst snd]. destruct Hs as [-> | ->], Ht as [-> | ->]; inshift. }
    destruct (knd p); cbn [kpos] in K.
    - apply (from_corner q0 r c); assumption.
    - assert (M : dpos dx dz (r + 1, c + 1) \/ dpos dx dz (r + -1, c + 1)) by (kp; lia). destruct M as [M|M]; (eapply G; [| |exact M]); lia.
    - assert (M : dpos dx dz (r + 1, c + 1) \/ dpos dx dz (r + 1, c + -1)) by (kp; lia). destruct M as [M|M]; (eapply G; [| |exact M]); lia.
  Qed.
  Lemma rot_connected p q : In p ps -> In q ps -> reach l (pl_lab p) (pl_lab q).
  Proof.
    intros Hp Hq. assert (D : dpos dx dz (1, 1)) by (kp; lia). destruct (at_ex KD _ D) as [m M].
    apply (reach_trans _ _ m); [apply reach_sym|]; now apply corner_reach.
  Qed.
End Rot.

(** * The generated rotated codes *)
Section Gen.
  Context (a : gen_args) (l : layout).
  Hypothesis Hx : 1 <= ga_dx a.
  Hypothesis Hz : 1 <= ga_dz a.
  Hypothesis G : rot_surface_code_rectangle a = Ok l.
  Local Notation ps := (rot_ps a).
  Lemma gen_planar : planar l rot_shifts rot_dirn (rot_pt a) ps.
  Proof. apply (rot_after a l l G), touched_refl. Qed.
  Definition zplace (q : string) : Z * Z := match find (fun p => eqb (pl_lab p) q) ps with Some p => pos p | None => (0, 0) end.
  Lemma zplace_lab p : In p ps -> zplace (pl_lab p) = pos p.
  Proof.
    intros Hp. unfold zplace. destruct (find _ ps) as [p'|] eqn:E.
    - apply find_some in E as [Hp' E]. destruct (eqb_spec (pl_lab p') (pl_lab p)) as [E'|]; [clear E; rename E' into E|discriminate]. f_equal. pose proof (pn_nlab _ _ _ _ _ gen_planar) as N.
      clear - N Hp Hp' E. induction ps as [|x r IH]; [destruct Hp|]. cbn [map] in N. inversion N as [|? ? N1 N2]; subst.
      destruct Hp as [->|Hp], Hp' as [->|Hp']; auto.
      + exfalso. apply N1. rewrite <- E. now apply in_map.
      + exfalso. apply N1. rewrite E. now apply in_map.
    - exfalso. eapply find_none in E; [|exact Hp]. now rewrite eqb_refl in E.
  Qed.
  Lemma gen_follows : follows_directions l zplace.
  Proof.
    intros q nb d H. unfold get_neighbors in H. apply in_map_iff in H as ([x y] & E & H). cbn [snd] in E. subst y.
    apply (pn_dir _ _ _ _ _ gen_planar) in H as [[<-|[]] (p & p' & [s1 s2] & Hp & Hp' & Hs & <- & <- & -> & E)].
    rewrite !zplace_lab by assumption. exists s1, s2. split; [|now rewrite E].
    cbn in Hs. destruct Hs as [[= <- <-]|[[= <- <-]|[[= <- <-]|[[= <- <-]|[]]]]]; cbn; auto.
  Qed.
  Lemma gen_coords p : In p ps -> lparam l "coords" (pl_lab p) = Ok (PList (map PNum [(zq (fst (pos p)) + fst (rot_pt a))%Qc; (zq (snd (pos p)) + snd (rot_pt a))%Qc])).
  Proof. intros Hp. exact (pn_coord _ _ _ _ _ gen_planar p Hp). Qed.
  Lemma gen_last q0 : last_qubit l q0 -> exists p0, In p0 ps /\ pl_lab p0 = q0.
  Proof.
    intros [pre E]. rewrite (pn_nodes _ _ _ _ _ gen_planar) in E. assert (I : In q0 (map pl_lab ps)) by (rewrite E; apply in_or_app; right; now left).
    apply in_map_iff in I as (p & <- & Hp). now exists p.
  Qed.
  Lemma gen_set q0 n l' : last_qubit l q0 -> set_coords n l true = Ok l' ->
    only_set "coords" l l' /\ forall q x y x0 y0, lparam l "coords" q = Ok (PList (map PNum [x; y])) ->
      lparam l "coords" q0 = Ok (PList (map PNum [x0; y0])) -> lparam l' "coords" q = Ok (PList (map PNum [(x - x0)%Qc; (y - y0)%Qc])).
  Proof.
    intros L H. destruct (set_gives l true q0 L (or_introl eq_refl) zplace n l' gen_follows H) as (O & R & _).
    split; [exact O|]. intros q x y x0 y0 Eq E0. destruct (gen_last q0 L) as (p0 & Hp0 & <-).
    assert (Q : exists p, In p ps /\ pl_lab p = q).
    { assert (K : In q (map fst (l_nodes l))).
      { unfold lparam, dget_err in Eq. destruct (dget q (l_nodes l)) as [v|] eqn:E; [|discriminate]. apply dget_In in E. change q with (fst (q, v)). now apply in_map. }
      rewrite (pn_nodes _ _ _ _ _ gen_planar) in K. apply in_map_iff in K as (p & <- & Hp). now exists p. }
    destruct Q as (p & Hp & <-). rewrite R by (apply rot_connected with a; auto; apply gen_planar). rewrite !zplace_lab by assumption.
    assert (I : forall x y u v : Qc, Ok (PList (map PNum [x; y])) = Ok (PList (map PNum [u; v])) -> x = u /\ y = v) by (clear; intros x y u v E; injection E; auto).
    rewrite gen_coords in Eq, E0 by assumption. apply I in Eq as [<- <-], E0 as [<- <-].
    unfold int_list. cbn [map]. 
    assert (S : forall u v : Z, forall t : Qc, Q2Qc (inject_Z (u - v)) = (zq u + t - (zq v + t))%Qc).
    { intros u v t. change (Q2Qc (inject_Z (u - v))) with (zq (u - v)). pose proof (zq_add (u - v) v) as A. replace (u - v + v) with u in A by lia. rewrite A. ring. }
    rewrite (S (fst (pos p)) (fst (pos p0)) (fst (rot_pt a))), (S (snd (pos p)) (snd (pos p0)) (snd (rot_pt a))). reflexivity.
  Qed.
End Gen.
Lemma C78_rot_lemma a l q0 : rot_surface_code_rectangle a = Ok l -> 1 <= ga_dx a -> 1 <= ga_dz a -> last_qubit l q0 ->
  exists l', gives (fun n => set_coords n l true) l' /\ only_set "coords" l l' /\
    forall q x y x0 y0, lparam l "coords" q = Ok (PList (map PNum [x; y])) -> lparam l "coords" q0 = Ok (PList (map PNum [x0; y0])) ->
      lparam l' "coords" q = Ok (PList (map PNum [(x - x0)%Qc; (y - y0)%Qc])).
Proof.
  intros G Hx Hz L. destruct (set_ends l true q0 (pn_wf _ _ _ _ _ (gen_planar a l G)) L (or_introl eq_refl)) as (l' & n & H).
  exists l'. split; [exists n; exact H|]. exact (gen_set a l Hx Hz G q0 n l' L (H n (le_n _))).
Qed.
