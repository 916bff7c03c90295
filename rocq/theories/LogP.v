(** Proofs about the transversal gates, part 1: setting one attribute of the qubits
    changes nothing else in a layout. *)
From Coq Require Import QArith Qcanon.
From Verif Require Import Base Lib StimM LayoutM SpecLayout LayoutP LayoutP2 GenM GenP SpecGen GeomP BlockM SpecTrack SpecLog LogM.
Open Scope Z_scope.

Definition same_node (keep : list string) (x y : string * attrs) : Prop :=
  fst x = fst y /\ forall k, In k keep -> dget k (snd y) = dget k (snd x).
Definition touched (keep : list string) (l l' : layout) : Prop :=
  exists n, l' = with_nodes l n /\ Forall2 (same_node keep) (l_nodes l) n.

Lemma same_node_refl keep x : same_node keep x x.
Proof. split; auto. Qed.
Lemma Forall2_same {A} (R : A -> A -> Prop) l : (forall x, R x x) -> Forall2 R l l.
Proof. intros H. induction l; constructor; auto. Qed.
Lemma touched_refl keep l : touched keep l l.
Proof. exists (l_nodes l). split; [now destruct l|]. apply Forall2_same, same_node_refl. Qed.
Lemma touched_trans keep a b c : touched keep a b -> touched keep b c -> touched keep a c.
Proof.
  intros (n & -> & F) (n' & -> & G). exists n'. split; [reflexivity|]. cbn [with_nodes l_nodes] in G.
  revert n' G. induction F as [|x y l m H F IH]; intros n' G; inversion G as [|? z ? ? H' G']; subst; constructor.
  - destruct H as [E K], H' as [E' K']. split; [congruence|]. intros k N. rewrite K', K; auto.
  - auto.
Qed.
Lemma touched_incl keep keep' l l' : incl keep' keep -> touched keep l l' -> touched keep' l l'.
Proof.
  intros I (n & -> & F). exists n. split; [reflexivity|]. clear -F I. induction F as [|x y a b [E K] F IH]; constructor; auto.
  split; [exact E|]. intros k Hk. apply K, I, Hk.
Qed.
Lemma lset_touched keep l p q v l' : lset_param l p q v = Ok l' -> ~ In p keep -> touched keep l l'.
Proof.
  unfold lset_param. intros H Np. apply bind_ok in H as [a [Ea H]]. injection H as <-.
  unfold dget_err in Ea. destruct (dget q (l_nodes l)) as [a'|] eqn:E; [|discriminate]. injection Ea as ->.
  exists (dset q (dset p v a) (l_nodes l)). split; [reflexivity|].
  induction (l_nodes l) as [|[k b] n IH]; simpl in *; [discriminate|]. destruct (eqb_spec q k) as [->|N].
  + injection E as ->. constructor; [|apply Forall2_same, same_node_refl].
    split; [reflexivity|]. intros k' N. cbn [snd]. apply dget_dset_other. congruence.
  + constructor; [apply same_node_refl|auto].
Qed.
Lemma lset_get l p q v l' : lset_param l p q v = Ok l' -> lparam l' p q = Ok v.
Proof.
  unfold lset_param. intros H. apply bind_ok in H as [a [Ea H]]. injection H as <-.
  unfold lparam, dget_err. cbn [with_nodes l_nodes]. rewrite dget_dset_same. cbn [of_opt bind].
  now rewrite dget_dset_same.
Qed.
Lemma lset_other l p q v l' q' : lset_param l p q v = Ok l' -> q' <> q -> lparam l' p q' = lparam l p q'.
Proof.
  unfold lset_param. intros H N. apply bind_ok in H as [a [Ea H]]. injection H as <-.
  unfold lparam, dget_err. cbn [with_nodes l_nodes]. rewrite dget_dset_other by congruence. reflexivity.
Qed.
Lemma set_params_ok keep gate value qs : ~ In gate keep -> forall l l', set_params gate value qs l = Ok l' ->
  touched keep l l' /\
  (forall q, In q qs -> exists v, value q = Ok v /\ lparam l' gate q = Ok v) /\
  (forall q, ~ In q qs -> lparam l' gate q = lparam l gate q).
Proof.
  unfold set_params. intros Nk. induction qs as [|q qs IH]; intros l l' H; cbn [foldM] in H.
  - injection H as <-. split; [apply touched_refl|]. split; [intros q []|auto].
  - apply bind_ok in H as [l1 [H1 H]]. apply bind_ok in H1 as [v [Ev H1]].
    destruct (IH _ _ H) as (T & V & O). pose proof (lset_touched keep _ _ _ _ _ H1 Nk) as T1. pose proof (lset_get _ _ _ _ _ H1) as L1.
    split; [eapply touched_trans; eauto|]. split.
    + intros q' [<-|Hq].
      * destruct (mem q qs) eqn:M; [apply mem_In in M; auto|]. exists v. split; [exact Ev|].
        rewrite O; [exact L1|]. intros Hq. apply mem_In in Hq. congruence.
      * auto.
    + intros q' Hn. rewrite O by (intros Hq; apply Hn; now right). eapply lset_other; [exact H1|].
      intros ->. apply Hn. now left.
Qed.
Lemma annotated_touched keep l l' : annotated keep l l' -> touched keep l l'.
Proof.
  induction 1 as [|l p q v l1 l2 N H A IH]; [apply touched_refl|]. eapply touched_trans; [|exact IH].
  eapply lset_touched; eauto.
Qed.

Section Touched.
  Context (keep : list string) (l l' : layout).
  Hypothesis T : touched keep l l'.
  Lemma touched_keys : dkeys (l_nodes l') = dkeys (l_nodes l).
  Proof.
    destruct T as (n & -> & F). cbn [with_nodes l_nodes]. clear -F. induction F as [|x y a b [E _] F IH]; [reflexivity|].
    change (fst y :: dkeys b = fst x :: dkeys a). congruence.
  Qed.
  Lemma touched_fields : l_code l' = l_code l /\ l_logs l' = l_logs l /\ l_dz l' = l_dz l /\ l_dx l' = l_dx l /\
    l_logz l' = l_logz l /\ l_logx l' = l_logx l /\ l_inds l' = l_inds l /\ l_adj l' = l_adj l /\ l_order l' = l_order l.
  Proof. destruct T as (n & -> & F). repeat split. Qed.
  Lemma touched_first : first_log l' = first_log l.
  Proof. destruct T as (n & -> & F). reflexivity. Qed.
  Lemma touched_param p q : In p keep -> lparam l' p q = lparam l p q.
  Proof.
    intros N. destruct T as (n & -> & F). unfold lparam, dget_err. cbn [with_nodes l_nodes]. clear -F N.
    induction F as [|[k x] [k' y] a b [E K] F IH]; [reflexivity|]. cbn [fst snd dget] in *. subst k'.
    destruct (eqb q k); [|exact IH]. cbn [of_opt bind]. now rewrite K.
  Qed.
  Lemma touched_qubits conds : incl (dkeys conds) keep -> get_qubits l' conds = get_qubits l conds.
  Proof.
    intros N. unfold get_qubits. rewrite touched_keys. destruct conds as [|c cs]; [reflexivity|].
    set (C := c :: cs) in *. clearbody C. f_equal. destruct T as (n & -> & F). cbn [with_nodes l_nodes]. clear -F N.
    induction F as [|[k x] [k' y] a b [E K] F IH]; [reflexivity|]. cbn [fst snd mapM] in *. subst k'.
    replace (valid_attrs y C) with (valid_attrs x C); [now rewrite IH|].
    clear -N K. induction C as [|[p v] C IH]; [reflexivity|]. cbn [valid_attrs]. unfold dget_err.
    rewrite K by (apply N; now left). rewrite IH by (intros x' H; apply N; now right). reflexivity.
  Qed.
  Lemma touched_pairs qs d : get_pairs l' qs d = get_pairs l qs d.
  Proof. destruct T as (n & -> & F). reflexivity. Qed.
  Lemma touched_nbrs qs d : get_neighbors l' qs d = get_neighbors l qs d.
  Proof. destruct T as (n & -> & F). reflexivity. Qed.
  Lemma touched_inds qs : lay_inds l' qs = lay_inds l qs.
  Proof. destruct T as (n & -> & F). reflexivity. Qed.
  Hypothesis Hk : incl structure keep.
  Lemma touched_role r : get_role l' r = get_role l r.
  Proof. apply touched_qubits. intros k [<-|[]]. apply Hk. now left. Qed.
  Lemma touched_stabs t : get_stabs l' t = get_stabs l t.
  Proof. apply touched_qubits. intros k [<-|[<-|[]]]; apply Hk; cbn; tauto. Qed.
  Lemma touched_type t a : of_type l' t a = of_type l t a.
  Proof. unfold of_type. now rewrite touched_stabs. Qed.
  Lemma touched_css a : css l' a = css l a.
  Proof. unfold css, support. rewrite !touched_type. now rewrite touched_nbrs. Qed.
  Lemma touched_wf : wf l -> wf l'.
  Proof.
    assert (Hi : In "ind" keep) by (apply Hk; cbn; tauto). assert (Hq : In "qubit" keep) by (apply Hk; cbn; tauto).
    intros [W1 W2 W3 W4 W5 W6]. pose proof touched_keys as Hks. destruct T as (n & -> & F).
    constructor; cbn [with_nodes l_logs l_logz l_logx l_nodes l_adj l_inds] in *; auto.
    - now rewrite Hks.
    - now rewrite Hks.
    - eapply Forall_impl; [|exact W4]. intros qe (A & B & C). unfold row_wf. rewrite Hks. auto.
    - rewrite <- W5. f_equal. clear -F Hi. unfold raw_inds.
      induction F as [|[k x] [k' y] a b [E K] F IH]; [reflexivity|]. cbn [fst snd map] in *. subst k'. rewrite IH. now rewrite K.
    - clear -F Hq W6. induction F as [|[k x] [k' y] a b [E K] F IH]; [constructor|]. inversion W6; subst.
      constructor; [|auto]. cbn [snd] in *. now rewrite K.
  Qed.
  Lemma touched_planar shifts dirn pt ps : planar l shifts dirn pt ps -> planar l' shifts dirn pt ps.
  Proof.
    assert (Hc : In "coords" keep) by (apply Hk; cbn; tauto). assert (Hn : In "neighbors" keep) by (apply Hk; cbn; tauto).
    intros [P1 P2 P3 P4 P5 P6 P7 P8 P9 P10 P11 P12 P13 P14 P15 P16]. constructor; auto.
    - now apply touched_wf.
    - etransitivity; [apply touched_keys|exact P2].
    - now rewrite touched_role.
    - now rewrite touched_role.
    - now rewrite touched_stabs.
    - now rewrite touched_stabs.
    - intros qs. rewrite touched_inds. apply P10.
    - intros p Hp. specialize (P11 p Hp). unfold has_coord in *. rewrite touched_param; [exact P11|exact Hc].
    - intros qs a d b. rewrite touched_pairs. apply P14.
    - intros qs a b. rewrite touched_pairs. apply P15.
    - intros p Hp. destruct (P16 p Hp) as (row & E & K). exists row. split; [rewrite touched_param; [exact E|exact Hn]|exact K].
  Qed.
End Touched.
