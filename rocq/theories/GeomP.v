(** Proofs about layouts whose qubits are on a grid: parities of operators on the
    neighbours of a qubit. *)
From Coq Require Import QArith Qcanon.
From Verif Require Import Base Lib StimM LayoutM SpecLayout LayoutP LayoutP2 GenM GenP SpecGen.
Open Scope Z_scope.

(** * Parities *)
Lemma xorl_app a b : xorl (a ++ b) = xorb (xorl a) (xorl b).
Proof. unfold xorl. induction a as [|x a IH]; simpl; [now destruct (fold_right _ _ b)|]. rewrite IH. now rewrite xorb_assoc. Qed.
Lemma xorl_cons x a : xorl (x :: a) = xorb x (xorl a).
Proof. reflexivity. Qed.
Lemma even_weight op qs : Nat.even (weight op qs) = negb (xorl (map op qs)).
Proof.
  unfold weight. induction qs as [|q qs IH]; [reflexivity|]. cbn [filter map]. rewrite xorl_cons.
  destruct (op q); cbn [length]; [|rewrite IH; now destruct (xorl _)].
  rewrite Nat.even_succ, <- Nat.negb_even, IH. now destruct (xorl _).
Qed.
Lemma commutes_xor op qs : commutes op qs <-> xorl (map op qs) = false.
Proof. unfold commutes. rewrite even_weight, negb_true_iff. reflexivity. Qed.
Lemma not_commutes_xor op qs : ~ commutes op qs <-> xorl (map op qs) = true.
Proof. rewrite commutes_xor. destruct (xorl _); split; congruence. Qed.
Lemma xorl_perm l l' : Permutation l l' -> xorl l = xorl l'.
Proof.
  induction 1; rewrite ?xorl_cons; try congruence. rewrite <- !xorb_assoc. f_equal. apply xorb_comm.
Qed.
Lemma xorl_flat {A} (f : A -> list bool) l : xorl (flat_map f l) = xorl (map (fun a => xorl (f a)) l).
Proof. induction l as [|a l IH]; [reflexivity|]. cbn [flat_map map]. now rewrite xorl_app, xorl_cons, IH. Qed.
Lemma xorl_false l : (forall b, In b l -> b = false) -> xorl l = false.
Proof. induction l as [|a l IH]; [reflexivity|]. intros H. rewrite xorl_cons, IH by (intros b Hb; apply H; now right). now rewrite (H a) by now left. Qed.
Lemma xorl_true l : xorl l = true -> In true l.
Proof. induction l as [|a l IH]; [discriminate|]. rewrite xorl_cons. destruct a; [now left|]. intros H. right. apply IH. now destruct (xorl l). Qed.
(* sum of [h 0], ..., [h (n-1)] *)
Definition xs (n : nat) (h : nat -> bool) : bool := xorl (map h (seq 0 n)).
Lemma xs_S n h : xs (S n) h = xorb (xs n h) (h n).
Proof. unfold xs. rewrite seq_S, map_app, xorl_app. simpl. now rewrite xorb_false_r. Qed.
Lemma xs_0 h : xs 0 h = false.
Proof. reflexivity. Qed.
Lemma xs_xor n f g : xs n (fun k => xorb (f k) (g k)) = xorb (xs n f) (xs n g).
Proof. induction n as [|n IH]; [reflexivity|]. rewrite !xs_S, IH. destruct (xs n f), (xs n g), (f n), (g n); reflexivity. Qed.
Lemma xs_true n h : xs n h = true -> exists k, (k < n)%nat /\ h k = true.
Proof.
  intros H. apply xorl_true in H. apply in_map_iff in H as (k & E & Hk). apply in_seq in Hk. exists k. split; [lia|exact E].
Qed.
Lemma xs_ext n f g : (forall k, (k < n)%nat -> f k = g k) -> xs n f = xs n g.
Proof. intros H. unfold xs. f_equal. apply map_ext_in. intros k Hk. apply in_seq in Hk. apply H. lia. Qed.

(* adjacent terms are paired *)
Lemma pair_sum (h : nat -> bool) n par :
  (forall j, (j <= n)%nat -> Nat.even j = par ->
     (if (j =? 0)%nat then false else h (j - 1)%nat) = (if (j =? n)%nat then false else h j)) ->
  xs n h = false.
Proof.
  intros H.
  assert (G : forall k, (k <= n)%nat ->
    xs k h = if Bool.eqb (Nat.even k) par then (if (k =? n)%nat then false else h k) else false).
  { induction k as [|k IH]; intros Hk.
    - rewrite xs_0. destruct (Bool.eqb (Nat.even 0) par) eqn:E; [|reflexivity].
      apply eqb_prop in E. pose proof (H 0%nat Hk E) as H0. exact H0.
    - rewrite xs_S, IH by lia. destruct (Bool.eqb (Nat.even (S k)) par) eqn:E.
      + apply eqb_prop in E. pose proof (H (S k) Hk E) as H0. rewrite Nat.even_succ, <- Nat.negb_even in E.
        assert (E2 : Bool.eqb (Nat.even k) par = false) by (rewrite <- E; now destruct (Nat.even k)).
        rewrite E2. simpl in H0. rewrite Nat.sub_0_r in H0. rewrite xorb_false_l. exact H0.
      + assert (E2 : Bool.eqb (Nat.even k) par = true).
        { rewrite Nat.even_succ, <- Nat.negb_even in E. destruct (Nat.even k), par; auto; discriminate. }
        rewrite E2. destruct (Nat.eqb_spec k n); [lia|]. apply xorb_nilpotent. }
  rewrite G by lia. rewrite Nat.eqb_refl. now destruct (Bool.eqb _ _).
Qed.
(* a telescoping sum *)
Lemma telescope (h v : nat -> bool) n :
  (forall j, (j < n)%nat -> h j = xorb (v j) (if (j =? 0)%nat then false else v (j - 1)%nat)) ->
  xs n h = if (n =? 0)%nat then false else v (n - 1)%nat.
Proof.
  induction n as [|n IH]; intros H; [reflexivity|]. rewrite xs_S, IH, H by (intros; try apply H; lia).
  simpl. rewrite Nat.sub_0_r. destruct (v n), (n =? 0)%nat; simpl; try reflexivity; now destruct (v (n - 1)%nat).
Qed.

(** * Reading an operator at a position *)
Definition at_pos (ps : list placed) (rc : Z * Z) : list placed := filter (fun q => eqb (pos q) rc) ps.
Definition fv (ps : list placed) (op : string -> bool) (rc : Z * Z) : bool :=
  xorl (map (fun q => op (pl_lab q)) (at_pos ps rc)).
Lemma at_pos_one ps p : NoDup (map pos ps) -> In p ps -> at_pos ps (pos p) = [p].
Proof.
  unfold at_pos. induction ps as [|q ps IH]; intros N Hp; [destruct Hp|]. cbn [map] in N.
  inversion N as [|? ? Hn N']; subst. cbn [filter]. destruct (eqb_spec (pos q) (pos p)) as [E|Ne].
  - destruct Hp as [->|Hp]; [|exfalso; apply Hn; rewrite E; now apply in_map]. f_equal.
    clear -Hn. induction ps as [|q ps IH]; [reflexivity|]. cbn [filter map] in *.
    destruct (eqb_spec (pos q) (pos p)) as [E|]; [exfalso; apply Hn; now left|]. apply IH. intros H. apply Hn. now right.
  - destruct Hp as [->|Hp]; [congruence|]. now apply IH.
Qed.
Lemma fv_at ps op p : NoDup (map pos ps) -> In p ps -> fv ps op (pos p) = op (pl_lab p).
Proof. intros N Hp. unfold fv. rewrite at_pos_one by assumption. simpl. now destruct (op _). Qed.
Lemma fv_none ps op rc : (forall q, In q ps -> pos q <> rc) -> fv ps op rc = false.
Proof.
  intros H. unfold fv. replace (at_pos ps rc) with (@nil placed); [reflexivity|]. unfold at_pos. symmetry.
  induction ps as [|q ps IH]; [reflexivity|]. cbn [filter]. destruct (eqb_spec (pos q) rc) as [E|]; [destruct (H q (or_introl eq_refl) E)|].
  apply IH. intros q' Hq. apply H. now right.
Qed.
Lemma fv_true ps op rc : fv ps op rc = true -> exists q, In q ps /\ pos q = rc /\ op (pl_lab q) = true.
Proof.
  intros H. apply xorl_true in H. apply in_map_iff in H as (q & E & Hq). apply filter_In in Hq as [Hq Ep].
  apply eqb_true in Ep. eauto.
Qed.

Lemma NoDup_app_intro {A} (x y : list A) : NoDup x -> NoDup y -> (forall p, In p x -> ~ In p y) -> NoDup (x ++ y).
Proof.
  induction x as [|p x IH]; intros Nx Ny D; [exact Ny|]. inversion Nx; subst. simpl. constructor.
  - rewrite in_app_iff. intros [Hi|Hi]; [tauto|]. apply (D p); [now left|exact Hi].
  - apply IH; auto. intros p' Hp. apply D. now right.
Qed.
Lemma NoDup_flat_map {A B} (f : A -> list B) l : NoDup l -> (forall a, In a l -> NoDup (f a)) ->
  (forall a a' b, In a l -> In a' l -> In b (f a) -> In b (f a') -> a = a') -> NoDup (flat_map f l).
Proof.
  induction l as [|a l IH]; intros N F D; [constructor|]. inversion N as [|? ? Hn N']; subst. cbn [flat_map].
  apply NoDup_app_intro; [apply F; now left| |].
  - apply IH; [exact N'|intros; apply F; now right|]. intros a1 a2 b H1 H2. apply D; now right.
  - intros b Hb Hb'. apply in_flat_map in Hb' as (a' & Ha & Hb'). apply Hn.
    rewrite (D a a' b); auto; [now left|now right].
Qed.

Section Planar.
  Context (l : layout) (shifts : list (Z * Z)) (dirn : Z * Z -> string) (pt : Qc * Qc) (ps : list placed).
  Hypothesis P : planar l shifts dirn pt ps.
  Hypothesis Ns : NoDup shifts.

  Lemma lab_eq p q : In p ps -> In q ps -> pl_lab p = pl_lab q -> p = q.
  Proof.
    intros Hp Hq E. pose proof (pn_nlab _ _ _ _ _ P) as N. revert Hp Hq N. generalize ps. intros k.
    induction k as [|a k IH]; intros Hp Hq N; [destruct Hp|]. cbn [map] in N. inversion N as [|? ? Hn N']; subst.
    destruct Hp as [->|Hp], Hq as [->|Hq]; auto; exfalso; apply Hn; [rewrite E|rewrite <- E]; now apply in_map.
  Qed.
  Lemma pos_eq p q : In p ps -> In q ps -> pos p = pos q -> p = q.
  Proof.
    intros Hp Hq E. pose proof (pn_npos _ _ _ _ _ P) as N. revert Hp Hq N. generalize ps. intros k.
    induction k as [|a k IH]; intros Hp Hq N; [destruct Hp|]. cbn [map] in N. inversion N as [|? ? Hn N']; subst.
    destruct Hp as [->|Hp], Hq as [->|Hq]; auto; exfalso; apply Hn; [rewrite E|rewrite <- E]; now apply in_map.
  Qed.
  Definition nbrs (p : placed) : list placed := flat_map (fun s => at_pos ps (padd (pos p) s)) shifts.
  Lemma padd_inj p s s' : padd p s = padd p s' -> s = s'.
  Proof. destruct p, s, s'. unfold padd; simpl. intros [= E1 E2]. f_equal; lia. Qed.
  Lemma nbrs_In p q : In q (nbrs p) <-> In q ps /\ exists s, In s shifts /\ pos q = padd (pos p) s.
  Proof.
    unfold nbrs, at_pos. rewrite in_flat_map. split.
    - intros (s & Hs & H). apply filter_In in H as [Hq E]. apply eqb_true in E. eauto.
    - intros (Hq & s & Hs & E). exists s. split; [exact Hs|]. apply filter_In. split; [exact Hq|]. apply eqb_eq. exact E.
  Qed.
  Lemma nbrs_nodup p : NoDup (nbrs p).
  Proof.
    apply NoDup_flat_map; [exact Ns| |].
    - intros s _. apply NoDup_filter. eapply NoDup_map_inv. apply (pn_npos _ _ _ _ _ P).
    - intros s s' q _ _ H H'. apply filter_In in H as [_ H], H' as [_ H']. apply eqb_true in H, H'.
      rewrite H in H'. now apply padd_inj in H'.
  Qed.
  Lemma support_perm p : In p ps -> Permutation (support l (pl_lab p)) (map pl_lab (nbrs p)).
  Proof.
    intros Hp. unfold support, get_neighbors.
    assert (F : forall x, In x (get_pairs l [pl_lab p] None) -> fst x = pl_lab p).
    { intros [a b] H. apply (pn_any _ _ _ _ _ P) in H as [[<-|[]] _]. reflexivity. }
    apply NoDup_Permutation.
    - pose proof (get_pairs_nodup l [pl_lab p] None (pn_wf _ _ _ _ _ P)) as N. revert F N. generalize (get_pairs l [pl_lab p] None).
      intros k. induction k as [|[a b] k IH]; intros F N; [constructor|]. inversion N as [|? ? Hn N']; subst. cbn [map snd].
      constructor; [|apply IH; [intros x Hx; apply F; now right|exact N']].
      intros H. apply in_map_iff in H as ([a' b'] & E & H). simpl in E. subst b'. apply Hn.
      pose proof (F (a, b) (or_introl eq_refl)) as E1. pose proof (F (a', b) (or_intror H)) as E2. simpl in *. congruence.
    - assert (N : NoDup (nbrs p)) by apply nbrs_nodup.
      assert (I : forall q, In q (nbrs p) -> In q ps) by (intros q H; now apply nbrs_In in H).
      revert N I. generalize (nbrs p). intros k. induction k as [|q k IH]; intros N I; [constructor|]. cbn [map].
      inversion N as [|? ? Hn N']; subst. constructor; [|apply IH; auto; intros x Hx; apply I; now right].
      intros H. apply in_map_iff in H as (q' & E & H). apply lab_eq in E; [subst; contradiction|apply I; now right|apply I; now left].
    - intros b. rewrite !in_map_iff. split.
      + intros ([a b'] & E & H). simpl in E. subst b'. apply (pn_any _ _ _ _ _ P) in H as [[<-|[]] (d & p' & q & s & Hp' & Hq & Hs & L & <- & -> & E)].
        apply (lab_eq _ _ Hp' Hp) in L as ->. exists q. split; [reflexivity|]. apply nbrs_In. eauto.
      + intros (q & <- & H). apply nbrs_In in H as (Hq & s & Hs & E). exists (pl_lab p, pl_lab q). split; [reflexivity|].
        apply (pn_any _ _ _ _ _ P). split; [now left|]. exists (dirn s), p, q, s. do 3 (split; [assumption|]). auto.
  Qed.
  Lemma support_xor op p : In p ps ->
    xorl (map op (support l (pl_lab p))) = xorl (map (fun s => fv ps op (padd (pos p) s)) shifts).
  Proof.
    intros Hp. rewrite (xorl_perm _ _ (Permutation_map op (support_perm p Hp))).
    unfold nbrs, fv. rewrite map_map. generalize shifts as ss. clear. induction ss as [|s ss IH]; [reflexivity|]. cbn [flat_map map].
    rewrite map_app, xorl_app, IH, xorl_cons. reflexivity.
  Qed.
  Lemma support_mem p b : In p ps -> In b (support l (pl_lab p)) <->
    exists q s, In q ps /\ In s shifts /\ pl_lab q = b /\ pos q = padd (pos p) s.
  Proof.
    intros Hp. split.
    - intros H. eapply Permutation_in in H; [|now apply support_perm]. apply in_map_iff in H as (q & <- & H).
      apply nbrs_In in H as (Hq & s & Hs & E). exists q, s. auto.
    - intros (q & s & Hq & Hs & <- & E). eapply Permutation_in; [symmetry; now apply support_perm|]. apply in_map.
      apply nbrs_In. eauto.
  Qed.
  Lemma support_nodup p : In p ps -> NoDup (support l (pl_lab p)).
  Proof.
    intros Hp. eapply Permutation_NoDup; [symmetry; now apply support_perm|].
    assert (N : NoDup (nbrs p)) by apply nbrs_nodup.
    assert (I : forall q, In q (nbrs p) -> In q ps) by (intros q H; now apply nbrs_In in H).
    revert N I. generalize (nbrs p). intros k. induction k as [|q k IH]; intros N I; [constructor|]. cbn [map].
    inversion N as [|? ? Hn N']; subst. constructor; [|apply IH; auto; intros x Hx; apply I; now right].
    intros H. apply in_map_iff in H as (q' & E & H). apply lab_eq in E; [subst; contradiction|apply I; now right|apply I; now left].
  Qed.
  (* membership of the operator "neighbours of p" *)
  Lemma fv_support p rc : In p ps -> fv ps (on (support l (pl_lab p))) rc = true <->
    exists q s, In q ps /\ pos q = rc /\ In s shifts /\ rc = padd (pos p) s.
  Proof.
    intros Hp. split.
    - intros H. apply fv_true in H as (q & Hq & E & H). apply mem_In in H. apply (support_mem p _ Hp) in H as (q' & s & Hq' & Hs & L & E').
      apply (lab_eq _ _ Hq' Hq) in L as ->. exists q, s. split; [exact Hq|]. split; [exact E|]. split; [exact Hs|]. congruence.
    - intros (q & s & Hq & <- & Hs & E). rewrite fv_at; [|apply (pn_npos _ _ _ _ _ P)|exact Hq]. apply mem_In.
      apply support_mem; [exact Hp|]. exists q, s. auto.
  Qed.
  Lemma data_In q : In q (map pl_lab (filter (isk KD) ps)) <-> exists p, In p ps /\ knd p = KD /\ pl_lab p = q.
  Proof.
    rewrite in_map_iff. split; intros (p & H).
    - destruct H as [<- H]. apply filter_In in H as [H K]. exists p. split; [exact H|]. unfold isk in K. destruct (knd p); auto; discriminate.
    - destruct H as (H & K & <-). exists p. split; [reflexivity|]. apply filter_In. split; [exact H|]. unfold isk. now rewrite K.
  Qed.
  (* one supported qubit on each of [n] disjoint lines *)
  Lemma lines_weight (line : Z * Z -> nat) op n :
    (forall k, (k < n)%nat -> exists p, In p ps /\ knd p = KD /\ op (pl_lab p) = true /\ line (pos p) = k) ->
    (n <= weight op (map pl_lab (filter (isk KD) ps)))%nat.
  Proof.
    intros H. unfold weight.
    assert (G : forall m, (m <= n)%nat -> exists sel, length sel = m /\ NoDup (map pl_lab sel) /\
      forall p, In p sel -> In p ps /\ knd p = KD /\ op (pl_lab p) = true /\ (line (pos p) < m)%nat).
    { induction m as [|m IH]; intros Hm; [exists []; split; [reflexivity|]; split; [constructor|]; intros p []|].
      destruct IH as (sel & L & N & F); [lia|]. destruct (H m) as (p & Hp & K & O & E); [lia|].
      exists (p :: sel). split; [simpl; lia|]. split.
      - cbn [map]. constructor; [|exact N]. intros Hi. apply in_map_iff in Hi as (q & Eq & Hq). apply F in Hq as (Hq & _ & _ & Hl).
        apply (lab_eq _ _ Hq Hp) in Eq as ->. lia.
      - intros q [<-|Hq]; [split; [exact Hp|]; split; [exact K|]; split; [exact O|]; lia|].
        apply F in Hq as (A & B & C & D). split; [exact A|]; split; [exact B|]; split; [exact C|]; lia. }
    destruct (G n (Nat.le_refl n)) as (sel & L & N & F). rewrite <- L, <- (map_length pl_lab sel).
    apply NoDup_incl_length; [exact N|]. intros q Hq. apply in_map_iff in Hq as (p & <- & Hp).
    apply F in Hp as (A & B & C & _). apply filter_In. split; [|exact C]. apply data_In. eauto.
  Qed.
End Planar.

(** * Coordinates *)
Lemma zq_add a b : zq (a + b) = (zq a + zq b)%Qc.
Proof.
  unfold zq, Qcplus. apply Q2Qc_eq_iff. cbn [this Q2Qc]. rewrite inject_Z_plus, !Qred_correct. reflexivity.
Qed.
Lemma zq_inj a b : zq a = zq b -> a = b.
Proof.
  unfold zq. intros E. apply Q2Qc_eq_iff in E. unfold Qeq in E. simpl in E. lia.
Qed.
Lemma Qc_add_cancel a b c : (a + c = b + c)%Qc -> a = b.
Proof.
  intros H. assert (E : ((a + c) + (- c) = (b + c) + (- c))%Qc) by now rewrite H.
  rewrite <- !Qcplus_assoc, Qcplus_opp_r, !Qcplus_0_r in E. exact E.
Qed.
Lemma list2_inj {A} (a b c d : A) : [a; b] = [c; d] -> a = c /\ b = d.
Proof. intros H; split; congruence. Qed.

Lemma weight_on (lx data : list string) : NoDup data -> NoDup lx -> incl lx data -> weight (on lx) data = length lx.
Proof.
  intros Nd Nx I. unfold weight. apply Permutation_length. apply NoDup_Permutation; [now apply NoDup_filter|exact Nx|].
  intros q. rewrite filter_In. unfold on. rewrite mem_In. split; [tauto|]. auto.
Qed.
Section Planar2.
  Context (l : layout) (shifts : list (Z * Z)) (dirn : Z * Z -> string) (pt : Qc * Qc) (ps : list placed).
  Hypothesis P : planar l shifts dirn pt ps.
  Lemma coord_inv q cs : has_coord l q cs -> exists p, In p ps /\ pl_lab p = q /\
    cs = [(zq (fst (pos p)) + fst pt)%Qc; (zq (snd (pos p)) + snd pt)%Qc].
  Proof.
    intros H. assert (Hq : In q (map fst (l_nodes l))).
    { unfold has_coord, lparam, dget_err in H. destruct (dget q (l_nodes l)) eqn:E; [|discriminate].
      eapply dget_Some_key; eauto. }
    rewrite (pn_nodes _ _ _ _ _ P) in Hq. apply in_map_iff in Hq as (p & <- & Hp). exists p.
    split; [exact Hp|]. split; [reflexivity|]. pose proof (pn_coord _ _ _ _ _ P p Hp) as H'.
    unfold has_coord in *. rewrite H in H'. injection H' as E.
    revert E. clear. intros E. destruct cs as [|a [|b [|c cs]]]; try discriminate. cbn [map] in E. congruence.
  Qed.
  Lemma displaced_pos p q s : In p ps -> In q ps -> displaced l (pl_lab p) (pl_lab q) s <-> pos q = padd (pos p) s.
  Proof.
    intros Hp Hq. split.
    - intros (r & c & H1 & H2). apply coord_inv in H1 as (p' & Hp' & E & H1). apply (lab_eq _ _ _ _ _ P _ _ Hp' Hp) in E as ->.
      apply coord_inv in H2 as (q' & Hq' & E & H2). apply (lab_eq _ _ _ _ _ P _ _ Hq' Hq) in E as ->.
      apply list2_inj in H1 as [-> ->]. apply list2_inj in H2 as [E1 E2]. unfold coord in *.
      change (Q2Qc (inject_Z (fst s))) with (zq (fst s)) in E1. change (Q2Qc (inject_Z (snd s))) with (zq (snd s)) in E2.
      rewrite <- Qcplus_assoc, (Qcplus_comm (fst pt)), Qcplus_assoc, <- zq_add in E1.
      rewrite <- Qcplus_assoc, (Qcplus_comm (snd pt)), Qcplus_assoc, <- zq_add in E2.
      apply Qc_add_cancel, zq_inj in E1, E2. destruct (pos q); unfold padd; simpl in *. congruence.
    - intros E. exists (zq (fst (pos p)) + fst pt)%Qc, (zq (snd (pos p)) + snd pt)%Qc.
      split; [now apply (pn_coord _ _ _ _ _ P)|]. pose proof (pn_coord _ _ _ _ _ P q Hq) as H. rewrite E in H.
      unfold padd in H. cbn [fst snd] in H. rewrite !zq_add in H. unfold coord.
      change (Q2Qc (inject_Z (fst s))) with (zq (fst s)). change (Q2Qc (inject_Z (snd s))) with (zq (snd s)).
      rewrite <- !Qcplus_assoc in *. rewrite (Qcplus_comm (fst pt)), (Qcplus_comm (snd pt)). exact H.
  Qed.
  Lemma displaced_In a b s : displaced l a b s ->
    exists p q, In p ps /\ In q ps /\ pl_lab p = a /\ pl_lab q = b /\ pos q = padd (pos p) s.
  Proof.
    intros H. pose proof H as (r & c & H1 & H2). apply coord_inv in H1 as (p & Hp & <- & _), H2 as (q & Hq & <- & _).
    exists p, q. do 2 (split; [assumption|]). do 2 (split; [reflexivity|]). now apply displaced_pos.
  Qed.
  (* neighbours are the qubits at unit displacement *)
  Lemma neighbours_lemma a b d : In b (get_neighbors l [a] (Some d)) <->
    exists s, In (d, s) (map (fun s => (dirn s, s)) shifts) /\ displaced l a b s.
  Proof.
    unfold get_neighbors. split.
    - intros H. apply in_map_iff in H as ([a' b'] & E & H). simpl in E. subst b'.
      apply (pn_dir _ _ _ _ _ P) in H as [[<-|[]] (p & q & s & Hp & Hq & Hs & <- & <- & -> & E)].
      exists s. split; [apply in_map_iff; exists s; auto|]. now apply displaced_pos.
    - intros (s & Hs & H). apply in_map_iff in Hs as (s' & [= <- ->] & Hs).
      apply displaced_In in H as (p & q & Hp & Hq & <- & <- & E).
      apply in_map_iff. exists (pl_lab p, pl_lab q). split; [reflexivity|]. apply (pn_dir _ _ _ _ _ P). split; [now left|].
      exists p, q, s. do 3 (split; [assumption|]). auto.
  Qed.
  Lemma neighbours_any a b : In b (support l a) <-> exists d, In b (get_neighbors l [a] (Some d)).
  Proof.
    unfold support, get_neighbors. split.
    - intros H. apply in_map_iff in H as ([a' b'] & E & H). simpl in E. subst b'.
      apply (pn_any _ _ _ _ _ P) in H as [[<-|[]] [d H]]. exists d. apply in_map_iff. exists (a, b). split; [reflexivity|].
      apply (pn_dir _ _ _ _ _ P). split; [now left|exact H].
    - intros [d H]. apply in_map_iff in H as ([a' b'] & E & H). simpl in E. subst b'.
      apply (pn_dir _ _ _ _ _ P) in H as [[<-|[]] H]. apply in_map_iff. exists (a, b). split; [reflexivity|].
      apply (pn_any _ _ _ _ _ P). split; [now left|]. eauto.
  Qed.
  Lemma anc_In q : In q (map pl_lab (filter isanc ps)) <-> exists p, In p ps /\ knd p <> KD /\ pl_lab p = q.
  Proof.
    rewrite in_map_iff. split; intros (p & H).
    - destruct H as [<- H]. apply filter_In in H as [H K]. exists p. split; [exact H|]. split; [now apply isanc_spec|reflexivity].
    - destruct H as (H & K & <-). exists p. split; [reflexivity|]. apply filter_In. split; [exact H|]. now apply isanc_spec.
  Qed.
  Lemma data_anc_lemma a b d data ancs : get_role l "data" = Ok data -> get_role l "anc" = Ok ancs ->
    In b (get_neighbors l [a] (Some d)) -> (In a data /\ In b ancs) \/ (In a ancs /\ In b data).
  Proof.
    intros Hd Ha H. rewrite (pn_data _ _ _ _ _ P) in Hd. rewrite (pn_anc _ _ _ _ _ P) in Ha. injection Hd as <-. injection Ha as <-.
    apply neighbours_lemma in H as (s & Hs & H). apply in_map_iff in Hs as (s' & [= _ ->] & Hs).
    apply displaced_In in H as (p & q & Hp & Hq & <- & <- & E).
    pose proof (pn_par _ _ _ _ _ P p q s Hp Hq Hs E) as Par.
    rewrite !data_In, !anc_In. destruct (knd p) eqn:K.
    - left. split; [exists p; auto|]. exists q. split; [exact Hq|]. split; [now apply Par|reflexivity].
    - right. split; [exists p; split; [exact Hp|]; split; [congruence|reflexivity]|]. exists q. split; [exact Hq|]. split; [|reflexivity].
      destruct (knd q); auto; exfalso; assert (KX = KD) by (apply Par; discriminate); discriminate.
    - right. split; [exists p; split; [exact Hp|]; split; [congruence|reflexivity]|]. exists q. split; [exact Hq|]. split; [|reflexivity].
      destruct (knd q); auto; exfalso; assert (KZ = KD) by (apply Par; discriminate); discriminate.
  Qed.
  Lemma support_data p : In p ps -> knd p <> KD -> NoDup shifts -> incl (support l (pl_lab p)) (map pl_lab (filter (isk KD) ps)).
  Proof.
    intros Hp K Ns b Hb. apply (support_mem _ _ _ _ _ P Ns p b Hp) in Hb as (q & s & Hq & Hs & <- & E).
    apply data_In. exists q. split; [exact Hq|]. split; [|reflexivity].
    pose proof (pn_par _ _ _ _ _ P p q s Hp Hq Hs E) as Par. destruct (knd q); auto; exfalso; apply K, Par; discriminate.
  Qed.
  Lemma kind_In k q : In q (map pl_lab (filter (isk k) ps)) <-> exists p, In p ps /\ knd p = k /\ pl_lab p = q.
  Proof.
    rewrite in_map_iff. split; intros (p & H).
    - destruct H as [<- H]. apply filter_In in H as [H K]. exists p. split; [exact H|]. unfold isk in K. destruct k, (knd p); auto; discriminate.
    - destruct H as (H & K & <-). exists p. split; [reflexivity|]. apply filter_In. split; [exact H|]. unfold isk. rewrite K. now destruct k.
  Qed.
  Lemma kind_nodup k : NoDup (map pl_lab (filter (isk k) ps)).
  Proof.
    pose proof (pn_nlab _ _ _ _ _ P) as N. revert N. generalize ps. intros qs. induction qs as [|p qs IH]; intros N; [constructor|].
    cbn [map] in N. inversion N as [|? ? Hn N']; subst. cbn [filter]. destruct (isk k p); [|now apply IH]. cbn [map]. constructor; [|now apply IH].
    intros H. apply in_map_iff in H as (q & E & H). apply filter_In in H as [H _]. apply Hn. rewrite <- E. now apply in_map.
  Qed.
  Lemma at_length rc : length (at_pos ps rc) = if fv ps (fun _ => true) rc then 1%nat else 0%nat.
  Proof.
    destruct (fv ps (fun _ => true) rc) eqn:E.
    - apply fv_true in E as (q & Hq & <- & _). now rewrite at_pos_one; [|apply (pn_npos _ _ _ _ _ P)|].
    - destruct (at_pos ps rc) as [|q k] eqn:A; [reflexivity|]. exfalso.
      assert (Hq : In q (at_pos ps rc)) by (rewrite A; now left). apply filter_In in Hq as [Hq Ep]. apply eqb_true in Ep.
      rewrite <- Ep, fv_at in E; [discriminate|apply (pn_npos _ _ _ _ _ P)|exact Hq].
  Qed.
  (* opposite directions *)
  Lemma symmetric_lemma a b d d' : opposite (map (fun s => (dirn s, s)) shifts) d d' ->
    In b (get_neighbors l [a] (Some d)) -> In a (get_neighbors l [b] (Some d')).
  Proof.
    intros (r & c & H1 & H2) H. apply neighbours_lemma in H as (s & Hs & H).
    apply in_map_iff in H1 as (s1 & E1 & H1). apply in_map_iff in Hs as (s' & E2 & Hs). apply pair_equal_spec in E1 as [E1 ->].
    apply pair_equal_spec in E2 as [E2 ->]. assert (s = (r, c)) by (apply (pn_dinj _ _ _ _ _ P); congruence). subst s.
    apply displaced_In in H as (p & q & Hp & Hq & <- & <- & E). apply neighbours_lemma. exists (- r, - c). split; [exact H2|].
    apply displaced_pos; [assumption..|]. rewrite E. destruct (pos p) as [u v]. unfold padd; cbn [fst snd]. f_equal; lia.
  Qed.
  Lemma opposite_sym (ss : list (string * (Z * Z))) d d' : opposite ss d d' -> opposite ss d' d.
  Proof. intros (r & c & H1 & H2). exists (- r), (- c). rewrite !Z.opp_involutive. auto. Qed.
  Lemma symmetric_iff a b d d' : opposite (map (fun s => (dirn s, s)) shifts) d d' ->
    In b (get_neighbors l [a] (Some d)) <-> In a (get_neighbors l [b] (Some d')).
  Proof. intros H. split; apply symmetric_lemma; [exact H|now apply opposite_sym]. Qed.

  (* from positions to labels *)
  Section Code.
    Context (g : string) (lx lz : list string).
    Hypothesis Hs : NoDup shifts.
    Hypothesis Hg : l_logs l = [g].
    Hypothesis Hlz : l_logz l = [(g, lz)].
    Hypothesis Hlx : l_logx l = [(g, lx)].
    Hypothesis Nx : NoDup lx.
    Hypothesis Nz : NoDup lz.
    Hypothesis Ix : incl lx (map pl_lab (filter (isk KD) ps)).
    Hypothesis Iz : incl lz (map pl_lab (filter (isk KD) ps)).
    Lemma css_intro :
      (forall p q, In p ps -> knd p = KX -> In q ps -> knd q = KZ -> commutes (on (support l (pl_lab q))) (support l (pl_lab p))) ->
      (forall p, In p ps -> knd p = KX -> commutes (on lz) (support l (pl_lab p))) ->
      (forall p, In p ps -> knd p = KZ -> commutes (on lx) (support l (pl_lab p))) ->
      ~ commutes (on lx) lz ->
      css_code l g (map pl_lab (filter (isk KD) ps)) (map pl_lab (filter (isk KX) ps)) (map pl_lab (filter (isk KZ) ps)) lx lz.
    Proof.
      intros C1 C2 C3 C4. constructor; try assumption.
      - apply (pn_data _ _ _ _ _ P).
      - apply (pn_x _ _ _ _ _ P).
      - apply (pn_z _ _ _ _ _ P).
      - exists (map pl_lab (filter isanc ps)). split; [apply (pn_anc _ _ _ _ _ P)|]. intros q. rewrite anc_In, !kind_In. split.
        + intros (p & Hp & K & E). destruct (knd p) eqn:Kp; [congruence|left|right]; eauto.
        + intros [(p & Hp & K & E)|(p & Hp & K & E)]; exists p; (split; [exact Hp|]); (split; [congruence|exact E]).
      - rewrite Hlx. cbn [dget]. now rewrite eqb_refl.
      - rewrite Hlz. cbn [dget]. now rewrite eqb_refl.
      - split; [apply kind_nodup|]. auto.
      - intros q H. assert (H' : exists p, In p ps /\ knd p <> KD /\ pl_lab p = q).
        { destruct H as [H|H]; apply kind_In in H as (p & Hp & K & E); exists p; (split; [exact Hp|]); (split; [congruence|exact E]). }
        destruct H' as (p & Hp & K & <-). split; [now apply (support_nodup _ _ _ _ _ P Hs)|]. now apply support_data.
      - auto.
      - intros x z H1 H2. apply kind_In in H1 as (p & Hp & K & <-), H2 as (q & Hq & Kq & <-). auto.
      - intros x H1. apply kind_In in H1 as (p & Hp & K & <-). auto.
      - intros x H1. apply kind_In in H1 as (p & Hp & K & <-). auto.
    Qed.
    Lemma dist_intro dx dz :
      (forall op, (forall p, In p ps -> knd p = KZ -> commutes op (support l (pl_lab p))) -> ~ commutes op lz ->
         (dx <= weight op (map pl_lab (filter (isk KD) ps)))%nat) ->
      (forall op, (forall p, In p ps -> knd p = KX -> commutes op (support l (pl_lab p))) -> ~ commutes op lx ->
         (dz <= weight op (map pl_lab (filter (isk KD) ps)))%nat) ->
      length lx = dx -> length lz = dz ->
      has_distances l (map pl_lab (filter (isk KD) ps)) (map pl_lab (filter (isk KX) ps)) (map pl_lab (filter (isk KZ) ps)) lx lz dx dz.
    Proof.
      intros D1 D2 L1 L2. constructor.
      - intros op H. apply D1. intros p Hp K. apply H, kind_In. eauto.
      - intros op H. apply D2. intros p Hp K. apply H, kind_In. eauto.
      - rewrite weight_on; auto using kind_nodup.
      - rewrite weight_on; auto using kind_nodup.
    Qed.
  End Code.
End Planar2.
Lemma even_pairs a b c d : a = b -> c = d -> xorb a (xorb b (xorb c (xorb d false))) = false.
Proof. intros -> ->. now destruct b, d. Qed.
