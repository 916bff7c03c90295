(** Proofs about C79: index_chain. *)
From Coq Require Import QArith Qcanon.
From Verif Require Import Base Lib StimM LayoutM SpecLayout LayoutP LayoutP2 GenM GenP SpecGen GeomP RotP RotP2 LogP LogP13 CoordM SpecCoord CoordP CoordP2.
Open Scope Z_scope.

Definition deg (l : layout) (q : string) : nat := length (dkeys (row_of l q)).
Lemma deg_nbrs l q : deg l q = length (get_neighbors l [q] None).
Proof.
  unfold deg, get_neighbors. rewrite pairs_one, !map_length. unfold dkeys. rewrite map_length.
  induction (row_of l q) as [|x r IH]; [reflexivity|]. cbn [filter length]. now rewrite IH.
Qed.
Lemma pnum_inj (x y : Qc) : PNum x = PNum y -> x = y.
Proof. intros E. injection E. auto. Qed.
Lemma ok_inj {A} (x y : A) : Ok x = Ok y -> x = y.
Proof. intros E. injection E. auto. Qed.
Lemma zq_int_inj i j : int_val i = int_val j -> i = j.
Proof. intros E. apply zq_inj. exact (pnum_inj _ _ E). Qed.

Section Loop.
  Context (l0 : layout) (init : string).
  Notation keys := (dkeys (l_nodes l0)).
  Definition numbered (l : layout) (done : list string) (ind : Z) : Prop :=
    (forall q, In q done -> exists i, 0 <= i < ind /\ lparam l "chain_ind" q = Ok (int_val i)) /\
    (forall q q' i, In q done -> In q' done -> lparam l "chain_ind" q = Ok (int_val i) -> lparam l "chain_ind" q' = Ok (int_val i) -> q = q').
  Lemma chain_gives n : forall l done queue ind l' done', chain_loop n l done queue ind = Ok (l', done') ->
    l_adj l = l_adj l0 -> dkeys (l_nodes l) = keys -> only_set "chain_ind" l0 l -> 0 <= ind -> numbered l done ind ->
    (forall q, In q done -> reach l0 init q /\ (1 <= deg l0 q <= 2)%nat) ->
    (forall q, In q queue -> reach l0 init q) ->
    (forall q nb, In q done -> In nb (dkeys (row_of l0 q)) -> In nb done \/ In nb queue) ->
    (In init done \/ In init queue) ->
    only_set "chain_ind" l0 l' /\ dkeys (l_nodes l') = keys /\ (forall q, In q done' <-> reach l0 init q) /\
    (exists ind', numbered l' done' ind') /\ forall q, reach l0 init q -> (1 <= deg l0 q <= 2)%nat.
  Proof.
    induction n as [|n IH]; intros l done queue ind l' done' H Ea Ek O Hi Nb I3 I5 I6 I7.
    - destruct queue as [|q r]; [|discriminate]. injection H as <- <-.
      assert (R : forall q, reach l0 init q -> In q done).
      { induction 1 as [|b c R IHr N]; [destruct I7 as [|[]]; assumption|]. apply nbr_any in N. destruct (I6 b c IHr N) as [|[]]; assumption. }
      split; [exact O|]. split; [exact Ek|]. split; [intros q; split; [intros K; now apply I3|apply R]|]. split; [eauto|]. intros q K. now apply I3, R.
    - destruct queue as [|q r].
      { injection H as <- <-.
        assert (R : forall q, reach l0 init q -> In q done).
        { induction 1 as [|b c R IHr N]; [destruct I7 as [|[]]; assumption|]. apply nbr_any in N. destruct (I6 b c IHr N) as [|[]]; assumption. }
        split; [exact O|]. split; [exact Ek|]. split; [intros q; split; [intros K; now apply I3|apply R]|]. split; [eauto|]. intros q K. now apply I3, R. }
      cbn [chain_loop] in H. apply bind_ok in H as [l1 [E1 H]]. destruct (lset_facts _ _ _ _ _ E1) as (A1 & K1 & V1 & O1).
      destruct (Nat.ltb 2 (length (dkeys (row_of l q)))) eqn:T; [discriminate|]. destruct (Nat.eqb (length (dkeys (row_of l q))) 0) eqn:Z0; [discriminate|].
      assert (Er : row_of l q = row_of l0 q) by (unfold row_of; now rewrite Ea). rewrite Er in H, T, Z0. apply Nat.ltb_ge in T. apply Nat.eqb_neq in Z0.
      apply (IH _ _ _ _ _ _ H).
      + congruence.
      + congruence.
      + apply (only_trans _ _ l); [exact O|]. econstructor; [exact E1|constructor].
      + lia.
      + destruct Nb as [N1 N2]. split.
        * intros x Hx. destruct (string_dec x q) as [->|N]; [exists ind; split; [lia|exact V1]|]. destruct Hx as [->|Hx]; [congruence|].
          destruct (N1 x Hx) as (i & Hi' & E). exists i. split; [lia|]. now rewrite O1.
        * intros x y i Hx Hy Ex Ey. destruct (string_dec x q) as [->|Nx], (string_dec y q) as [->|Ny]; [reflexivity| | |].
          -- destruct Hy as [->|Hy]; [congruence|]. rewrite O1 in Ey by exact Ny. destruct (N1 y Hy) as (j & Hj & E). rewrite V1 in Ex. rewrite E in Ey. rewrite <- Ex in Ey. apply ok_inj, zq_int_inj in Ey. lia.
          -- destruct Hx as [->|Hx]; [congruence|]. rewrite O1 in Ex by exact Nx. destruct (N1 x Hx) as (j & Hj & E). rewrite V1 in Ey. rewrite E in Ex. rewrite <- Ey in Ex. apply ok_inj, zq_int_inj in Ex. lia.
          -- destruct Hx as [->|Hx]; [congruence|]. destruct Hy as [->|Hy]; [congruence|]. rewrite O1 in Ex by exact Nx. rewrite O1 in Ey by exact Ny. eauto.
      + intros x [<-|Hx]; [|now apply I3]. split; [apply I5; now left|]. unfold deg. lia.
      + intros x Hx. apply in_app_or in Hx as [Hx|Hx]; [apply I5; now right|]. apply filter_In in Hx as [Hx _].
        apply (reach_next _ _ q); [apply I5; now left|]. now apply nbr_any.
      + intros x nb Hx N. assert (D : {In nb (q :: done)} + {~ In nb (q :: done)}) by apply (in_dec string_dec). destruct D as [D|D]; [now left|]. right. apply in_or_app.
        destruct Hx as [<-|Hx].
        * right. apply filter_In. split; [exact N|]. apply negb_true_iff. destruct (mem nb (q :: done)) eqn:M; [|reflexivity]. apply mem_In in M. tauto.
        * left. destruct (I6 x nb Hx N) as [K|[K|K]]; [exfalso; apply D; now right|exfalso; apply D; now left|exact K].
      + destruct I7 as [K|[K|K]]; [left; now right|left; now left|right; apply in_or_app; now left].
  Qed.
  Hypothesis Hrow : forall q nb, In nb (dkeys (row_of l0 q)) -> In nb (dkeys (l_nodes l0)).
  Lemma chain_ends n : forall l done queue ind, l_adj l = l_adj l0 -> dkeys (l_nodes l) = keys ->
    (forall x, In x queue -> In x keys) -> (measure l0 (fun q => q) 3 done queue <= n)%nat ->
    exists r, (forall m, (n <= m)%nat -> chain_loop m l done queue ind = r) /\ (r = Err ValueError \/ exists ld, r = Ok ld).
  Proof.
    induction n as [|n IH]; intros l done queue ind Ea Ek Hq M.
    - destruct queue as [|q r]; [exists (Ok (l, done)); split; [intros [|m] _; reflexivity|eauto]|]. exfalso. cbn [measure] in M.
      pose proof (Nat.pow_nonzero 3 (unset l0 (q :: done))). lia.
    - destruct queue as [|q r]; [exists (Ok (l, done)); split; [intros [|m] _; reflexivity|eauto]|].
      assert (Kq : In q (dkeys (l_nodes l))) by (rewrite Ek; exact (Hq _ (or_introl eq_refl))).
      destruct (lset_all l "chain_ind" q (int_val ind) Kq) as [l1 E1]. destruct (lset_facts _ _ _ _ _ E1) as (A1 & K1 & _).
      assert (Er : row_of l q = row_of l0 q) by (unfold row_of; now rewrite Ea).
      destruct (Nat.ltb 2 (length (dkeys (row_of l q)))) eqn:T.
      { exists (Err ValueError). split; [|auto]. intros [|m] Hm; [lia|]. cbn [chain_loop]. unfold set_chain. rewrite E1. cbn [bind]. now rewrite T. }
      destruct (Nat.eqb (length (dkeys (row_of l q))) 0) eqn:Z0.
      { exists (Err ValueError). split; [|auto]. intros [|m] Hm; [lia|]. cbn [chain_loop]. unfold set_chain. rewrite E1. cbn [bind]. now rewrite T, Z0. }
      set (new := filter (fun b => negb (mem b (q :: done))) (dkeys (row_of l q))).
      assert (Hn : forall x, In x new -> In x keys /\ mem x (q :: done) = false).
      { intros x Hx. apply filter_In in Hx as [Hx Hm]. rewrite Er in Hx. split; [now apply (Hrow q)|now apply negb_true_iff]. }
      destruct (IH l1 (q :: done) (r ++ new) (ind + 1)) as (r' & H' & R').
      + congruence.
      + congruence.
      + intros x Hx. apply in_app_or in Hx as [Hx|Hx]; [apply Hq; now right|now apply Hn].
      + cbn [measure] in M. pose proof (measure_step l0 (fun x : string => x) 3 ltac:(lia) q done r new) as W. cbn beta in W.
        assert (Ln : (length new < 3)%nat).
        { apply Nat.ltb_ge in T. unfold new. eapply Nat.le_lt_trans with (length (dkeys (row_of l q))); [|lia].
          clear. induction (dkeys (row_of l q)) as [|x r' IHr]; [auto|]. cbn [filter]. destruct (negb _); cbn [length]; lia. }
        specialize (W Ln Hn). lia.
      + exists r'. split; [|exact R']. intros [|m] Hm; [lia|]. cbn [chain_loop]. unfold set_chain. rewrite E1. cbn [bind]. rewrite T, Z0. apply H'. lia.
  Qed.

  (* the loop fails at a qubit with no or with more than two neighbours *)
  Lemma chain_fails n : forall l done queue ind, chain_loop n l done queue ind = Err ValueError ->
    l_adj l = l_adj l0 -> dkeys (l_nodes l) = keys -> (forall q, In q queue -> reach l0 init q) -> (forall q, In q queue -> In q keys) ->
    exists q, reach l0 init q /\ ~ (1 <= deg l0 q <= 2)%nat.
  Proof.
    induction n as [|n IH]; intros l done queue ind H Ea Ek I5 Hq.
    - destruct queue; discriminate.
    - destruct queue as [|q r]; [discriminate|]. cbn [chain_loop] in H.
      assert (Kq : In q (dkeys (l_nodes l))) by (rewrite Ek; apply Hq; now left).
      destruct (lset_all l "chain_ind" q (int_val ind) Kq) as [l1 E1]. destruct (lset_facts _ _ _ _ _ E1) as (A1 & K1 & _).
      unfold set_chain in H. rewrite E1 in H. cbn [bind] in H.
      assert (Er : row_of l q = row_of l0 q) by (unfold row_of; now rewrite Ea). rewrite Er in H.
      destruct (Nat.ltb 2 (length (dkeys (row_of l0 q)))) eqn:T.
      { exists q. split; [apply I5; now left|]. apply Nat.ltb_lt in T. unfold deg. lia. }
      destruct (Nat.eqb (length (dkeys (row_of l0 q))) 0) eqn:Z0.
      { exists q. split; [apply I5; now left|]. apply Nat.eqb_eq in Z0. unfold deg. lia. }
      apply (IH _ _ _ _ H).
      + congruence.
      + congruence.
      + intros x Hx. apply in_app_or in Hx as [Hx|Hx]; [apply I5; now right|]. apply filter_In in Hx as [Hx _].
        apply (reach_next _ _ q); [apply I5; now left|]. now apply nbr_any.
      + intros x Hx. apply in_app_or in Hx as [Hx|Hx]; [apply Hq; now right|]. apply filter_In in Hx as [Hx _]. eapply Hrow; eauto.
  Qed.
End Loop.

(** * The qubits that were not reached *)
Lemma set_none done : forall nodes l, (forall q, In q nodes -> In q (dkeys (l_nodes l))) ->
  exists l', foldM (fun l q => if mem q done then Ok l else set_chain l q PNone) nodes l = Ok l' /\ only_set "chain_ind" l l' /\
    (forall q, In q done -> lparam l' "chain_ind" q = lparam l "chain_ind" q) /\
    (forall q, ~ In q done -> In q nodes -> lparam l' "chain_ind" q = Ok PNone) /\
    (forall q, ~ In q nodes -> lparam l' "chain_ind" q = lparam l "chain_ind" q).
Proof.
  induction nodes as [|x nodes IH]; intros l Hn; [exists l; cbn [foldM]; repeat split; auto; [constructor|intros q _ []]|]. cbn [foldM].
  destruct (mem x done) eqn:M.
  - cbn [bind]. destruct (IH l) as (l' & E & O & A & B & C); [intros q Hq; apply Hn; now right|]. exists l'. split; [exact E|]. split; [exact O|]. split; [exact A|]. split.
    + intros q N [<-|Hq]; [apply mem_In in M; tauto|auto].
    + intros q N. apply C. intros Hq. apply N. now right.
  - destruct (lset_all l "chain_ind" x PNone (Hn x (or_introl eq_refl))) as [l1 E1]. unfold set_chain at 1. rewrite E1. cbn [bind].
    destruct (lset_facts _ _ _ _ _ E1) as (A1 & K1 & V1 & O1).
    destruct (IH l1) as (l' & E & O & A & B & C); [intros q Hq; rewrite K1; apply Hn; now right|]. exists l'. split; [exact E|].
    split; [econstructor; eauto|].
    assert (Nx : ~ In x done) by (intros K; apply mem_In in K; congruence). split; [|split].
    + intros q Hq. rewrite A by exact Hq. apply O1. intros ->. tauto.
    + intros q N Hq. destruct (in_dec string_dec q nodes) as [K|K]; [auto|]. destruct Hq as [<-|Hq]; [|tauto]. rewrite C by exact K. exact V1.
    + intros q N. rewrite C by (intros Hq; apply N; now right). apply O1. intros ->. apply N. now left.
Qed.

Section Index.
  Context (l : layout) (init : string).
  Hypothesis W : wf l.
  Hypothesis Hi : In init (dkeys (l_nodes l)).
  Lemma index_start n : index_chain n l init = bind (chain_loop n l [] [init] 0)
    (fun ld => let (l', done) := ld in foldM (fun l q => if mem q done then Ok l else set_chain l q PNone) (dkeys (l_nodes l)) l').
  Proof. unfold index_chain. assert (M : mem init (dkeys (l_nodes l)) = true) by now apply mem_In. now rewrite M. Qed.
  Lemma index_ends : (exists l', gives (fun n => index_chain n l init) l') \/ rejects (fun n => index_chain n l init).
  Proof.
    set (n := measure l (fun q => q) 3 [] [init]).
    destruct (chain_ends l (rows_in l W) n l [] [init] 0) as (r & H & R); auto.
    { intros x [<-|[]]. exact Hi. }
    destruct R as [-> | [[l1 done] ->]].
    - right. exists n. intros m Hm. rewrite index_start, H by exact Hm. reflexivity.
    - left. destruct (chain_gives l init n l [] [init] 0 l1 done (H n (le_n _))) as (O & K & _).
      + reflexivity.
      + reflexivity.
      + constructor.
      + lia.
      + split; [intros q []|intros q q' i []].
      + intros q [].
      + intros q [<-|[]]. constructor.
      + intros q nb [].
      + right. now left.
      + destruct (set_none done (dkeys (l_nodes l)) l1) as (l' & E & _); [intros q Hq; now rewrite K|].
        exists l', n. intros m Hm. rewrite index_start, H by exact Hm. cbn [bind]. exact E.
  Qed.
  Lemma index_gives n l' : index_chain n l init = Ok l' ->
    only_set "chain_ind" l l' /\
    (forall q, reach l init q -> (1 <= length (get_neighbors l [q] None) <= 2)%nat /\ exists i, 0 <= i /\ chain_ind l' q i) /\
    (forall q q' i, reach l init q -> reach l init q' -> chain_ind l' q i -> chain_ind l' q' i -> q = q') /\
    (forall q, In q (dkeys (l_nodes l)) -> ~ reach l init q -> lparam l' "chain_ind" q = Ok PNone).
  Proof.
    rewrite index_start. intros H. apply bind_ok in H as [[l1 done] [E1 H]].
    destruct (chain_gives l init n l [] [init] 0 l1 done E1) as (O & K & R & (ind' & N1 & N2) & D).
    - reflexivity.
    - reflexivity.
    - constructor.
    - lia.
    - split; [intros q []|intros q q' i []].
    - intros q [].
    - intros q [<-|[]]. constructor.
    - intros q nb [].
    - right. now left.
    - destruct (set_none done (dkeys (l_nodes l)) l1) as (l2 & E & O2 & A & B & _); [intros q Hq; now rewrite K|].
      rewrite E in H. injection H as ->. split; [eapply only_trans; eauto|]. split; [|split].
      + intros q Hq. split; [rewrite <- deg_nbrs; now apply D|]. apply R in Hq. destruct (N1 q Hq) as (i & Hi' & Ei). exists i. split; [lia|].
        unfold chain_ind. now rewrite A.
      + intros q q' i Hq Hq' Eq Eq'. apply R in Hq. apply R in Hq'. unfold chain_ind in *. rewrite A in Eq, Eq' by assumption. eapply N2; eauto.
      + intros q Kq Nq. apply B; [|exact Kq]. intros Hq. now apply Nq, R.
  Qed.
  Lemma index_ok : (forall q, reach l init q -> (1 <= length (get_neighbors l [q] None) <= 2)%nat) -> exists l', gives (fun n => index_chain n l init) l'.
  Proof.
    intros D. destruct index_ends as [G|[n R]]; [exact G|]. exfalso. specialize (R n (le_n _)). rewrite index_start in R.
    destruct (chain_loop n l [] [init] 0) as [[l1 done]|e] eqn:E.
    - destruct (chain_gives l init n l [] [init] 0 l1 done E) as (O & K & _).
      + reflexivity.
      + reflexivity.
      + constructor.
      + lia.
      + split; [intros q []|intros q q' i []].
      + intros q [].
      + intros q [<-|[]]. constructor.
      + intros q nb [].
      + right. now left.
      + destruct (set_none done (dkeys (l_nodes l)) l1) as (l' & E' & _); [intros q Hq; now rewrite K|]. cbn [bind] in R. congruence.
    - cbn [bind] in R. assert (e = ValueError) by congruence. subst e.
      destruct (chain_fails l init (rows_in l W) n l [] [init] 0 E) as (q & Rq & Nq); auto.
      + intros q [<-|[]]. constructor.
      + intros q [<-|[]]. exact Hi.
      + apply Nq. rewrite deg_nbrs. now apply D.
  Qed.
  Lemma index_rejects q : reach l init q -> ~ (1 <= length (get_neighbors l [q] None) <= 2)%nat -> rejects (fun n => index_chain n l init).
  Proof.
    intros Rq Nq. destruct index_ends as [(l' & n & G)|R]; [|exact R]. exfalso. apply Nq. apply (index_gives n l' (G n (le_n _))). exact Rq.
  Qed.
End Index.

(** * Open chains *)
Section Open.
  Context (l0 : layout) (qs : list string).
  Hypothesis W : wf l0.
  Hypothesis Hc : open_chain l0 qs.
  Hypothesis Hin : forall q, In q qs -> In q (dkeys (l_nodes l0)).
  Hypothesis Hlen : (2 <= length qs)%nat.
  Lemma row_nodup q : NoDup (dkeys (row_of l0 q)).
  Proof.
    unfold row_of. destruct (dget q (l_adj l0)) as [row|] eqn:E; [|constructor]. cbn [odef]. apply dget_In in E.
    pose proof (wf_rows _ W) as F. rewrite Forall_forall in F. apply (F _ E).
  Qed.
  Lemma only_one (x : string) r : NoDup r -> (forall y, In y r <-> y = x) -> r = [x].
  Proof.
    intros N H. destruct r as [|a [|b r]].
    - destruct (proj2 (H x) eq_refl).
    - f_equal. apply H. now left.
    - exfalso. inversion N as [|? ? N1 _]; subst. apply N1. left. transitivity x; [|symmetry]; apply H; [right; now left|now left].
  Qed.
  Lemma nth_inj i j q : nth_error qs i = Some q -> nth_error qs j = Some q -> i = j.
  Proof.
    intros E E'. destruct Hc as [N _]. rewrite NoDup_nth_error in N. apply N; [|congruence]. apply nth_error_Some. congruence.
  Qed.
  Definition done_at (i : nat) : list string := rev (firstn i qs).
  Lemma done_In i q : In q (done_at i) <-> exists j, (j < i)%nat /\ nth_error qs j = Some q.
  Proof.
    unfold done_at. rewrite <- in_rev. split.
    - intros H. apply In_nth_error in H as [j H]. exists j. assert (L : (j < length (firstn i qs))%nat) by (apply nth_error_Some; congruence).
      rewrite firstn_length in L. split; [lia|]. rewrite <- H. rewrite <- (firstn_skipn i qs) at 1. rewrite nth_error_app1 by (rewrite firstn_length; lia). reflexivity.
    - intros (j & L & H). apply (nth_error_In _ j). assert (j < length qs)%nat by (apply nth_error_Some; congruence).
      rewrite <- H. rewrite <- (firstn_skipn i qs) at 2. rewrite nth_error_app1 by (rewrite firstn_length; lia). reflexivity.
  Qed.
  Lemma done_S i q : nth_error qs i = Some q -> done_at (S i) = q :: done_at i.
  Proof.
    intros E. unfold done_at. assert (F : firstn (S i) qs = firstn i qs ++ [q]).
    { clear - E. revert i E. induction qs as [|x r IH]; intros [|i] E; try discriminate; [now injection E as ->|]. cbn [firstn app]. f_equal. now apply IH. }
    rewrite F, rev_app_distr. reflexivity.
  Qed.
  Lemma filter_row i q : nth_error qs i = Some q ->
    filter (fun b => negb (mem b (q :: done_at i))) (dkeys (row_of l0 q)) = match nth_error qs (S i) with Some x => [x] | None => [] end.
  Proof.
    intros E. assert (M : forall y, In y (filter (fun b => negb (mem b (q :: done_at i))) (dkeys (row_of l0 q))) <-> nth_error qs (S i) = Some y).
    { intros y. rewrite filter_In, <- done_S by exact E. rewrite negb_true_iff. rewrite <- nbr_any. rewrite (proj2 Hc i q E y). split.
      - intros [(j & Ej & Hj) M]. destruct Hj as [-> | ->]; [exact Ej|]. exfalso. assert (K : In y (done_at (S (S j)))) by (apply done_In; exists j; split; [lia|exact Ej]).
        apply mem_In in K. congruence.
      - intros Ej. split; [exists (S i); auto|]. destruct (mem y (done_at (S i))) eqn:M; [|reflexivity]. apply mem_In, done_In in M as (j & L & Ey).
        pose proof (nth_inj _ _ _ Ej Ey). lia. }
    destruct (nth_error qs (S i)) as [x|] eqn:E'.
    - apply only_one; [apply NoDup_filter, row_nodup|]. intros y. rewrite M. split; [now intros [= ->]|now intros ->].
    - destruct (filter _ _) as [|y r]; [reflexivity|]. exfalso. assert (None = Some y) by (apply M; now left). discriminate.
  Qed.
  Lemma open_deg i q : nth_error qs i = Some q -> (1 <= length (dkeys (row_of l0 q)) <= 2)%nat.
  Proof.
    intros E. assert (M : forall y, In y (dkeys (row_of l0 q)) <-> exists j, nth_error qs j = Some y /\ (j = S i \/ i = S j)) by (intros y; rewrite <- nbr_any; apply (proj2 Hc i q E)).
    split.
    - assert (L : (i < length qs)%nat) by (apply nth_error_Some; congruence).
      assert (X : exists y, In y (dkeys (row_of l0 q))).
      { destruct i as [|i].
        - destruct (nth_error qs 1) as [y|] eqn:E1; [|apply nth_error_None in E1; lia]. exists y. apply M. exists 1%nat. auto.
        - destruct (nth_error qs i) as [y|] eqn:E1; [|apply nth_error_None in E1; lia]. exists y. apply M. exists i. auto. }
      destruct X as [y Y]. destruct (dkeys (row_of l0 q)); [destruct Y|cbn [length]; lia].
    - set (ys := (match nth_error qs (S i) with Some x => [x] | None => [] end) ++ (match i with S j => match nth_error qs j with Some x => [x] | None => [] end | O => [] end)).
      assert (I : incl (dkeys (row_of l0 q)) ys).
      { intros y Y. apply M in Y as (j & Ej & [-> | ->]); apply in_or_app; [left|right]; rewrite Ej; now left. }
      apply NoDup_incl_length in I; [|apply row_nodup]. assert (length ys <= 2)%nat; [|lia]. unfold ys. rewrite app_length.
      destruct (nth_error qs (S i)), i as [|j]; cbn [length]; try lia; destruct (nth_error qs j); cbn [length]; lia.
  Qed.
  Lemma open_loop k : forall i l, (length qs - i = k)%nat -> (i <= length qs)%nat -> l_adj l = l_adj l0 -> dkeys (l_nodes l) = dkeys (l_nodes l0) ->
    (forall j q, (j < i)%nat -> nth_error qs j = Some q -> lparam l "chain_ind" q = Ok (int_val (Z.of_nat j))) ->
    exists l' done, (forall m, (k <= m)%nat -> chain_loop m l (done_at i) (match nth_error qs i with Some x => [x] | None => [] end) (Z.of_nat i) = Ok (l', done)) /\
      dkeys (l_nodes l') = dkeys (l_nodes l0) /\ (forall q, In q qs -> In q done) /\
      (forall j q, nth_error qs j = Some q -> lparam l' "chain_ind" q = Ok (int_val (Z.of_nat j))).
  Proof.
    induction k as [|k IH]; intros i l Hk Hi Ea Ek V.
    - assert (i = length qs) by lia. subst i. rewrite (proj2 (nth_error_None qs (length qs))) by lia. exists l, (done_at (length qs)).
      split; [intros [|m] _; reflexivity|]. split; [exact Ek|]. split.
      + intros q Hq. unfold done_at. rewrite firstn_all. now apply in_rev in Hq.
      + intros j q Ej. apply V; [apply nth_error_Some; congruence|exact Ej].
    - destruct (nth_error qs i) as [q|] eqn:E; [|apply nth_error_None in E; lia].
      assert (Kq : In q (dkeys (l_nodes l))) by (rewrite Ek; apply Hin; eapply nth_error_In; eauto).
      destruct (lset_all l "chain_ind" q (int_val (Z.of_nat i)) Kq) as [l1 E1]. destruct (lset_facts _ _ _ _ _ E1) as (A1 & K1 & V1 & O1).
      destruct (IH (S i) l1) as (l' & done & H & K & Q & V'); [lia|lia|congruence|congruence| |].
      + intros j x Lj Ej. destruct (Nat.eq_dec j i) as [->|N].
        * assert (x = q) by congruence. subst x. exact V1.
        * rewrite O1; [apply V; [lia|exact Ej]|]. intros ->. apply N. eapply nth_inj; eauto.
      + exists l', done. split; [|auto]. intros [|m] Hm; [lia|]. cbn [chain_loop]. unfold set_chain. rewrite E1. cbn [bind].
        assert (Er : row_of l q = row_of l0 q) by (unfold row_of; now rewrite Ea). rewrite Er. pose proof (open_deg i q E) as D.
        destruct (Nat.ltb_spec 2 (length (dkeys (row_of l0 q)))); [lia|]. destruct (Nat.eqb_spec (length (dkeys (row_of l0 q))) 0); [lia|].
        cbn [app]. rewrite filter_row by exact E. rewrite <- done_S by exact E. replace (Z.of_nat i + 1) with (Z.of_nat (S i)) by lia. apply H. lia.
  Qed.
  Lemma open_index init : nth_error qs 0 = Some init ->
    exists l', gives (fun n => index_chain n l0 init) l' /\ only_set "chain_ind" l0 l' /\
      (forall i q, nth_error qs i = Some q -> chain_ind l' q (Z.of_nat i)) /\
      forall q, In q (dkeys (l_nodes l0)) -> ~ In q qs -> lparam l' "chain_ind" q = Ok PNone.
  Proof.
    intros E0. assert (Hi : In init (dkeys (l_nodes l0))) by (apply Hin; eapply nth_error_In; eauto).
    destruct (open_loop (length qs) 0 l0) as (l1 & done & H & K & Q & V); [lia|lia|reflexivity|reflexivity|intros j q L; lia|].
    rewrite E0 in H. change (done_at 0) with (@nil string) in H. change (Z.of_nat 0) with 0 in H.
    destruct (set_none done (dkeys (l_nodes l0)) l1) as (l' & E' & _ & A & _); [intros q Hq; now rewrite K|].
    assert (G : forall m, (length qs <= m)%nat -> index_chain m l0 init = Ok l').
    { intros m Hm. rewrite index_start by exact Hi. rewrite H by exact Hm. exact E'. }
    exists l'. split; [exists (length qs); exact G|].
    destruct (index_gives l0 init Hi _ _ (G _ (le_n _))) as (O & _ & _ & N).
    split; [exact O|]. split.
    - intros i q E. unfold chain_ind. rewrite A by (apply Q; eapply nth_error_In; eauto). now apply V.
    - intros q Kq Nq. apply N; [exact Kq|]. intros R. apply Nq. clear - R Hc E0.
      induction R as [|b c R IH N]; [eapply nth_error_In; eauto|]. apply In_nth_error in IH as [i Ei]. destruct (proj1 (proj2 Hc i b Ei c) N) as (j & Ej & _). eapply nth_error_In; eauto.
  Qed.
End Open.

Lemma index_unknown n l init : ~ In init (map fst (l_nodes l)) -> index_chain n l init = Err ValueError.
Proof.
  intros N. unfold index_chain. destruct (mem init (dkeys (l_nodes l))) eqn:M; [|reflexivity]. apply mem_In in M. exfalso. now apply N.
Qed.
Lemma C79_lemma l init n l' : index_chain n l init = Ok l' ->
  only_set "chain_ind" l l' /\
  (forall q, reach l init q -> exists i, 0 <= i /\ chain_ind l' q i) /\
  (forall q q' i, reach l init q -> reach l init q' -> chain_ind l' q i -> chain_ind l' q' i -> q = q') /\
  (forall q, In q (map fst (l_nodes l)) -> ~ reach l init q -> lparam l' "chain_ind" q = Ok PNone).
Proof.
  intros H. destruct (in_dec string_dec init (map fst (l_nodes l))) as [I|N]; [|rewrite index_unknown in H by exact N; discriminate].
  destruct (index_gives l init I n l' H) as (O & A & B & C). split; [exact O|]. split; [intros q Hq; apply (A q Hq)|]. split; [exact B|exact C].
Qed.
Lemma chain_mono n : forall l done queue ind r, chain_loop n l done queue ind = Ok r -> forall m, (n <= m)%nat -> chain_loop m l done queue ind = Ok r.
Proof.
  induction n as [|n IH]; intros l done queue ind r H m Hm; destruct queue as [|q rest]; try discriminate; [destruct m; exact H|destruct m; exact H|].
  destruct m as [|m]; [lia|]. cbn [chain_loop] in *. apply bind_ok in H as [l1 [E1 H]]. rewrite E1. cbn [bind].
  destruct (Nat.ltb 2 _); [discriminate|]. destruct (Nat.eqb _ 0); [discriminate|]. apply (IH _ _ _ _ _ H). lia.
Qed.
Lemma index_more n l init l' : index_chain n l init = Ok l' -> gives (fun n => index_chain n l init) l'.
Proof.
  intros H. exists n. intros m Hm. unfold index_chain in *. destruct (negb _); [discriminate|]. apply bind_ok in H as [[l1 done] [E H]].
  rewrite (chain_mono _ _ _ _ _ _ E m Hm). exact H.
Qed.
