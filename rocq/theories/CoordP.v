(** Proofs about C78, part 1: the loop of set_coords ends, and what it gives. *)
From Coq Require Import QArith Qcanon.
From Verif Require Import Base Lib StimM LayoutM SpecLayout LayoutP LayoutP2 SpecGen CoordM SpecCoord.
Open Scope Z_scope.

(** * Setting an attribute *)
Lemma lset_all l p q v : In q (dkeys (l_nodes l)) -> exists l', lset_param l p q v = Ok l'.
Proof. intros H. destruct (key_dget _ _ H) as [a E]. unfold lset_param, dget_err. rewrite E. cbn [of_opt bind]. eauto. Qed.
Lemma lset_facts l p q v l' : lset_param l p q v = Ok l' -> l_adj l' = l_adj l /\ dkeys (l_nodes l') = dkeys (l_nodes l) /\
  lparam l' p q = Ok v /\ forall q', q' <> q -> lparam l' p q' = lparam l p q'.
Proof.
  unfold lset_param. intros H. apply bind_ok in H as [a [Ea H]]. injection H as <-. unfold dget_err in Ea.
  destruct (dget q (l_nodes l)) as [a'|] eqn:E; [|discriminate]. injection Ea as ->. cbn [with_nodes l_adj l_nodes].
  split; [reflexivity|]. split; [rewrite dkeys_dset; unfold dmem; now rewrite E|]. unfold lparam, dget_err. cbn [with_nodes l_nodes]. split.
  - rewrite dget_dset_same. cbn [of_opt bind]. now rewrite dget_dset_same.
  - intros q' N. now rewrite dget_dset_other by congruence.
Qed.
Lemma only_trans p a b c : only_set p a b -> only_set p b c -> only_set p a c.
Proof. induction 1; [auto|]. intros. econstructor; eauto. Qed.

(** * Neighbours *)
Lemma pairs_one l q d : get_pairs l [q] d = map (fun nd => (q, fst nd)) (filter (fun nd => match d with None => true | Some d => eqb (snd nd) d end) (row_of l q)).
Proof.
  unfold get_pairs, out_edges, row_of, dedup. cbn [dedup_acc mem existsb flat_map]. rewrite app_nil_r.
  destruct (dget q (l_adj l)) as [row|]; [|reflexivity]. cbn [odef].
  induction row as [|nd row IH]; [reflexivity|]. cbn [map filter snd]. destruct (match d with None => true | Some d => eqb (snd nd) d end); cbn [map fst snd]; [f_equal|]; exact IH.
Qed.
Lemma nbr_any l q nb : In nb (get_neighbors l [q] None) <-> In nb (dkeys (row_of l q)).
Proof.
  unfold get_neighbors. rewrite pairs_one, map_map. cbn [snd]. unfold dkeys.
  replace (filter (fun _ => true) (row_of l q)) with (row_of l q); [reflexivity|].
  induction (row_of l q) as [|x r IH]; [reflexivity|]. cbn [filter]. now rewrite <- IH.
Qed.
Lemma nbr_dir l q nb d : In (nb, d) (row_of l q) -> In nb (get_neighbors l [q] (Some d)).
Proof.
  intros H. unfold get_neighbors. rewrite pairs_one, map_map. cbn [snd]. change nb with (fst (nb, d)). apply in_map, filter_In. split; [exact H|apply eqb_refl].
Qed.

Lemma nbr_row l q nb d : In nb (get_neighbors l [q] (Some d)) <-> In (nb, d) (row_of l q).
Proof.
  split; [|apply nbr_dir]. unfold get_neighbors. rewrite pairs_one, map_map. cbn [snd]. intros H. apply in_map_iff in H as ([x y] & <- & H).
  apply filter_In in H as [H E]. cbn [fst snd] in *. destruct (eqb_spec y d) as [->|]; [exact H|discriminate].
Qed.

(** * The loop ends *)
Section Ends.
  Context (l0 : layout).
  Notation keys := (dkeys (l_nodes l0)).
  Lemma row_bound : exists B, forall q, (length (row_of l0 q) < B)%nat.
  Proof.
    assert (G : forall adj : dict string (dict string string), exists B, forall q, (length (odef [] (dget q adj)) < B)%nat).
    { induction adj as [|[k r] adj [B IH]]; [exists 1%nat; intros q; cbn; lia|]. exists (S (length r) + B)%nat. intros q. cbn [dget].
      destruct (eqb q k); cbn [odef]; [lia|]. specialize (IH q). lia. }
    destruct (G (l_adj l0)) as [B H]. exists B. exact H.
  Qed.
  (* the nodes without coordinates *)
  Definition unset (done : list string) : nat := length (filter (fun q => negb (mem q done)) keys).
  Lemma filter_le {A} (f g : A -> bool) r : (forall x, f x = true -> g x = true) -> (length (filter f r) <= length (filter g r))%nat.
  Proof.
    intros H. induction r as [|x r IH]; [auto|]. cbn [filter]. specialize (H x). destruct (f x); [rewrite H by reflexivity; cbn [length]; lia|].
    destruct (g x); cbn [length]; lia.
  Qed.
  Lemma filter_lt {A} (f g : A -> bool) r v : (forall x, f x = true -> g x = true) -> In v r -> f v = false -> g v = true ->
    (length (filter f r) < length (filter g r))%nat.
  Proof.
    intros H. induction r as [|x r IH]; intros I F G; [destruct I|]. pose proof (filter_le f g r H) as L. cbn [filter]. destruct I as [->|I].
    - rewrite F, G. cbn [length]. lia.
    - specialize (IH I F G). specialize (H x). destruct (f x); [rewrite H by reflexivity; cbn [length]; lia|]. destruct (g x); cbn [length]; lia.
  Qed.
  Lemma unset_lt v done : In v keys -> mem v done = false -> (unset (v :: done) < unset done)%nat.
  Proof.
    intros I M. unfold unset. apply (filter_lt _ _ _ v); [|exact I| |now rewrite M].
    - intros x. cbn [mem existsb]. rewrite negb_orb, andb_true_iff. tauto.
    - cbn [mem existsb]. now rewrite eqb_refl.
  Qed.
  Lemma unset_mono v q done : (unset (v :: q :: done) <= unset (v :: done))%nat.
  Proof. unfold unset. apply filter_le. intros x. cbn [mem existsb]. rewrite !negb_orb, !andb_true_iff. tauto. Qed.
  Section Measure.
    Context {A : Type} (lab : A -> string) (B : nat).
    Hypothesis HB : (1 <= B)%nat.
    Fixpoint measure (done : list string) (queue : list A) : nat :=
      match queue with [] => 0 | x :: r => B ^ unset (lab x :: done) + measure done r end.
    Lemma measure_app done a b : measure done (a ++ b) = (measure done a + measure done b)%nat.
    Proof. induction a as [|x a IH]; [reflexivity|]. cbn [measure app]. lia. Qed.
    Lemma measure_mono q done r : (measure (q :: done) r <= measure done r)%nat.
    Proof.
      induction r as [|x r IH]; [auto|]. cbn [measure]. pose proof (Nat.pow_le_mono_r B _ _ ltac:(lia) (unset_mono (lab x) q done)). lia.
    Qed.
    Lemma measure_step q done r new : (length new < B)%nat -> (forall x, In x new -> In (lab x) keys /\ mem (lab x) (q :: done) = false) ->
      (measure (q :: done) (r ++ new) < B ^ unset (q :: done) + measure done r)%nat.
    Proof.
      intros L H. rewrite measure_app. pose proof (measure_mono q done r) as M.
      assert (W : (measure (q :: done) new < B ^ unset (q :: done))%nat); [|lia].
      destruct new as [|y new]; [cbn [measure]; pose proof (Nat.pow_nonzero B (unset (q :: done))); lia|].
      destruct (H y (or_introl eq_refl)) as [K1 K2]. pose proof (unset_lt _ _ K1 K2) as U. set (u := unset (q :: done)) in *.
      assert (G : forall zs, (forall x, In x zs -> In (lab x) keys /\ mem (lab x) (q :: done) = false) -> (measure (q :: done) zs <= length zs * B ^ (u - 1))%nat).
      { induction zs as [|z zs IH]; intros Hz; [cbn; lia|]. cbn [measure length]. destruct (Hz z (or_introl eq_refl)) as [Z1 Z2].
        pose proof (unset_lt _ _ Z1 Z2) as U'. fold u in U'. pose proof (Nat.pow_le_mono_r B (unset (lab z :: q :: done)) (u - 1) ltac:(lia) ltac:(lia)).
        specialize (IH (fun x Hx => Hz x (or_intror Hx))). lia. }
      specialize (G _ H). assert (E : (B ^ u = B * B ^ (u - 1))%nat) by (replace u with (S (u - 1)) at 1 by lia; reflexivity).
      pose proof (Nat.pow_nonzero B (u - 1)). nia.
    Qed.
  End Measure.
  Hypothesis Hrow : forall q nb, In nb (dkeys (row_of l0 q)) -> In nb keys.
  Lemma loop_ends B : (forall q, (length (row_of l0 q) < B)%nat) -> forall n l done queue, l_adj l = l_adj l0 -> dkeys (l_nodes l) = keys ->
    (forall x, In x queue -> In (fst x) keys) -> (measure fst B done queue <= n)%nat ->
    exists l', forall m, (n <= m)%nat -> coords_loop m l done queue = Ok l'.
  Proof.
    intros HB. assert (B1 : (1 <= B)%nat) by (specialize (HB ""); lia).
    induction n as [|n IH]; intros l done queue Ea Ek Hq M.
    - destruct queue as [|[q c] r]; [exists l; intros [|m] _; reflexivity|]. exfalso. cbn [measure] in M.
      pose proof (Nat.pow_nonzero B (unset (q :: done))). cbn [fst] in M. lia.
    - destruct queue as [|[q c] r]; [exists l; intros [|m] _; reflexivity|].
      assert (Kq : In q (dkeys (l_nodes l))) by (rewrite Ek; exact (Hq _ (or_introl eq_refl))).
      destruct (lset_all l "coords" q (int_list c) Kq) as [l1 E1]. destruct (lset_facts _ _ _ _ _ E1) as (A1 & K1 & _).
      set (new := map (fun nd => (fst nd, shifted c (snd nd))) (filter (fun nd => negb (mem (fst nd) (q :: done))) (row_of l q))).
      assert (Er : row_of l q = row_of l0 q) by (unfold row_of; now rewrite Ea).
      assert (Hn : forall x, In x new -> In (fst x) keys /\ mem (fst x) (q :: done) = false).
      { intros x Hx. apply in_map_iff in Hx as (nd & <- & Hx). cbn [fst]. apply filter_In in Hx as [Hx Hm]. rewrite Er in Hx.
        split; [|now apply negb_true_iff]. apply (Hrow q). unfold dkeys. now apply in_map. }
      destruct (IH l1 (q :: done) (r ++ new)) as [l' H'].
      + congruence.
      + congruence.
      + intros x Hx. apply in_app_or in Hx as [Hx|Hx]; [apply Hq; now right|now apply Hn].
      + cbn [measure fst] in M. pose proof (measure_step fst B B1 q done r new) as W. cbn [fst] in W.
        assert (Ln : (length new < B)%nat).
        { unfold new. rewrite map_length, Er. eapply Nat.le_lt_trans; [|apply (HB q)]. clear. induction (row_of l0 q) as [|x r' IHr]; [auto|]. cbn [filter]. destruct (negb _); cbn [length]; lia. }
        specialize (W Ln Hn). lia.
      + exists l'. intros [|m] Hm; [lia|]. cbn [coords_loop]. rewrite E1. cbn [bind]. apply H'. lia.
  Qed.
End Ends.

(** * What the loop gives *)
Lemma shifted_dir d r c x y : In (d, (r, c)) diagonal -> shifted [x; y] d = [x + r; y + c].
Proof. cbn. intros [[= <- <- <-]|[[= <- <- <-]|[[= <- <- <-]|[[= <- <- <-]|[]]]]]; reflexivity. Qed.
Section Gives.
  Context (l0 : layout) (place : string -> Z * Z) (q0 : string).
  Hypothesis Hf : follows_directions l0 place.
  Definition rel (q : string) : list Z := [fst (place q) - fst (place q0); snd (place q) - snd (place q0)].
  Lemma loop_gives n : forall l done queue l', coords_loop n l done queue = Ok l' ->
    l_adj l = l_adj l0 -> only_set "coords" l0 l ->
    (forall q, In q done -> reach l0 q0 q /\ lparam l "coords" q = Ok (int_list (rel q))) ->
    (forall q, ~ In q done -> lparam l "coords" q = lparam l0 "coords" q) ->
    (forall q c, In (q, c) queue -> reach l0 q0 q /\ c = rel q) ->
    (forall q nb, In q done -> In nb (dkeys (row_of l0 q)) -> In nb done \/ In nb (map fst queue)) ->
    (In q0 done \/ In q0 (map fst queue)) ->
    only_set "coords" l0 l' /\ (forall q, reach l0 q0 q -> lparam l' "coords" q = Ok (int_list (rel q))) /\
    (forall q, ~ reach l0 q0 q -> lparam l' "coords" q = lparam l0 "coords" q).
  Proof.
    induction n as [|n IH]; intros l done queue l' H Ea O I3 I4 I5 I6 I7.
    - destruct queue as [|[q c] r]; [|discriminate]. injection H as <-. split; [exact O|].
      assert (R : forall q, reach l0 q0 q -> In q done).
      { induction 1 as [|b c R IHr N]; [destruct I7 as [|[]]; assumption|]. apply nbr_any in N. destruct (I6 b c IHr N) as [|[]]; assumption. }
      split; [intros q Hq; now apply I3, R|]. intros q Hq. apply I4. intros D. now apply Hq, I3.
    - destruct queue as [|[q c] r].
      { injection H as <-. split; [exact O|].
        assert (R : forall q, reach l0 q0 q -> In q done).
        { induction 1 as [|b c R IHr N]; [destruct I7 as [|[]]; assumption|]. apply nbr_any in N. destruct (I6 b c IHr N) as [|[]]; assumption. }
        split; [intros q Hq; now apply I3, R|]. intros q Hq. apply I4. intros D. now apply Hq, I3. }
      cbn [coords_loop] in H. apply bind_ok in H as [l1 [E1 H]]. destruct (lset_facts _ _ _ _ _ E1) as (A1 & _ & V1 & O1).
      destruct (I5 q c (or_introl eq_refl)) as [Rq ->].
      assert (Er : row_of l q = row_of l0 q) by (unfold row_of; now rewrite Ea).
      apply (IH _ _ _ _ H).
      + congruence.
      + apply (only_trans _ _ l); [exact O|]. econstructor; [exact E1|constructor].
      + intros x Hx. destruct (string_dec x q) as [->|N]; [now split|]. destruct Hx as [->|Hx]; [congruence|]. destruct (I3 x Hx) as [R E]. split; [exact R|].
        rewrite O1 by exact N. exact E.
      + intros x Hx. rewrite O1 by (intros ->; apply Hx; now left). apply I4. intros D. apply Hx. now right.
      + intros x c Hx. apply in_app_or in Hx as [Hx|Hx]; [apply I5; now right|]. apply in_map_iff in Hx as ([nb d] & [= <- <-] & Hx).
        apply filter_In in Hx as [Hx _]. rewrite Er in Hx. split.
        * apply (reach_next _ _ q); [exact Rq|]. apply nbr_any. unfold dkeys. change nb with (fst (nb, d)). now apply in_map.
        * destruct (Hf q nb d (nbr_dir _ _ _ _ Hx)) as (dr & dc & Hd & Ep). unfold rel at 1. cbn [snd fst]. rewrite (shifted_dir _ _ _ _ _ Hd).
          unfold rel. rewrite Ep. cbn [fst snd]. f_equal; [lia|]. f_equal. lia.
      + intros x nb Hx N. assert (D : {In nb (q :: done)} + {~ In nb (q :: done)}) by apply (in_dec string_dec). destruct D as [D|D]; [now left|]. right. rewrite map_app. apply in_or_app.
        destruct Hx as [<-|Hx].
        * right. rewrite map_map. cbn [fst]. unfold dkeys in N. apply in_map_iff in N as (nd & <- & N). apply in_map_iff. exists nd. split; [reflexivity|].
          apply filter_In. rewrite Er. split; [exact N|]. apply negb_true_iff. destruct (mem (fst nd) (q :: done)) eqn:M; [|reflexivity]. apply mem_In in M. tauto.
        * left. destruct (I6 x nb Hx N) as [K|[K|K]]; [exfalso; apply D; now right|exfalso; apply D; now left|exact K].
      + destruct I7 as [K|[K|K]]; [left; now right|left; now left|right; rewrite map_app; apply in_or_app; now left].
  Qed.
End Gives.

(** * set_coords *)

Section Set_.
  Context (l : layout) (override : bool) (q0 : string).
  Hypothesis W : wf l.
  Hypothesis Hl : last_qubit l q0.
  Hypothesis Ho : override = true \/ no_coords l.
  Lemma rows_in q nb : In nb (dkeys (row_of l q)) -> In nb (dkeys (l_nodes l)).
  Proof.
    unfold row_of. destruct (dget q (l_adj l)) as [row|] eqn:E; [|intros []]. cbn [odef]. apply dget_In in E.
    pose proof (wf_rows _ W) as F. rewrite Forall_forall in F. apply (F _ E).
  Qed.
  Lemma no_override : negb override && negb (Nat.eqb (length (qubit_coords_attr l)) 0) = false.
  Proof.
    destruct Ho as [-> | H]; [reflexivity|]. apply andb_false_iff. right. apply negb_false_iff, Nat.eqb_eq.
    destruct (qubit_coords_attr l) as [|[q c] r] eqn:E; [reflexivity|]. exfalso.
    apply (H q c). unfold get_coords. rewrite E. cbn [dkeys map fst mapM]. unfold dget_err. cbn [dget]. rewrite eqb_refl. cbn [of_opt bind].
    replace (strict_superset [q] (q :: map fst r)) with false; [reflexivity|]. unfold strict_superset, subset. symmetry. apply andb_false_iff. right. apply negb_false_iff.
    cbn [forallb mem existsb]. now rewrite eqb_refl.
  Qed.
  Lemma set_start n : set_coords n l override = coords_loop n l [] [(q0, [0; 0])].
  Proof.
    unfold set_coords. rewrite no_override. destruct Hl as [pre E]. unfold dkeys. rewrite E, rev_app_distr. reflexivity.
  Qed.
  Lemma last_in : In q0 (dkeys (l_nodes l)).
  Proof. destruct Hl as [pre E]. unfold dkeys. rewrite E. apply in_or_app. right. now left. Qed.
  Lemma set_ends : exists l', gives (fun n => set_coords n l override) l'.
  Proof.
    destruct (row_bound l) as [B HB]. set (n := measure l fst B [] [(q0, [0; 0])]).
    destruct (loop_ends l rows_in B HB n l [] [(q0, [0; 0])]) as [l' H]; auto.
    - intros x [<-|[]]. apply last_in.
    - exists l', n. intros m Hm. rewrite set_start. now apply H.
  Qed.
  Lemma set_gives place n l' : follows_directions l place -> set_coords n l override = Ok l' ->
    only_set "coords" l l' /\
    (forall q, reach l q0 q -> lparam l' "coords" q = Ok (int_list [fst (place q) - fst (place q0); snd (place q) - snd (place q0)])) /\
    (forall q, ~ reach l q0 q -> lparam l' "coords" q = lparam l "coords" q).
  Proof.
    intros Hf H. rewrite set_start in H. apply (loop_gives l place q0 Hf n l [] _ l' H).
    - reflexivity.
    - constructor.
    - intros q [].
    - reflexivity.
    - intros q c [[= <- <-]|[]]. split; [constructor|]. unfold rel. now rewrite !Z.sub_diag.
    - intros q nb [].
    - right. now left.
  Qed.
End Set_.

Lemma set_refuses n l q c : get_coords l [q] = Ok [c] -> set_coords n l false = Err ValueError.
Proof.
  unfold get_coords. destruct (strict_superset [q] (dkeys (qubit_coords_attr l))); [discriminate|]. cbn [mapM]. unfold dget_err.
  intros H. unfold set_coords. destruct (qubit_coords_attr l); [discriminate|]. reflexivity.
Qed.
Lemma loop_mono n : forall l done queue l', coords_loop n l done queue = Ok l' -> forall m, (n <= m)%nat -> coords_loop m l done queue = Ok l'.
Proof.
  induction n as [|n IH]; intros l done queue l' H m Hm; destruct queue as [|[q c] r]; try discriminate; [destruct m; exact H|destruct m; exact H|].
  destruct m as [|m]; [lia|]. cbn [coords_loop] in *. apply bind_ok in H as [l1 [E1 H]]. rewrite E1. cbn [bind]. apply (IH _ _ _ _ H). lia.
Qed.
Lemma more_fuel n l override l' : set_coords n l override = Ok l' -> gives (fun n => set_coords n l override) l'.
Proof.
  intros H. exists n. intros m Hm. unfold set_coords in *. destruct (negb override && _); [discriminate|]. destruct (rev (dkeys (l_nodes l))); [discriminate|].
  now apply (loop_mono n).
Qed.
