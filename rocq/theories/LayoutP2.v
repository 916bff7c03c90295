(** Proofs about layouts, continued: overlaps, coordinate indices, neighbours
    and attribute queries (C24, C25, C51, C52). *)
From Coq Require Import QArith Qcanon.
From Verif Require Import Base Lib StimM LayoutM SpecLayout LayoutP.
Open Scope Z_scope.

(** * Neighbours *)
Lemma NoDup_dedup {A} `{Eqb A} (l : list A) : NoDup (dedup l) /\ forall x, In x (dedup l) <-> In x l.
Proof.
  assert (G : forall l seen, NoDup (dedup_acc seen l) /\
    forall x, In x (dedup_acc seen l) <-> In x l /\ ~ In x seen).
  { clear l. induction l as [|a l IH]; intros seen; simpl; [split; [constructor|tauto]|].
    destruct (mem a seen) eqn:E.
    - destruct (IH seen) as [N I]. split; [exact N|]. intros x. rewrite I. apply mem_In in E.
      split; [tauto|]. intros [[->|Hx] Hn]; tauto.
    - destruct (IH (a :: seen)) as [N I]. apply mem_not_In in E. split.
      + constructor; [|exact N]. rewrite I. simpl. tauto.
      + intros x. simpl. rewrite I. simpl. split.
        * intros [->|[Hx Hn]]; tauto.
        * intros [[->|Hx] Hn]; [tauto|]. destruct (eqb_spec a x) as [->|Ne]; tauto. }
  destruct (G l []) as [N I]. split; [exact N|]. intros x. unfold dedup. rewrite I. simpl. tauto.
Qed.

Lemma get_pairs_In l qs dir a b : wf l ->
  In (a, b) (get_pairs l qs dir) <->
  In a qs /\ exists d e, dget a (l_adj l) = Some e /\ dget b e = Some d /\
                         match dir with None => True | Some d' => d = d' end.
Proof.
  intros W. unfold get_pairs. rewrite in_map_iff. split.
  - intros ([q [nb d]] & [= <- <-] & Hf). apply filter_In in Hf as [Ho Hd]. unfold out_edges in Ho.
    apply in_flat_map in Ho as (q' & Hq & Ho). destruct (dget q' (l_adj l)) as [e|] eqn:E; [|destruct Ho].
    apply in_map_iff in Ho as ([nb' d'] & [= <- <- <-] & Hin).
    split; [now apply (NoDup_dedup qs)|]. exists d', e. split; [exact E|]. split.
    + apply In_dget; [|exact Hin]. apply (adj_row l q' e W E).
    + destruct dir as [d0|]; [|exact I]. now apply eqb_true in Hd.
  - intros (Ha & d & e & E & Hd & Hdir). exists (a, (b, d)). split; [reflexivity|]. apply filter_In. split.
    + unfold out_edges. apply in_flat_map. exists a. split; [now apply (NoDup_dedup qs)|]. rewrite E.
      apply in_map. now apply dget_In.
    + destruct dir as [d0|]; [|reflexivity]. subst. apply eqb_refl.
Qed.
Lemma get_pairs_nodup l qs dir : wf l -> NoDup (get_pairs l qs dir).
Proof.
  intros W. unfold get_pairs, out_edges. destruct (NoDup_dedup qs) as [N _]. revert N.
  generalize (dedup qs). intros ks. induction ks as [|k ks IH]; intros N; [constructor|].
  inversion N as [|? ? Hk N']; subst. cbn [flat_map]. rewrite filter_app, map_app.
  assert (Sub : forall a b, In (a, b) (map (fun e => (fst e, fst (snd e)))
     (filter (fun e : string * (string * string) => match dir with None => true | Some d => eqb (snd (snd e)) d end)
       (flat_map (fun q => match dget q (l_adj l) with Some d => map (fun nd => (q, nd)) d | None => [] end) ks))) -> In a ks).
  { intros a b H. apply in_map_iff in H as ([q [nb d]] & [= <- <-] & H). apply filter_In in H as [H _].
    apply in_flat_map in H as (q' & Hq & H). destruct (dget q' (l_adj l)); [|destruct H].
    apply in_map_iff in H as ([? ?] & [= <- _ _] & _). exact Hq. }
  assert (App : forall (x y : list (string * string)), NoDup x -> NoDup y -> (forall p, In p x -> ~ In p y) -> NoDup (x ++ y)).
  { clear. induction x as [|p x IH]; intros y Nx Ny D; [exact Ny|]. inversion Nx; subst. simpl. constructor.
    - rewrite in_app_iff. intros [Hi|Hi]; [tauto|]. apply (D p); [now left|exact Hi].
    - apply IH; auto. intros p' Hp. apply D. now right. }
  apply App; [|exact (IH N')|].
  - destruct (dget k (l_adj l)) as [e|] eqn:E; [|constructor].
    destruct (adj_row l k e W E) as (N1 & _ & _). clear -N1.
    induction e as [|[nb d] e IH]; [constructor|]. inversion N1 as [|? ? Hn N1']; subst. cbn [map filter].
    assert (Hin : forall p, In p (map (fun e => (fst e, fst (snd e))) (filter (fun e : string * (string * string) => match dir with None => true | Some d => eqb (snd (snd e)) d end) (map (fun nd => (k, nd)) e))) -> In (snd p) (dkeys e)).
    { intros [a b] H. apply in_map_iff in H as ([q [nb' d']] & [= <- <-] & H). apply filter_In in H as [H _].
      apply in_map_iff in H as ([? ?] & [= <- <- <-] & H). apply (in_map fst) in H. exact H. }
    destruct (match dir with None => true | Some d0 => eqb (snd (snd (k, (nb, d)))) d0 end); [|exact (IH N1')].
    cbn [map fst snd]. constructor; [|exact (IH N1')]. intros H. apply Hn. exact (Hin _ H).
  - intros [a b] H1 H2. apply Sub in H2. apply Hk.
    apply in_map_iff in H1 as ([q [nb d]] & [= <- <-] & H1). apply filter_In in H1 as [H1 _].
    destruct (dget k (l_adj l)); [|destruct H1]. apply in_map_iff in H1 as ([? ?] & [= <- _ _] & _). exact H2.
Qed.

Section Nbrs.
  Context (r : raw_layout) (l : layout) (infos : list attrs).
  Hypothesis P : py_dicts r.
  Hypothesis H : layout_init r = Ok l.
  Hypothesis Hi : rl_layout r = Some infos.
  Let W : wf l := loaded_wf r l P H.
  Lemma adj_of q e : dget q (l_adj l) = Some e <->
    exists a, In a infos /\ labelled a q /\ e = edges (nd_of a).
  Proof.
    pose proof (ls_adj _ _ (proj1 (layout_init_char r l) H)) as E. rewrite E. unfold edge_map.
    rewrite (dget_map (fun qa : string * attrs => edges (nd_of (snd qa)))). split.
    - destruct (dget q (l_nodes l)) as [a|] eqn:Ea; [|discriminate]. intros [= <-].
      destruct (node_info r l infos H Hi q a Ea) as (a0 & Ha & L & ->). exists a0.
      cbn [snd]. rewrite nd_of_ddel. auto.
    - intros (a & Ha & L & ->). rewrite (info_node r l infos H Hi a q Ha L). cbn [snd]. now rewrite nd_of_ddel.
  Qed.
  Lemma describes_nd q d nb : describes infos q d nb <->
    exists a, In a infos /\ labelled a q /\ In (d, PStr nb) (nd_of a).
  Proof.
    unfold describes, nd_of. split.
    - intros (a & nd & Ha & L & E & Hn). exists a. rewrite E. auto.
    - intros (a & Ha & L & Hn). destruct (dget "neighbors" a) as [v|] eqn:E; [|destruct Hn].
      destruct v; try destruct Hn. exists a, d0. auto.
  Qed.
  Lemma C51_none_lemma qs a b :
    In (a, b) (get_pairs l qs None) <-> In a qs /\ exists d, describes infos a d b.
  Proof.
    rewrite (get_pairs_In l qs None a b W). split; intros [Ha Hx]; (split; [exact Ha|]).
    - destruct Hx as (d & e & E & Hd & _). apply adj_of in E as (a0 & H0 & L & ->).
      apply edges_in in Hd as [Hd|Hd]; [discriminate|]. exists d. apply describes_nd. eauto.
    - destruct Hx as (d & Hx). apply describes_nd in Hx as (a0 & H0 & L & Hn).
      assert (Hb : In b (dkeys (edges (nd_of a0)))) by (apply edges_mem; eauto).
      destruct (key_dget _ _ Hb) as [d' Hd']. exists d', (edges (nd_of a0)). split; [|auto].
      apply adj_of. eauto.
  Qed.
  Lemma C51_dir_lemma qs d a b : one_direction infos ->
    In (a, b) (get_pairs l qs (Some d)) <-> In a qs /\ describes infos a d b.
  Proof.
    intros O. rewrite (get_pairs_In l qs (Some d) a b W). split; intros [Ha Hx]; (split; [exact Ha|]).
    - destruct Hx as (d' & e & E & Hd & ->). apply adj_of in E as (a0 & H0 & L & ->).
      apply edges_in in Hd as [Hd|Hd]; [discriminate|]. apply describes_nd. eauto.
    - apply describes_nd in Hx as (a0 & H0 & L & Hn).
      assert (Hb : In b (dkeys (edges (nd_of a0)))) by (apply edges_mem; eauto).
      destruct (key_dget _ _ Hb) as [d' Hd']. exists d', (edges (nd_of a0)). split; [apply adj_of; eauto|].
      split; [exact Hd'|]. apply edges_in in Hd' as [Hd'|Hd']; [discriminate|].
      apply (O a d' d b); apply describes_nd; eauto.
  Qed.
End Nbrs.

(** * Queries *)
Lemma pyv_eqb_spec : forall x y, pyv_eqb x y = true <-> x = y.
Proof.
  fix IH 1. intros x y. destruct x as [|b|q|s|l|d], y as [|b'|q'|s'|l'|d'];
    try (split; [discriminate|intros [=]]); try (split; reflexivity); cbn [pyv_eqb].
  - rewrite Bool.eqb_true_iff. split; congruence.
  - rewrite eqb_eq. split; congruence.
  - rewrite eqb_eq. split; congruence.
  - enough (G : forall l', (fix go l l' := match l, l' with
                      | [], [] => true | a :: r, b :: r' => pyv_eqb a b && go r r' | _, _ => false end) l l' = true <-> l = l').
    { rewrite G. split; congruence. }
    induction l as [|a l IHl]; intros [|b m]; try (split; [discriminate|intros [=]]); [split; reflexivity|].
    rewrite andb_true_iff, IH, IHl. split; [intros [-> ->]; reflexivity|intros [=]; auto].
  - enough (G : forall d', (fix go l l' := match l, l' with
                      | [], [] => true | (k, a) :: r, (k', b) :: r' => eqb k k' && pyv_eqb a b && go r r' | _, _ => false end) d d' = true <-> d = d').
    { rewrite G. split; congruence. }
    induction d as [|[k a] d IHd]; intros [|[k' b] m]; try (split; [discriminate|intros [=]]); [split; reflexivity|].
    rewrite !andb_true_iff, IH, IHd, eqb_eq. split; [intros [[-> ->] ->]; reflexivity|intros [=]; auto].
Qed.
Lemma valid_attrs_spec a conds b : valid_attrs a conds = Ok b ->
  (b = true <-> forall k v, In (k, v) conds -> dget k a = Some v /\ v <> PNone).
Proof.
  induction conds as [|[k v] conds IH]; cbn [valid_attrs].
  - intros [= <-]. split; [intros _ k v []|reflexivity].
  - intros H. apply bind_ok in H as [x [E H]]. unfold dget_err in E. destruct (dget k a) as [x'|] eqn:Ek; [|discriminate].
    injection E as ->. destruct (is_none x || negb (pyv_eqb x v)) eqn:Ec.
    + injection H as <-. split; [discriminate|]. intros F. destruct (F k v (or_introl eq_refl)) as [E1 E2].
      rewrite Ek in E1. injection E1 as ->. assert (pyv_eqb v v = true) by (now apply pyv_eqb_spec).
      rewrite H in Ec. destruct v; simpl in Ec; congruence.
    + apply orb_false_iff in Ec as [E1 E2]. apply negb_false_iff, pyv_eqb_spec in E2. subst x.
      rewrite (IH H). split.
      * intros F k' v' [[= <- <-]|Hin]; [|auto]. split; [exact Ek|]. destruct v; simpl in E1; congruence.
      * intros F k' v' Hin. apply F. now right.
Qed.
Lemma filter_all {A} (l : list A) : filter (fun _ => true) l = l.
Proof. induction l; simpl; congruence. Qed.
Lemma filter_combine (ks : list string) bs : length ks = length bs -> NoDup ks ->
  exists p, map fst (filter snd (combine ks bs)) = filter p ks /\
            Forall2 (fun k b => p k = b) ks bs.
Proof.
  revert bs; induction ks as [|k ks IH]; intros [|b bs] L N; try discriminate.
  - exists (fun _ => true). split; constructor.
  - injection L as L. inversion N as [|? ? Hk N']; subst. destruct (IH bs L N') as (p & E & F).
    exists (fun x => if eqb x k then b else p x).
    assert (F' : Forall2 (fun x b0 => (if eqb x k then b else p x) = b0) ks bs).
    { clear -F Hk. induction F as [|x y ks bs H F IH]; constructor; [|apply IH; simpl in Hk; tauto].
      destruct (eqb_spec x k) as [->|]; [|exact H]. simpl in Hk. tauto. }
    split; [|constructor; [now rewrite eqb_refl|exact F']].
    simpl. rewrite eqb_refl.
    assert (Ef : filter (fun x => if eqb x k then b else p x) ks = filter p ks).
    { apply filter_ext_in. intros x Hx. destruct (eqb_spec x k) as [->|]; tauto || reflexivity. }
    destruct b; simpl; rewrite E, Ef; reflexivity.
Qed.
Lemma lparam_attr l k q v : NoDup (dkeys (l_nodes l)) ->
  attribute l k v q <-> exists a, dget q (l_nodes l) = Some a /\ dget k a = Some v /\ v <> PNone.
Proof.
  intros N. unfold attribute, lparam, dget_err. split.
  - destruct (dget q (l_nodes l)) as [a|]; [|intros [[=] _]]. cbn [of_opt bind]. intros [E Hv]. injection E as E.
    exists a. split; [reflexivity|]. destruct (dget k a); simpl in E; subst; auto. congruence.
  - intros (a & -> & E & Hv). cbn [of_opt bind]. rewrite E. auto.
Qed.
Lemma C52_lemma l conds qs : wf l -> get_qubits l conds = Ok qs ->
  exists p, qs = filter p (map fst (l_nodes l)) /\
    forall q, In q (map fst (l_nodes l)) -> (p q = true <-> forall k v, In (k, v) conds -> attribute l k v q).
Proof.
  intros W H. unfold get_qubits in H. destruct conds as [|c conds].
  - injection H as <-. exists (fun _ => true). split; [symmetry; apply filter_all|].
    intros q _. split; [intros _ k v []|reflexivity].
  - apply bind_ok in H as [bs [Hb H]]. injection H as <-. set (cs := c :: conds) in *. clearbody cs.
    apply mapM_Forall2 in Hb.
    destruct (filter_combine (dkeys (l_nodes l)) bs) as (p & E & F).
    { unfold dkeys. rewrite map_length. eapply Forall2_len; eauto. }
    { exact (wf_nodup _ W). }
    exists p. split; [exact E|]. intros q Hq. change (map fst (l_nodes l)) with (dkeys (l_nodes l)) in Hq.
    destruct (key_dget _ _ Hq) as [a Ea].
    assert (V : valid_attrs a cs = Ok (p q)).
    { apply dget_In in Ea. clear -Hb F Ea. unfold dkeys in F. revert F Ea. induction Hb as [|[q' a'] b n bs H Hb IH]; intros F Ea; [destruct Ea|].
      simpl in F. inversion F as [|? ? ? ? F1 F2]; subst. destruct Ea as [[= -> ->]|Ea]; [exact H|auto]. }
    rewrite (valid_attrs_spec a cs (p q) V). split; intros G k v Hin.
    + apply (lparam_attr l k q v (wf_nodup _ W)). exists a. split; [exact Ea|]. auto.
    + apply G in Hin. apply (lparam_attr l k q v (wf_nodup _ W)) in Hin as (a' & Ea' & ?). rewrite Ea in Ea'.
      injection Ea' as ->. assumption.
Qed.
Lemma C52_total_lemma l conds : wf l ->
  (forall q k v, In q (map fst (l_nodes l)) -> In (k, v) conds -> exists w, attribute l k w q) ->
  exists qs, get_qubits l conds = Ok qs.
Proof.
  intros W H. unfold get_qubits. destruct conds as [|c conds]; [eauto|]. set (cs := c :: conds) in *. clearbody cs.
  assert (G : exists bs, mapM (fun qa => valid_attrs (snd qa) cs) (l_nodes l) = Ok bs).
  { assert (A : forall n, incl n (l_nodes l) -> exists bs, mapM (fun qa => valid_attrs (snd qa) cs) n = Ok bs).
    { induction n as [|[q a] n IH]; intros Hn; simpl; [eauto|]. destruct IH as [bs Hb]; [intros x Hx; apply Hn; now right|].
      assert (V : forall cs', incl cs' cs -> exists b, valid_attrs a cs' = Ok b).
      { induction cs' as [|[k v] cs' IHc]; intros Hc; cbn [valid_attrs]; [eauto|].
        destruct (H q k v) as [w Hw].
        { change q with (fst (q, a)). apply in_map. apply Hn. now left. }
        { apply Hc. now left. }
        apply (lparam_attr l k q w (wf_nodup _ W)) in Hw as (a' & Ea & Ek & _).
        rewrite (In_dget q a (l_nodes l) (wf_nodup _ W)) in Ea by (apply Hn; now left). injection Ea as <-.
        unfold dget_err. rewrite Ek. cbn [of_opt bind]. destruct (is_none w || negb (pyv_eqb w v)); [eauto|].
        apply IHc. intros x Hx. apply Hc. now right. }
      destruct (V cs (incl_refl _)) as [b ->]. cbn [bind]. rewrite Hb. cbn [bind]. eauto. }
    apply A, incl_refl. }
  destruct G as [bs ->]. cbn [bind]. eauto.
Qed.

Lemma adjacent_spec l a b : wf l -> adjacent l a b = true <-> In b (get_neighbors l [a] None).
Proof.
  intros W. unfold adjacent, get_neighbors. rewrite in_map_iff. split.
  - destruct (dget a (l_adj l)) as [e|] eqn:E; [|discriminate]. intros Hm. exists (a, b). split; [reflexivity|].
    apply (get_pairs_In l [a] None a b W). split; [now left|]. apply dmem_In in Hm. destruct (key_dget _ _ Hm) as [d Hd].
    exists d, e. auto.
  - intros ([a' b'] & <- & Hp). cbn [snd]. apply (get_pairs_In l [a] None a' b' W) in Hp as ([<-|[]] & d & e & E & Hd & _).
    rewrite E. unfold dmem. now rewrite Hd.
Qed.
Lemma support_lemma l ancs sup : wf l -> support_from_adj l ancs = Ok sup ->
  forall a, In a ancs -> exists s, dget a sup = Some s /\ NoDup s /\
    forall b, In b s <-> In b (get_neighbors l [a] None).
Proof.
  intros W. unfold support_from_adj.
  assert (G : forall ancs s0 sup, foldM (fun d a => if dmem a (l_nodes l)
      then Ok (dset a (filter (adjacent l a) (dkeys (l_nodes l))) d) else Err KeyError) ancs s0 = Ok sup ->
    forall a, (In a ancs -> dget a sup = Some (filter (adjacent l a) (dkeys (l_nodes l)))) /\
              (~ In a ancs -> dget a sup = dget a s0)).
  { clear. induction ancs as [|x ancs IH]; intros s0 sup; simpl; [intros [= ->] a; tauto|].
    destruct (dmem x (l_nodes l)); [|discriminate]. cbn [bind]. intros H a. destruct (IH _ _ H a) as [A B].
    destruct (mem a ancs) eqn:E.
    - apply mem_In in E. split; [auto|tauto].
    - apply mem_not_In in E. rewrite (B E), dget_dset. split.
      + intros [->|Hx]; [now rewrite eqb_refl|tauto].
      + intros Hn. destruct (eqb_spec x a) as [->|]; tauto || reflexivity. }
  intros H a Ha. destruct (G _ _ _ H a) as [A _]. rewrite (A Ha). eexists; split; [reflexivity|]. split.
  - apply NoDup_filter. exact (wf_nodup _ W).
  - intros b. rewrite filter_In, (adjacent_spec l a b W). split; [tauto|]. intros Hb. split; [|exact Hb].
    apply (adjacent_spec l a b W) in Hb. unfold adjacent in Hb. destruct (dget a (l_adj l)) as [e|] eqn:E; [|discriminate].
    apply (adj_row l a e W E). now apply dmem_In.
Qed.

(** * Coordinate indices *)
Lemma range_nodup n : NoDup (range n).
Proof.
  unfold range. assert (G : forall l, NoDup l -> NoDup (map Z.of_nat l)).
  { induction 1 as [|x l Hx N IH]; simpl; constructor; auto. rewrite in_map_iff. intros (y & E & Hy).
    assert (y = x) by lia. subst. tauto. }
  apply G, seq_NoDup.
Qed.
Lemma range_In n z : In z (range n) <-> 0 <= z < n.
Proof.
  unfold range. rewrite in_map_iff. split.
  - intros (k & <- & Hk). apply in_seq in Hk. lia.
  - intros Hz. exists (Z.to_nat z). rewrite in_seq. lia.
Qed.
Lemma range_length n : length (range (Z.of_nat n)) = n.
Proof. unfold range. rewrite map_length, seq_length. lia. Qed.

Definition ind_list (uniq : list Qc) (reverse : bool) : list Z :=
  if reverse then rev (range (Z.of_nat (length uniq))) else range (Z.of_nat (length uniq)).
Lemma ind_list_facts uniq b : length (ind_list uniq b) = length uniq /\ NoDup (ind_list uniq b) /\
  forall z, In z (ind_list uniq b) <-> 0 <= z < Z.of_nat (length uniq).
Proof.
  unfold ind_list. destruct b.
  - rewrite rev_length, range_length. split; [reflexivity|]. split; [apply NoDup_rev, range_nodup|].
    intros z. now rewrite <- in_rev, range_In.
  - rewrite range_length. split; [reflexivity|]. split; [apply range_nodup|]. intros z. apply range_In.
Qed.
Lemma combine_dget {K V} `{Eqb K} (ks : list K) (vs : list V) : length ks = length vs -> NoDup ks -> NoDup vs ->
  (forall k, In k ks <-> exists v, dget k (combine ks vs) = Some v) /\
  (forall v, In v vs <-> exists k, In k ks /\ dget k (combine ks vs) = Some v) /\
  (forall k k' v, dget k (combine ks vs) = Some v -> dget k' (combine ks vs) = Some v -> k = k').
Proof.
  intros L Nk Nv.
  assert (F : map fst (combine ks vs) = ks /\ map snd (combine ks vs) = vs).
  { clear Nk Nv. revert vs L; induction ks as [|k ks IH]; intros [|v vs] L; try discriminate; [auto|]. simpl. injection L as L.
    destruct (IH vs L) as [-> ->]; auto. }
  destruct F as [F1 F2].
  assert (N1 : NoDup (dkeys (combine ks vs))) by (unfold dkeys; now rewrite F1).
  split; [|split].
  - intros k. split.
    + intros Hk. apply key_dget. unfold dkeys. now rewrite F1.
    + intros [v Hv]. apply dget_Some_key in Hv. unfold dkeys in Hv. now rewrite F1 in Hv.
  - intros v. split.
    + intros Hv. rewrite <- F2 in Hv. apply in_map_iff in Hv as ([k v'] & E & Hin). simpl in E; subst v'.
      exists k. split; [rewrite <- F1; apply (in_map fst) in Hin; exact Hin|]. now apply In_dget.
    + intros (k & _ & Hv). apply dget_In, (in_map snd) in Hv. now rewrite F2 in Hv.
  - intros k k' v A B. apply dget_In in A, B. eapply NoDup_snd_inj; eauto. now rewrite F2.
Qed.
Lemma combine_nth {K V} `{Eqb K} (ks : list K) : NoDup ks -> forall (vs : list V) k c v,
  nth_error ks k = Some c -> nth_error vs k = Some v -> dget c (combine ks vs) = Some v.
Proof.
  induction ks as [|a ks IH]; intros N vs k c v Hk Hv; [destruct k; discriminate|].
  inversion N as [|? ? Hn N']; subst. destruct vs as [|w vs]; [destruct k; discriminate|]. cbn [combine dget].
  destruct k as [|k]; simpl in Hk, Hv.
  - injection Hk as ->. injection Hv as ->. now rewrite eqb_refl.
  - destruct (eqb_spec c a) as [->|]; [|eauto]. exfalso. apply Hn. eapply nth_error_In; eauto.
Qed.
Lemma ind_list_nth uniq b k : (k < length uniq)%nat ->
  nth_error (ind_list uniq b) k = Some (if b then Z.of_nat (length uniq) - 1 - Z.of_nat k else Z.of_nat k).
Proof.
  assert (R : forall n j, (j < n)%nat -> nth_error (range (Z.of_nat n)) j = Some (Z.of_nat j)).
  { intros n j Hj. unfold range. rewrite nth_error_map, Nat2Z.id, (nth_error_nth' _ 0%nat) by (rewrite seq_length; exact Hj).
    rewrite seq_nth by exact Hj. reflexivity. }
  intros Hk. unfold ind_list. destruct b; [|now apply R].
  rewrite (nth_error_nth' _ 0) by (rewrite rev_length, range_length; exact Hk).
  rewrite rev_nth by (rewrite range_length; exact Hk). rewrite range_length. f_equal.
  apply nth_error_nth. rewrite R by lia. f_equal. lia.
Qed.
Lemma C25_lemma uniq coords reverse : set_order uniq coords ->
  exists is, index_coords uniq coords reverse = Ok (is, Z.of_nat (length uniq)) /\
    (exists f : Qc -> Z, is = map f coords /\ (forall c c', In c coords -> In c' coords -> f c = f c' -> c = c') /\
       forall k c, nth_error uniq k = Some c ->
         f c = if reverse then Z.of_nat (length uniq) - 1 - Z.of_nat k else Z.of_nat k) /\
    (forall z, In z is <-> 0 <= z < Z.of_nat (length uniq)).
Proof.
  intros [N S]. unfold index_coords. fold (ind_list uniq reverse). destruct (ind_list_facts uniq reverse) as (L & Nz & R).
  destruct (combine_dget uniq (ind_list uniq reverse) (eq_sym L) N Nz) as (A & B & C).
  set (d := combine uniq (ind_list uniq reverse)) in *.
  set (f := fun c => odef 0 (dget c d)).
  assert (Hf : forall c, In c coords -> dget c d = Some (f c)).
  { intros c Hc. apply S, A in Hc as [v Hv]. unfold f. now rewrite Hv. }
  exists (map f coords). split; [|split].
  - rewrite (Forall2_mapM _ coords (map f coords)); [reflexivity|].
    assert (G : forall cs, incl cs coords -> Forall2 (fun c z => dget_err c d = Ok z) cs (map f cs)).
    { induction cs as [|c cs IH]; intros Hi; constructor.
      - unfold dget_err. rewrite Hf by (apply Hi; now left). reflexivity.
      - apply IH. intros x Hx. apply Hi. now right. }
    apply G, incl_refl.
  - exists f. split; [reflexivity|]. split.
    + intros c c' Hc Hc' E. apply (C c c' (f c)); [now apply Hf|]. rewrite E. now apply Hf.
    + intros k c Hk. unfold f, d.
      assert (Hl : (k < length uniq)%nat) by (apply nth_error_Some; congruence).
      rewrite (combine_nth uniq N _ k c _ Hk (ind_list_nth uniq reverse k Hl)). reflexivity.
  - intros z. rewrite <- R, B, in_map_iff. split.
    + intros (c & <- & Hc). exists c. split; [now apply S|now apply Hf].
    + intros (c & Hc & E). apply S in Hc. exists c. split; [|exact Hc]. rewrite (Hf c Hc) in E. congruence.
Qed.

(** * Overlaps *)
Lemma disjointb_spec {A} `{Eqb A} (a b : list A) : disjointb a b = true <-> forall x, In x a -> ~ In x b.
Proof.
  unfold disjointb. rewrite forallb_forall. split; intros F x Hx.
  - apply mem_not_In. now apply negb_true_iff, F.
  - apply negb_true_iff, mem_not_In. now apply F.
Qed.
Lemma as_num_list_ok cs : as_num_list (PList (map PNum cs)) = Ok cs.
Proof. cbn [as_num_list]. rewrite mapM_map. induction cs as [|c cs IH]; simpl; [reflexivity|]. now rewrite IH. Qed.
Lemma loaded_nodes l : loaded l -> NoDup (dkeys (l_nodes l)) /\ dkeys (l_inds l) = dkeys (l_nodes l).
Proof.
  intros [r H]. pose proof (ls_nodup _ _ (proj1 (layout_init_char r l) H)) as N. split; [exact N|].
  now destruct (inds_char r l H) as (A & _ & _).
Qed.
Lemma lay_inds_all l : loaded l -> exists is, lay_inds l (dkeys (l_nodes l)) = Ok is /\
  forall i, In i is <-> exists q, lay_inds l [q] = Ok [i].
Proof.
  intros HL. destruct (loaded_nodes l HL) as [N E]. unfold lay_inds.
  assert (G : forall qs, incl qs (dkeys (l_inds l)) -> exists is, mapM (fun q => dget_err q (l_inds l)) qs = Ok is /\
    forall i, In i is <-> exists q, In q qs /\ dget q (l_inds l) = Some i).
  { induction qs as [|q qs IH]; intros Hi; simpl; [exists []; split; [reflexivity|]; firstorder|].
    destruct IH as (is & -> & Hs); [intros x Hx; apply Hi; now right|].
    destruct (key_dget q (l_inds l)) as [v Ev]; [apply Hi; now left|]. unfold dget_err. rewrite Ev. simpl. exists (v :: is).
    split; [reflexivity|]. intros i. simpl. rewrite Hs. split.
    - intros [->|(q' & ? & ?)]; [exists q; auto|exists q'; auto].
    - intros (q' & [->|Hq] & Hd); [left; congruence|right; eauto]. }
  destruct (G (dkeys (l_nodes l))) as (is & -> & Hs); [rewrite E; apply incl_refl|]. exists is. split; [reflexivity|].
  intros i. rewrite Hs. split.
  - intros (q & _ & Hd). exists q. now apply lay_inds_one.
  - intros (q & Hd). apply lay_inds_one in Hd. exists q. split; [|exact Hd]. rewrite <- E. eapply dget_Some_key; eauto.
Qed.
Lemma coords_attr l q : NoDup (dkeys (l_nodes l)) -> dget q (qubit_coords_attr l) =
  match dget q (l_nodes l) with Some a => dget "coords" a | None => None end.
Proof.
  unfold qubit_coords_attr. intros N. induction (l_nodes l) as [|[k a] n IH]; [reflexivity|].
  inversion N as [|? ? Hk N']; subst. cbn [flat_map fst snd]. rewrite dget_app. cbn [dget].
  destruct (eqb_spec q k) as [->|Ne].
  - destruct (dget "coords" a) eqn:E; cbn [dget].
    + now rewrite eqb_refl.
    + rewrite (IH N'). destruct (dget k n) eqn:Ek; [|reflexivity]. apply dget_Some_key in Ek. simpl in Hk. tauto.
  - rewrite (IH N'). destruct (dget "coords" a); cbn [dget]; [|reflexivity].
    destruct (eqb_spec q k); tauto || reflexivity.
Qed.
Lemma has_coord_attr l q c : NoDup (dkeys (l_nodes l)) ->
  has_coord l q c <-> dget q (qubit_coords_attr l) = Some (PList (map PNum c)).
Proof.
  intros N. rewrite (coords_attr l q N). unfold has_coord, lparam, dget_err.
  destruct (dget q (l_nodes l)) as [a|]; cbn [of_opt bind]; [|split; discriminate].
  destruct (dget "coords" a); simpl; split; congruence.
Qed.
Lemma tuple_coords_all l : loaded l -> all_coords l -> exists cs, tuple_coords l = Ok cs /\
  forall c, In c cs <-> exists q, has_coord l q c.
Proof.
  intros HL HA. destruct (loaded_nodes l HL) as [N _]. unfold tuple_coords, get_coords.
  assert (S : strict_superset (dkeys (l_nodes l)) (dkeys (qubit_coords_attr l)) = false).
  { unfold strict_superset. apply andb_false_iff. right. apply negb_false_iff, subset_spec. intros q Hq.
    destruct (HA q Hq) as [c Hc]. apply (has_coord_attr l q c N) in Hc. eapply dget_Some_key; eauto. }
  rewrite S.
  assert (G : forall qs, incl qs (dkeys (l_nodes l)) -> exists vs cs,
    mapM (fun q => dget_err q (qubit_coords_attr l)) qs = Ok vs /\ mapM as_num_list vs = Ok cs /\
    forall c, In c cs <-> exists q, In q qs /\ has_coord l q c).
  { induction qs as [|q qs IH]; intros Hi.
    - exists [], []. simpl. repeat split; auto; firstorder.
    - destruct IH as (vs & cs & E1 & E2 & Hs); [intros x Hx; apply Hi; now right|].
      destruct (HA q) as [c Hc]; [apply Hi; now left|]. exists (PList (map PNum c) :: vs), (c :: cs). cbn [mapM].
      unfold dget_err at 1. rewrite (proj1 (has_coord_attr l q c N) Hc). cbn [of_opt bind]. rewrite E1. cbn [bind mapM].
      rewrite as_num_list_ok. cbn [bind]. rewrite E2. cbn [bind]. repeat split; auto.
      + intros [->|Hin]; [exists q; split; [now left|exact Hc]|]. apply Hs in Hin as (q' & ? & ?). exists q'. split; [now right|assumption].
      + intros (q' & [->|Hq] & Hc'); [left|right; apply Hs; eauto].
        unfold has_coord in *. rewrite Hc in Hc'. injection Hc' as Hm. revert Hm. generalize c0. clear.
        induction c as [|x c IH]; intros [|y d] Hm; try discriminate; [reflexivity|]. simpl in Hm. injection Hm as -> Hm.
        now rewrite (IH d Hm). }
  destruct (G (dkeys (l_nodes l)) (incl_refl _)) as (vs & cs & -> & E2 & Hs). cbn [bind]. exists cs. split; [exact E2|].
  intros c. rewrite Hs. split; [intros (q & _ & ?); eauto|]. intros (q & Hc). exists q. split; [|exact Hc].
  unfold has_coord, lparam, dget_err in Hc. destruct (dget q (l_nodes l)) eqn:E; [|discriminate]. eapply dget_Some_key; eauto.
Qed.
Lemma pair_lemma a b : loaded a -> loaded b -> all_coords a -> all_coords b ->
  (check_overlap_pair a b = Ok tt /\ ~ share a b) \/ (check_overlap_pair a b = Err ValueError /\ share a b).
Proof.
  intros La Lb Ca Cb. unfold check_overlap_pair.
  destruct (lay_inds_all a La) as (ia & Eia & Hia). destruct (lay_inds_all b Lb) as (ib & Eib & Hib).
  destruct (tuple_coords_all a La Ca) as (ca & Eca & Hca). destruct (tuple_coords_all b Lb Cb) as (cb & Ecb & Hcb).
  assert (ex : forall {A} `{Eqb A} (x y : list A), disjointb x y = false -> exists z, In z x /\ In z y).
  { intros A EA x y E. unfold disjointb in E. induction x as [|z x IH]; [discriminate|]. simpl in E.
    destruct (mem z y) eqn:Em; simpl in E; [exists z; split; [now left|now apply mem_In]|].
    destruct (IH E) as (w & ? & ?). exists w; split; [now right|assumption]. }
  destruct (disjointb (dkeys (l_nodes a)) (dkeys (l_nodes b))) eqn:E1; cbn [negb].
  2: { right. split; [reflexivity|]. left. destruct (ex _ _ _ _ E1) as (z & ? & ?). exists z. auto. }
  rewrite Eia, Eib. cbn [bind].
  destruct (disjointb ia ib) eqn:E2; cbn [negb].
  2: { right. split; [reflexivity|]. right; left. destruct (ex _ _ _ _ E2) as (z & A & B). apply Hia in A as [q ?].
       apply Hib in B as [q' ?]. exists q, q', z. auto. }
  rewrite Eca, Ecb. cbn [bind].
  destruct (disjointb ca cb) eqn:E3; cbn [negb].
  2: { right. split; [reflexivity|]. right; right; left. destruct (ex _ _ _ _ E3) as (z & A & B). apply Hca in A as [q ?].
       apply Hcb in B as [q' ?]. exists q, q', z. auto. }
  destruct (disjointb (l_logs a) (l_logs b)) eqn:E4; cbn [negb].
  2: { right. split; [reflexivity|]. right; right; right. destruct (ex _ _ _ _ E4) as (z & A & B). exists z. auto. }
  left. split; [reflexivity|]. rewrite disjointb_spec in E1. rewrite disjointb_spec in E2. rewrite disjointb_spec in E3. rewrite disjointb_spec in E4.
  intros [(q & A & B)|[(q & q' & i & A & B)|[(q & q' & c & A & B)|(g & A & B)]]].
  - exact (E1 q A B).
  - apply (E2 i); [apply Hia; eauto|apply Hib; eauto].
  - apply (E3 c); [apply Hca; eauto|apply Hcb; eauto].
  - exact (E4 g A B).
Qed.
Lemma overlaps_lemma ls : Forall loaded ls -> Forall all_coords ls ->
  (check_overlaps ls = Ok tt /\ ~ (exists pre a mid b post, ls = pre ++ a :: mid ++ b :: post /\ share a b)) \/
  (check_overlaps ls = Err ValueError /\ exists pre a mid b post, ls = pre ++ a :: mid ++ b :: post /\ share a b).
Proof.
  induction ls as [|x ls IH]; intros FL FC.
  - left. split; [reflexivity|]. intros (pre & a & mid & b & post & E & _). destruct pre; discriminate.
  - inversion FL as [|? ? L1 L2]; inversion FC as [|? ? C1 C2]; subst. cbn [check_overlaps].
    assert (G : (exists u, mapM (check_overlap_pair x) ls = Ok u) /\ (forall b, In b ls -> ~ share x b) \/
                mapM (check_overlap_pair x) ls = Err ValueError /\ exists b, In b ls /\ share x b).
    { clear IH FL FC. induction ls as [|y ls IHl]; simpl; [left; split; [eauto|intros b []]|].
      inversion L2; inversion C2; subst. destruct (pair_lemma x y L1) as [[E S]|[E S]]; auto; rewrite E; cbn [bind].
      - destruct IHl as [[[u Eu] Hu]|[Eu (b & Hb & Sb)]]; auto; rewrite Eu; cbn [bind].
        + left. split; [eauto|]. intros b [->|Hb]; auto.
        + right. split; [reflexivity|]. exists b. auto.
      - right. split; [reflexivity|]. exists y. auto. }
    destruct G as [[[u Eu] Hu]|[Eu (b & Hb & Sb)]]; rewrite Eu; cbn [bind].
    + destruct (IH L2 C2) as [[E Hn]|[E (pre & a & mid & b & post & -> & S)]]; rewrite E.
      * left. split; [reflexivity|]. intros (pre & a & mid & b & post & E' & S). destruct pre as [|p pre]; simpl in E'; injection E' as -> ->.
        -- apply (Hu b); [|exact S]. apply in_or_app. right. now left.
        -- apply Hn. exists pre, a, mid, b, post. auto.
      * right. split; [reflexivity|]. exists (x :: pre), a, mid, b, post. auto.
    + right. split; [reflexivity|]. apply in_split in Hb as (mid & post & ->). exists [], x, mid, b, post. auto.
Qed.

Lemma combine_map_dget (xs : list string) {V} (f : string -> V) q : In q xs ->
  dget q (combine xs (map f xs)) = Some (f q).
Proof.
  induction xs as [|x xs IH]; [intros []|]. simpl. destruct (eqb_spec q x) as [->|Ne]; [reflexivity|].
  intros [->|Hx]; [tauto|auto].
Qed.
Lemma C25_expansion_lemma ur uc l ancs m : loaded l -> get_role l "anc" = Ok ancs ->
  (NoDup ur /\ forall r, In r ur <-> exists q c, In q ancs /\ has_coord l q [r; c]) ->
  (NoDup uc /\ forall c, In c uc <-> exists q r, In q ancs /\ has_coord l q [r; c]) ->
  expansion_matrix ur uc l = Ok m ->
  forall q q' x x', In q ancs -> In q' ancs -> has_coord l q x -> has_coord l q' x' ->
  (exists cell, dget q m = Some cell) /\ (dget q m = dget q' m <-> x = x').
Proof.
  intros HL Hr [Nr Sr] [Nc Sc] HE. unfold expansion_matrix in HE. rewrite Hr in HE. cbn [bind] in HE.
  apply bind_ok in HE as [cs [Hcs HE]]. apply mapM_Forall2 in Hcs.
  assert (Hinj : forall a b : list Qc, map PNum a = map PNum b -> a = b).
  { induction a as [|p a IH]; intros [|p' b] E; try discriminate; [reflexivity|]. simpl in E. injection E as -> E. now rewrite (IH b E). }
  assert (F : Forall2 (fun q rc => has_coord l q [fst rc; snd rc]) ancs cs).
  { eapply Forall2_impl'; [|exact Hcs]. cbv beta. intros q [r c] H.
    apply bind_ok in H as [a [Ea H]]. apply bind_ok in H as [v [Ev H]]. apply bind_ok in H as [x [Ex H]].
    unfold has_coord, lparam. rewrite Ea. cbn [bind]. unfold dget_err in Ev. destruct (dget "coords" a) as [v'|]; [|discriminate].
    injection Ev as ->. cbn [odef]. destruct x as [|r' [|c' [|? ?]]]; try discriminate. injection H as -> ->. cbn [fst snd].
    destruct v as [| | | |vs|]; try discriminate. cbn [as_num_list] in Ex. apply mapM_Forall2 in Ex.
    assert (G : forall vs ws, Forall2 (fun v w => match v with PNum q => Ok q | _ => Err Unmodelled end = Ok w) vs ws -> vs = map PNum ws).
    { clear. induction 1 as [|v w vs ws E F IH]; [reflexivity|]. destruct v; try discriminate. injection E as ->. simpl. now rewrite IH. }
    rewrite (G _ _ Ex). reflexivity. }
  destruct ancs as [|a0 ancs0] eqn:Ea; [discriminate|]. rewrite <- Ea in *. clear Hcs.
  assert (Or : set_order ur (map fst cs)).
  { split; [exact Nr|]. intros r. rewrite Sr, in_map_iff. split.
    - intros (q & c & Hq & Hc). destruct (Forall2_in_l _ _ _ _ F Hq) as ([r' c'] & Hin & H'). exists (r', c'). split; [|exact Hin].
      unfold has_coord in *. rewrite Hc in H'. cbn [fst snd] in *. injection H' as H'. congruence.
    - intros ([r' c'] & E & Hin). simpl in E; subst r'. destruct (Forall2_in_r _ _ _ _ F Hin) as (q & Hq & H'). exists q, c'. auto. }
  assert (Oc : set_order uc (map snd cs)).
  { split; [exact Nc|]. intros c. rewrite Sc, in_map_iff. split.
    - intros (q & r & Hq & Hc). destruct (Forall2_in_l _ _ _ _ F Hq) as ([r' c'] & Hin & H'). exists (r', c'). split; [|exact Hin].
      unfold has_coord in *. rewrite Hc in H'. cbn [fst snd] in *. injection H' as H'. congruence.
    - intros ([r' c'] & E & Hin). simpl in E; subst c'. destruct (Forall2_in_r _ _ _ _ F Hin) as (q & Hq & H'). exists q, r'. auto. }
  destruct (C25_lemma ur (map fst cs) true Or) as (ri & E1 & (f & -> & If) & _).
  destruct (C25_lemma uc (map snd cs) false Oc) as (ci & E2 & (g & -> & Ig) & _).
  rewrite E1, E2 in HE. cbn [bind] in HE. injection HE as <-. clear Ea.
  assert (Get : forall q r c, has_coord l q [r; c] -> In q ancs ->
    dget q (combine ancs (combine (map f (map fst cs)) (map g (map snd cs)))) = Some (f r, g c) /\ In (r, c) cs).
  { clear -F. intros q r c Hc. induction F as [|a [r' c'] ancs cs Hx F IH]; [intros []|]. intros Hin. simpl.
    destruct (eqb_spec q a) as [->|Ne].
    - unfold has_coord in *. rewrite Hc in Hx. injection Hx as -> ->. cbn [fst snd]. auto.
    - destruct Hin as [->|Hin]; [tauto|]. destruct (IH Hin) as [A B]. auto. }
  assert (Shape : forall q x, In q ancs -> has_coord l q x -> exists r c, x = [r; c] /\ has_coord l q [r; c]).
  { intros q x Hq Hx. destruct (Forall2_in_l _ _ _ _ F Hq) as ([r c] & _ & H'). exists r, c. split; [|exact H'].
    unfold has_coord in *. rewrite Hx in H'. injection H' as H'. now apply (Hinj x [r; c]) in H'. }
  intros q q' x x' Hq Hq' Hx Hx'.
  destruct (Shape q x Hq Hx) as (r & c & -> & Hc). destruct (Shape q' x' Hq' Hx') as (r' & c' & -> & Hc').
  destruct (Get q r c Hc Hq) as [G1 I1]. destruct (Get q' r' c' Hc' Hq') as [G2 I2]. rewrite G1, G2.
  split; [eauto|]. split; [|congruence]. intros E. injection E as E3 E4.
  apply If in E3; [|apply (in_map fst) in I1; exact I1|apply (in_map fst) in I2; exact I2].
  apply Ig in E4; [|apply (in_map snd) in I1; exact I1|apply (in_map snd) in I2; exact I2]. congruence.
Qed.
Lemma projection_lemma l s m d row a x : wf l -> projection_matrix l s = Ok m -> In (d, row) m -> In (a, x) row ->
  (x = true <-> In a (get_neighbors l [d] None)).
Proof.
  intros W H Hd Ha. unfold projection_matrix in H. apply bind_ok in H as [anc [_ H]]. apply bind_ok in H as [data [_ H]].
  injection H as <-. apply in_map_iff in Hd as (d' & [= -> <-] & _). apply in_map_iff in Ha as (a' & [= -> <-] & _).
  exact (adjacent_spec l d a W).
Qed.
