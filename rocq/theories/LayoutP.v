(** Proofs about the Layout class (C22-C25, C51, C52). *)
From Coq Require Import QArith Qcanon.
From Verif Require Import Base Lib StimM LayoutM SpecLayout.
Open Scope Z_scope.

(** * Dictionaries *)
Section D.
  Context {K V : Type} `{Eqb K}.
  Lemma dset_id (k : K) (v : V) d : dget k d = Some v -> dset k v d = d.
  Proof.
    induction d as [|[k' v'] d IH]; simpl; [discriminate|].
    destruct (eqb_spec k k') as [->|N]; [now intros [= ->]|intros E; now rewrite IH].
  Qed.
  Lemma dset_dset (k : K) (v w : V) d : dset k v (dset k w d) = dset k v d.
  Proof.
    induction d as [|[k' v'] d IH]; simpl; [now rewrite eqb_refl|].
    destruct (eqb k k') eqn:E; simpl; rewrite E; [reflexivity|now rewrite IH].
  Qed.
  Lemma dset_new (k : K) (v : V) d : ~ In k (dkeys d) -> dset k v d = d ++ [(k, v)].
  Proof.
    induction d as [|[k' v'] d IH]; simpl; [reflexivity|].
    intros Hn. destruct (eqb_spec k k') as [->|N]; [tauto|]. rewrite IH; tauto.
  Qed.
  Lemma dset_mid (k : K) (v w : V) d d' : ~ In k (dkeys d) -> dset k v (d ++ (k, w) :: d') = d ++ (k, v) :: d'.
  Proof.
    induction d as [|[k' v'] d IH]; simpl; [now rewrite eqb_refl|].
    intros Hn. destruct (eqb_spec k k') as [->|N]; [tauto|]. rewrite IH; tauto.
  Qed.
  Lemma dget_mid (k : K) (w : V) d d' : ~ In k (dkeys d) -> dget k (d ++ (k, w) :: d') = Some w.
  Proof.
    induction d as [|[k' v'] d IH]; simpl; [now rewrite eqb_refl|].
    intros Hn. destruct (eqb_spec k k') as [->|N]; [tauto|]. apply IH; tauto.
  Qed.
  Lemma dget_map {W} (f : K * V -> W) k d :
    dget k (map (fun kv => (fst kv, f kv)) d) =
    match dget k d with Some v => Some (f (k, v)) | None => None end.
  Proof.
    induction d as [|[k' v'] d IH]; simpl; [reflexivity|].
    destruct (eqb_spec k k') as [->|N]; [reflexivity|exact IH].
  Qed.
  Lemma dget_app (k : K) (d d' : dict K V) :
    dget k (d ++ d') = match dget k d with Some v => Some v | None => dget k d' end.
  Proof. induction d as [|[k' v'] d IH]; simpl; [reflexivity|]. destruct (eqb k k'); auto. Qed.
  Lemma dkeys_app (d d' : dict K V) : dkeys (d ++ d') = dkeys d ++ dkeys d'.
  Proof. apply map_app. Qed.
  Lemma dmem_false (k : K) (d : dict K V) : dmem k d = false <-> ~ In k (dkeys d).
  Proof. rewrite <- dmem_In. destruct (dmem k d); split; congruence. Qed.
  Lemma key_dget (k : K) (d : dict K V) : In k (dkeys d) -> exists v, dget k d = Some v.
  Proof. intros Hi. apply dmem_In in Hi. unfold dmem in Hi. destruct (dget k d); [eauto|discriminate]. Qed.
End D.

Lemma foldM_app {A B} (f : B -> A -> res B) l l' b :
  foldM f (l ++ l') b = do x <- foldM f l b; foldM f l' x.
Proof. revert b; induction l as [|a l IH]; simpl; intros b; [reflexivity|]. destruct (f b a); simpl; auto. Qed.

Lemma NoDup_app_inv {A} (l l' : list A) : NoDup (l ++ l') ->
  NoDup l /\ NoDup l' /\ forall x, In x l -> ~ In x l'.
Proof.
  induction l as [|a l IH]; simpl; intros N; [repeat split; auto; constructor|].
  inversion N as [|? ? Hn N']; subst. destruct (IH N') as (N1 & N2 & D).
  rewrite in_app_iff in Hn. repeat split; auto; [constructor; tauto|].
  intros x [->|Hx]; [tauto|auto].
Qed.

(** * Loading the nodes *)
Definition node_of (a : attrs) (qa : string * attrs) : Prop :=
  labelled a (fst qa) /\ snd qa = ddel "qubit" a.
Definition raw_inds (nodes : dict string attrs) : dict string pyv :=
  map (fun qa => (fst qa, odef PNone (dget "ind" (snd qa)))) nodes.
Lemma dkeys_raw_inds n : dkeys (raw_inds n) = dkeys n.
Proof. unfold raw_inds, dkeys. rewrite map_map. reflexivity. Qed.

Lemma load_nodes_gen infos : forall n0 n inds,
  NoDup (dkeys n0) ->
  foldM load_node infos (n0, raw_inds n0) = Ok (n, inds) <->
  exists n1, n = n0 ++ n1 /\ Forall2 node_of infos n1 /\ NoDup (dkeys n) /\ inds = raw_inds n.
Proof.
  induction infos as [|a infos IH]; intros n0 n inds N0; simpl.
  - split.
    + intros [= <- <-]. exists []. rewrite app_nil_r. auto.
    + intros (n1 & -> & F & N & ->). inversion F; subst. now rewrite app_nil_r.
  - unfold load_node at 1. unfold node_of, labelled in *.
    destruct (dget "qubit" a) as [v|] eqn:E; simpl.
    2: { split; [discriminate|]. intros (n1 & -> & F & _). inversion F as [|? ? ? ? [F1 _] _]; subst. congruence. }
    assert (Bad : forall q, v = PStr q -> dmem q n0 = true ->
      (exists n1, n = n0 ++ n1 /\ Forall2 node_of (a :: infos) n1 /\ NoDup (dkeys n) /\ inds = raw_inds n) -> False).
    { intros q -> Hm (n1 & -> & F & N & _). inversion F as [|? [q' i'] ? n2 [F1 _] _]; subst.
      unfold labelled in F1; simpl in F1. rewrite E in F1. injection F1 as [= <-].
      rewrite dkeys_app in N. apply NoDup_app_inv in N as (_ & _ & D).
      apply (D q); [now apply dmem_In|left; reflexivity]. }
    destruct v; simpl;
      try (split; [discriminate|]; intros (n1 & -> & F & _);
           inversion F as [|? ? ? ? [F1 _] _]; subst; congruence).
    destruct (dmem s n0) eqn:Em.
    { simpl. split; [discriminate|]. intros H. exfalso. eapply Bad; eauto. }
    simpl. set (i' := ddel "qubit" a).
    assert (N0' : NoDup (dkeys (n0 ++ [(s, i')]))).
    { apply dmem_false in Em. rewrite dkeys_app; simpl. apply NoDup_rev in N0 as N1.
      rewrite <- (rev_involutive (dkeys n0 ++ [s])). apply NoDup_rev. rewrite rev_app_distr; simpl.
      constructor; [now rewrite <- in_rev|exact N1]. }
    assert (Ei : dset s (odef PNone (dget "ind" i')) (raw_inds n0) = raw_inds (n0 ++ [(s, i')])).
    { rewrite dset_new by (rewrite dkeys_raw_inds; now apply dmem_false). unfold raw_inds. now rewrite map_app. }
    rewrite Ei, (IH _ _ _ N0'). split.
    + intros (n1 & -> & F & N & ->). exists ((s, i') :: n1). rewrite <- app_assoc in *. simpl.
      split; [reflexivity|]. split; [constructor; [split; auto|exact F]|auto].
    + intros (n1 & -> & F & N & ->). inversion F as [|? [q' a'] ? n2 [F1 F2] F3]; subst.
      simpl in F1, F2. rewrite E in F1. injection F1 as <-. subst a'.
      exists n2. rewrite <- app_assoc. auto.
Qed.

Lemma load_nodes infos n inds :
  foldM load_node infos ([], []) = Ok (n, inds) <->
  Forall2 node_of infos n /\ NoDup (dkeys n) /\ inds = raw_inds n.
Proof.
  rewrite (load_nodes_gen infos [] n inds) by constructor. simpl. split.
  - intros (n1 & -> & ?). auto.
  - intros H. exists n. tauto.
Qed.

(** * Loading the edges *)
Definition nd_of (a : attrs) : dict string pyv :=
  match dget "neighbors" a with Some (PDict nd) => nd | _ => [] end.
Definition add_nbr (acc : dict string string) (dn : string * pyv) : dict string string :=
  match snd dn with PStr nb => dset nb (fst dn) acc | _ => acc end.
Definition edges (nd : dict string pyv) : dict string string := fold_left add_nbr nd [].
Definition nbr_ok (nodes : dict string attrs) (dn : string * pyv) : Prop :=
  snd dn = PNone \/ exists nb, snd dn = PStr nb /\ In nb (dkeys nodes).
Definition nbrs_ok (nodes : dict string attrs) (a : attrs) : Prop :=
  exists nd, dget "neighbors" a = Some (PDict nd) /\ Forall (nbr_ok nodes) nd.

Lemma load_edge_fold nodes q nd : forall e adj new adj' new',
  dget q adj = Some e ->
  foldM (load_edge nodes q) nd (adj, new) = Ok (adj', new') ->
  adj' = dset q (fold_left add_nbr nd e) adj /\
  (new' = false <-> new = false /\ Forall (nbr_ok nodes) nd).
Proof.
  induction nd as [|[d v] nd IH]; intros e adj new adj' new' E; cbn [foldM].
  - intros [= <- <-]. simpl. rewrite dset_id by exact E. split; [reflexivity|].
    split; [intros H; split; [exact H|constructor]|tauto].
  - destruct v; cbn [load_edge snd bind]; try discriminate.
    + intros H. destruct (IH e _ _ _ _ E H) as [-> H2]. split; [reflexivity|]. rewrite H2.
      split; [intros [? ?]; split; [assumption|constructor; [left; reflexivity|assumption]]|].
      intros [? F]; inversion F; auto.
    + intros H. unfold add_edge in H. rewrite E in H. cbn [odef fst] in H.
      destruct (IH (dset s d e) _ _ _ _ (dget_dset_same _ _ _) H) as [-> H2].
      rewrite dset_dset. split; [reflexivity|]. rewrite H2, orb_false_iff, negb_false_iff, dmem_In.
      split.
      * intros [[? ?] ?]; split; [assumption|constructor; [right; exists s; auto|assumption]].
      * intros [? F]; inversion F as [|? ? F1 F2]; subst. destruct F1 as [F1|(nb & F1 & F3)]; simpl in F1; [discriminate|].
        injection F1 as ->. auto.
Qed.
Lemma load_edge_ok nodes q nd : forall adj new,
  Forall (nbr_ok nodes) nd -> exists r, foldM (load_edge nodes q) nd (adj, new) = Ok r.
Proof.
  induction nd as [|[d v] nd IH]; intros adj new F; cbn [foldM]; [eauto|].
  inversion F as [|? ? F1 F2]; subst. destruct F1 as [F1|(nb & F1 & F3)]; simpl in F1; subst v;
    cbn [load_edge snd bind]; apply IH; exact F2.
Qed.
Lemma load_edges_char nodes adj q a e adj' : dget q adj = Some e ->
  load_edges nodes adj (q, a) = Ok adj' <->
  nbrs_ok nodes a /\ adj' = dset q (fold_left add_nbr (nd_of a) e) adj.
Proof.
  intros E. unfold load_edges, nbrs_ok, nd_of; cbn [fst snd].
  destruct (dget "neighbors" a) as [v|];
    [destruct v|]; try (split; [discriminate|intros [(? & ? & _) _]; discriminate]).
  split.
  - intros H. apply bind_ok in H as [[adj1 new] [H1 H2]].
    destruct (load_edge_fold nodes q d e _ _ _ _ E H1) as [-> H3].
    destruct new; [discriminate|]. injection H2 as <-. split; [|reflexivity].
    exists d. split; [reflexivity|]. now apply H3.
  - intros [(nd & [= <-] & F) ->]. destruct (load_edge_ok nodes q d adj false F) as [[adj1 new] H1].
    destruct (load_edge_fold nodes q d e _ _ _ _ E H1) as [-> H3]. rewrite H1; cbn [bind].
    destruct new; [|reflexivity]. assert (true = false) by (apply H3; auto). discriminate.
Qed.

Definition edge_map (nodes : dict string attrs) : dict string (dict string string) :=
  map (fun qa => (fst qa, edges (nd_of (snd qa)))) nodes.
Lemma load_all_edges nodes : forall ns d adj,
  NoDup (dkeys d ++ dkeys ns) ->
  foldM (load_edges nodes) ns (d ++ map (fun kv => (fst kv, [])) ns) = Ok adj <->
  Forall (fun qa => nbrs_ok nodes (snd qa)) ns /\ adj = d ++ edge_map ns.
Proof.
  induction ns as [|[q a] ns IH]; intros d adj N; cbn [foldM map edge_map fst snd].
  - split; [intros [= <-]; auto|intros [_ ->]; reflexivity].
  - simpl in N. assert (Hq : ~ In q (dkeys d)).
    { apply NoDup_app_inv in N as (_ & _ & D). intros Hi. apply (D q Hi). now left. }
    set (adj0 := d ++ (q, []) :: map (fun kv => (fst kv, [])) ns).
    assert (E : dget q adj0 = Some []) by (apply dget_mid; exact Hq).
    assert (Step : forall ad, dset q (fold_left add_nbr (nd_of a) []) adj0 = ad ->
      ad = (d ++ [(q, edges (nd_of a))]) ++ map (fun kv => (fst kv, [])) ns).
    { intros ad <-. unfold adj0. rewrite dset_mid by exact Hq. rewrite <- app_assoc. reflexivity. }
    assert (N' : NoDup (dkeys (d ++ [(q, edges (nd_of a))]) ++ dkeys ns)).
    { rewrite dkeys_app; simpl. rewrite <- app_assoc. exact N. }
    split.
    + intros H. apply bind_ok in H as [ad [H1 H2]].
      apply (load_edges_char nodes adj0 q a [] ad E) in H1 as [F1 H1].
      rewrite (Step ad (eq_sym H1)) in H2. apply IH in H2 as [F2 ->]; [|exact N'].
      split; [constructor; assumption|]. rewrite <- app_assoc. reflexivity.
    + intros [F ->]. inversion F as [|? ? F1 F2]; subst.
      rewrite (proj2 (load_edges_char nodes adj0 q a [] _ E) (conj F1 eq_refl)); cbn [bind].
      rewrite (Step _ eq_refl). apply IH; [exact N'|]. split; [exact F2|]. rewrite <- app_assoc. reflexivity.
Qed.

(** * Loading *)
Definition names_ok (logs : list string) (lz lx : dict string (list string)) : bool :=
  set_eq logs (dkeys lz) && set_eq logs (dkeys lx).
Record load_spec (r : raw_layout) (l : layout) : Prop := {
  ls_names : names_ok (l_logs l) (l_logz l) (l_logx l) = true;
  ls_infos : exists infos, rl_layout r = Some infos /\ Forall2 node_of infos (l_nodes l);
  ls_nodup : NoDup (dkeys (l_nodes l));
  ls_nbrs : Forall (fun qa => nbrs_ok (l_nodes l) (snd qa)) (l_nodes l);
  ls_adj : l_adj l = edge_map (l_nodes l);
  ls_inds : load_inds (raw_inds (l_nodes l)) = Ok (l_inds l);
  ls_name : l_name l = odef (PStr "") (rl_name r); ls_code : l_code l = odef "" (rl_code r);
  ls_logs : l_logs l = odef [] (rl_logs r);
  ls_d : l_distance l = odef (-1) (rl_distance r); ls_dz : l_dz l = odef (-1) (rl_dz r);
  ls_dx : l_dx l = odef (-1) (rl_dx r);
  ls_logz : l_logz l = odef [] (rl_logz r); ls_logx : l_logx l = odef [] (rl_logx r);
  ls_desc : l_desc l = odef PNone (rl_desc r); ls_order : l_order l = odef [] (rl_order r) }.

Lemma layout_init_char r l : layout_init r = Ok l <-> load_spec r l.
Proof.
  unfold layout_init. split.
  - intros H. match type of H with (if ?b then _ else _) = _ => destruct b eqn:Es end; [discriminate|].
    apply orb_false_iff in Es as [Es1 Es2]. apply negb_false_iff in Es1, Es2.
    apply bind_ok in H as [infos [H1 H]]. apply bind_ok in H as [[nodes inds0] [H2 H]].
    apply bind_ok in H as [adj [H3 H]]. apply bind_ok in H as [inds [H4 H]]. injection H as <-.
    apply load_nodes in H2 as (F & N & ->).
    apply (load_all_edges nodes nodes [] adj) in H3 as [F2 ->]; [|exact N].
    constructor; simpl; try reflexivity; try assumption.
    + unfold names_ok. rewrite Es1, Es2. reflexivity.
    + exists infos. split; [|exact F]. destruct (rl_layout r); [|discriminate]. injection H1 as ->. reflexivity.
  - intros [H1 (infos & H2 & H3) H4 H5 H6 H7 ? ? ? ? ? ? ? ? ? ?].
    unfold names_ok in H1. apply andb_true_iff in H1 as [Ha Hb].
    destruct l as [nm cd lg dd dz dx lz lx ds od ix nodes adj]; simpl in *; subst. rewrite Ha, Hb; simpl. rewrite H2; simpl.
    rewrite (proj2 (load_nodes infos nodes _) (conj H3 (conj H4 eq_refl))); simpl.
    pose proof (proj2 (load_all_edges nodes nodes [] _ H4) (conj H5 eq_refl)) as H8. simpl in H8. rewrite H8; simpl.
    rewrite H7; simpl. reflexivity.
Qed.

(** * Well-formed layouts, and round trips *)
Lemma edges_gen nd : forall acc,
  NoDup (dkeys acc) -> NoDup (map snd acc) -> NoDup (dkeys nd) ->
  (forall d, In d (map snd acc) -> ~ In d (dkeys nd)) ->
  let r := fold_left add_nbr nd acc in
  NoDup (dkeys r) /\ NoDup (map snd r) /\
  (forall d, In d (map snd r) -> In d (map snd acc) \/ In d (dkeys nd)).
Proof.
  induction nd as [|[d v] nd IH]; intros acc N1 N2 N3 D; cbn [fold_left]; cbv zeta.
  - split; [exact N1|]. split; [exact N2|]. auto.
  - inversion N3 as [|? ? Hd N3']; subst.
    assert (D0 : forall d0, In d0 (map snd acc) -> ~ In d0 (dkeys nd)).
    { intros d0 Hi Hn. apply (D d0 Hi). now right. }
    destruct v as [|b|q|s|l|d']; cbn [add_nbr snd];
      try (destruct (IH acc N1 N2 N3' D0) as (A & B & C); split; [exact A|split; [exact B|]];
           intros x Hx; destruct (C x Hx); [now left|right; now right]).
    assert (Sub : forall x, In x (map snd (dset s d acc)) -> x = d \/ In x (map snd acc)).
    { clear. induction acc as [|[k w] acc IH]; simpl; [intros x [->|[]]; auto|].
      destruct (eqb s k); simpl; [intros x [->|?]; auto|]. intros x [->|Hx]; auto.
      destruct (IH x Hx); auto. }
    assert (N2' : NoDup (map snd (dset s d acc))).
    { assert (Hd0 : ~ In d (map snd acc)) by (intros Hi; apply (D d Hi); now left).
      clear -N2 Hd0 Sub. induction acc as [|[k w] acc IH]; simpl; [repeat constructor; auto|].
      inversion N2 as [|? ? A B]; subst. simpl in Hd0.
      destruct (eqb s k); simpl; [constructor; tauto|].
      assert (Sub' : forall x, In x (map snd (dset s d acc)) -> x = d \/ In x (map snd acc)).
      { clear. induction acc as [|[k w] acc IH]; simpl; [intros x [->|[]]; auto|].
        destruct (eqb s k); simpl; [intros x [->|?]; auto|]. intros x [->|Hx]; auto.
        destruct (IH x Hx); auto. }
      constructor; [|apply IH; tauto].
      intros Hw. destruct (Sub' w Hw) as [->|Hw']; tauto. }
    destruct (IH (dset s d acc)) as (A & B & C); auto.
    + now apply NoDup_dset.
    + intros x Hx Hn. destruct (Sub x Hx) as [->|Hx']; [tauto|]. exact (D0 x Hx' Hn).
    + split; [exact A|split; [exact B|]]. intros x Hx. destruct (C x Hx) as [Hx'|Hx'].
      * destruct (Sub x Hx') as [->|]; [right; now left|now left].
      * right; now right.
Qed.
Lemma edges_wf nd : NoDup (dkeys nd) -> NoDup (dkeys (edges nd)) /\ NoDup (map snd (edges nd)).
Proof.
  intros N. destruct (edges_gen nd [] (NoDup_nil _) (NoDup_nil _) N) as (A & B & _); [intros d []|].
  split; assumption.
Qed.
Lemma edges_in nd : forall acc nb d, dget nb (fold_left add_nbr nd acc) = Some d ->
  dget nb acc = Some d \/ In (d, PStr nb) nd.
Proof.
  induction nd as [|[d0 v] nd IH]; intros acc nb d; cbn [fold_left]; [auto|].
  intros H. apply IH in H as [H|H]; [|right; now right].
  destruct v; cbn [add_nbr snd fst] in H; auto.
  rewrite dget_dset in H. destruct (eqb_spec s nb) as [->|Ne]; [|auto].
  injection H as ->. right; now left.
Qed.
Lemma edges_mem nd : forall acc nb, In nb (dkeys (fold_left add_nbr nd acc)) <->
  In nb (dkeys acc) \/ exists d, In (d, PStr nb) nd.
Proof.
  induction nd as [|[d0 v] nd IH]; intros acc nb; cbn [fold_left].
  - split; [auto|intros [H|[d []]]; exact H].
  - rewrite IH. destruct v as [|b|q|s|l|d']; cbn [add_nbr snd fst]; simpl;
      try (split; [intros [H|[d H]]; [auto|right; exists d; now right]|
                   intros [H|[d [[=]|H]]]; [auto|right; eauto]]).
    rewrite dkeys_dset. split.
    + intros [H|[d H]]; [|right; exists d; now right].
      destruct (dmem s acc) eqn:E; [auto|]. apply in_app_or in H as [H|[->|[]]]; [auto|].
      right; exists d0; now left.
    + intros [H|[d [[= <- E0]|H]]]; [left|left|right; eauto].
      * destruct (dmem s acc); [exact H|apply in_or_app; now left].
      * subst nb. destruct (dmem s acc) eqn:E; [now apply dmem_In|apply in_or_app; right; now left].
Qed.

Definition row_wf (nodes : dict string attrs) (e : dict string string) : Prop :=
  NoDup (dkeys e) /\ NoDup (map snd e) /\ forall nb, In nb (dkeys e) -> In nb (dkeys nodes).
Record wf (l : layout) : Prop := {
  wf_names : names_ok (l_logs l) (l_logz l) (l_logx l) = true;
  wf_nodup : NoDup (dkeys (l_nodes l));
  wf_keys : dkeys (l_adj l) = dkeys (l_nodes l);
  wf_rows : Forall (fun qe => row_wf (l_nodes l) (snd qe)) (l_adj l);
  wf_inds : load_inds (raw_inds (l_nodes l)) = Ok (l_inds l);
  wf_noq : Forall (fun qa => dget "qubit" (snd qa) = None) (l_nodes l) }.

Lemma nd_of_ddel a : nd_of (ddel "qubit" a) = nd_of a.
Proof. unfold nd_of. rewrite dget_ddel. reflexivity. Qed.
Lemma loaded_wf r l : py_dicts r -> layout_init r = Ok l -> wf l.
Proof.
  intros P H. apply layout_init_char in H. destruct H as [H1 (infos & H2 & H3) H4 H5 H6 H7 _ _ _ _ _ _ _ _ _ _].
  constructor; auto.
  - rewrite H6. unfold edge_map, dkeys. rewrite map_map. reflexivity.
  - rewrite H6. unfold edge_map. apply Forall_map. cbn [snd].
    assert (ND : Forall (fun qa : string * attrs => NoDup (dkeys (nd_of (snd qa)))) (l_nodes l)).
    { assert (P' : forall a, In a infos -> NoDup (dkeys (nd_of a))).
      { intros a Ha. unfold nd_of. destruct (dget "neighbors" a) as [v|] eqn:E; [|constructor].
        destruct v; try constructor. destruct (P infos a H2 Ha) as [_ Q]. exact (Q _ E). }
      clear -H3 P'. induction H3 as [|a qa infos n [_ E] F IH]; constructor.
      - rewrite E, nd_of_ddel. apply P'. now left.
      - apply IH. intros b Hb. apply P'. now right. }
    rewrite Forall_forall in *. intros qa Hqa. destruct (edges_wf _ (ND qa Hqa)) as [A B].
    split; [exact A|]. split; [exact B|]. intros nb Hnb. unfold edges in Hnb.
    apply edges_mem in Hnb as [[]|[d Hd]]. destruct (H5 qa Hqa) as (nd & E & F).
    unfold nd_of in Hd. rewrite E in Hd. rewrite Forall_forall in F.
    destruct (F _ Hd) as [Q|(nb' & Q & Hi)]; simpl in Q; [discriminate|]. injection Q as ->. exact Hi.
  - clear -H3. induction H3 as [|a qa infos n [_ E] F IH]; constructor; [|exact IH].
    destruct qa as [q b]; simpl in *; subst b. now rewrite dget_ddel.
Qed.

Lemma dset_update_keys {V} (q : string) (v : V) (d : dict string V) :
  In q (dkeys d) -> dkeys (dset q v d) = dkeys d.
Proof. intros H. rewrite dkeys_dset. apply dmem_In in H. now rewrite H. Qed.
Lemma lset_param_wf l p q v l' : p <> "ind" -> p <> "qubit" -> lset_param l p q v = Ok l' -> wf l -> wf l'.
Proof.
  intros Hi Hq H W. unfold lset_param in H. apply bind_ok in H as [a [Ea H]]. injection H as <-.
  unfold dget_err in Ea. destruct (dget q (l_nodes l)) as [a'|] eqn:E; [|discriminate]. injection Ea as ->.
  assert (Hk : dkeys (dset q (dset p v a) (l_nodes l)) = dkeys (l_nodes l)).
  { apply dset_update_keys. eapply dget_Some_key; eauto. }
  destruct W as [W1 W2 W3 W4 W5 W6]. constructor; cbn [with_nodes l_logs l_logz l_logx l_nodes l_adj l_inds]; auto.
  - now rewrite Hk.
  - now rewrite Hk.
  - eapply Forall_impl; [|exact W4]. intros qe (A & B & C). unfold row_wf. rewrite Hk. auto.
  - rewrite <- W5. f_equal. clear -E Hi. induction (l_nodes l) as [|[k b] n IH]; simpl in *; [discriminate|].
    destruct (eqb_spec q k) as [->|N]; simpl.
    + injection E as ->. rewrite dget_dset_other by exact Hi. reflexivity.
    + now rewrite (IH E).
  - clear -E Hq W6. induction (l_nodes l) as [|[k b] n IH]; simpl in *; [discriminate|].
    inversion W6; subst. destruct (eqb_spec q k) as [->|N]; simpl.
    + injection E as ->. constructor; [|assumption]. simpl. rewrite dget_dset_other by exact Hq. assumption.
    + constructor; auto.
Qed.
Lemma edited_wf l l' : edited l l' -> wf l -> wf l'.
Proof. induction 1 as [|l p q v l1 l2 A B C D IH]; [auto|]. intros W. apply IH. eapply lset_param_wf; eauto. Qed.

(* by_dir e ++ absent directions *)
Lemma fold_by_dir (e : dict string string) : forall acc : dict string pyv, NoDup (dkeys acc ++ map snd e) ->
  fold_left (fun acc nd => dset (snd nd) (PStr (fst nd)) acc) e acc =
  acc ++ map (fun nd => (snd nd, PStr (fst nd))) e.
Proof.
  induction e as [|[nb d] e IH]; intros acc N; cbn [fold_left map fst snd]; [now rewrite app_nil_r|].
  rewrite dset_new.
  - rewrite IH, <- app_assoc; [reflexivity|]. rewrite dkeys_app, <- app_assoc. exact N.
  - apply NoDup_app_inv in N as (_ & _ & D). intros Hi. apply (D d Hi). now left.
Qed.
Lemma fill_none dirs : forall acc : dict string pyv,
  exists rest, fold_left (fun acc dir => if dmem dir acc then acc else dset dir PNone acc) dirs acc = acc ++ rest
               /\ Forall (fun dn => snd dn = PNone) rest.
Proof.
  induction dirs as [|d dirs IH]; intros acc; cbn [fold_left].
  - exists []. rewrite app_nil_r. auto.
  - destruct (dmem d acc) eqn:E; [apply IH|].
    rewrite dset_new by (now apply dmem_false). destruct (IH (acc ++ [(d, PNone)])) as (rest & H & F).
    exists ((d, PNone) :: rest). rewrite H, <- app_assoc. split; [reflexivity|]. constructor; auto.
Qed.
Lemma nbr_dict_char e : NoDup (map snd e) -> exists rest,
  nbr_dict e = map (fun nd => (snd nd, PStr (fst nd))) e ++ rest /\ Forall (fun dn => snd dn = PNone) rest.
Proof.
  intros N. unfold nbr_dict. rewrite fold_by_dir by exact N. cbn [app]. apply fill_none.
Qed.
Lemma fold_none rest : forall acc, Forall (fun dn : string * pyv => snd dn = PNone) rest -> fold_left add_nbr rest acc = acc.
Proof.
  induction rest as [|[d v] rest IH]; intros acc F; [reflexivity|]. inversion F as [|? ? E F']; subst. simpl in E; subst v.
  cbn [fold_left add_nbr snd]. now apply IH.
Qed.
Lemma edges_nbr_dict e : NoDup (dkeys e) -> NoDup (map snd e) -> edges (nbr_dict e) = e.
Proof.
  intros N1 N2. destruct (nbr_dict_char e N2) as (rest & -> & F). unfold edges.
  rewrite fold_left_app, (fold_none rest _ F).
  assert (G : forall e acc, NoDup (dkeys acc ++ dkeys e) ->
    fold_left add_nbr (map (fun nd => (snd nd, PStr (fst nd))) e) acc = acc ++ e).
  { clear. induction e as [|[nb d] e IH]; intros acc N; cbn [map fold_left add_nbr fst snd]; [now rewrite app_nil_r|].
    rewrite dset_new.
    - rewrite IH, <- app_assoc; [reflexivity|]. rewrite dkeys_app, <- app_assoc. exact N.
    - apply NoDup_app_inv in N as (_ & _ & D). intros Hi. apply (D nb Hi). now left. }
  apply G. exact N1.
Qed.

Definition reloaded_attrs (l : layout) (qa : string * attrs) : attrs := ddel "qubit" (node_to_dict l qa).
Lemma reloaded_other l qa k : k <> "neighbors" -> dget "qubit" (snd qa) = None ->
  dget k (reloaded_attrs l qa) = dget k (snd qa).
Proof.
  intros Hk Hq. unfold reloaded_attrs, node_to_dict. rewrite dget_ddel.
  destruct (eqb_spec "qubit" k) as [<-|N]; [now rewrite Hq|].
  rewrite dget_dset_other by congruence. rewrite dget_dset_other by exact N. reflexivity.
Qed.
Lemma reloaded_nbrs l qa : dget "neighbors" (reloaded_attrs l qa) =
  Some (PDict (nbr_dict (odef [] (dget (fst qa) (l_adj l))))).
Proof.
  unfold reloaded_attrs, node_to_dict. rewrite dget_ddel. cbn. apply dget_dset_same.
Qed.
Definition reloaded (l : layout) : layout :=
  with_nodes l (map (fun qa => (fst qa, reloaded_attrs l qa)) (l_nodes l)).

Lemma adj_row l q e : wf l -> dget q (l_adj l) = Some e -> row_wf (l_nodes l) e.
Proof.
  intros W E. apply dget_In in E. pose proof (wf_rows _ W) as F. rewrite Forall_forall in F. exact (F _ E).
Qed.
Lemma dkeys_reloaded l : dkeys (l_nodes (reloaded l)) = dkeys (l_nodes l).
Proof. cbn. unfold dkeys. rewrite map_map. reflexivity. Qed.

Lemma reload l : wf l -> layout_init (to_dict l) = Ok (reloaded l).
Proof.
  intros W. apply layout_init_char.
  assert (Hn : forall q, In q (dkeys (l_nodes l)) -> exists e, dget q (l_adj l) = Some e).
  { intros q Hq. rewrite <- (wf_keys _ W) in Hq. now apply key_dget. }
  constructor; try reflexivity.
  - exact (wf_names _ W).
  - exists (map (node_to_dict l) (l_nodes l)). split; [reflexivity|]. cbn [reloaded with_nodes l_nodes].
    clear. induction (l_nodes l) as [|qa n IH]; constructor; [|exact IH].
    split; [|reflexivity]. cbn [fst]. unfold labelled, node_to_dict.
    rewrite dget_dset_other by discriminate. apply dget_dset_same.
  - rewrite dkeys_reloaded. exact (wf_nodup _ W).
  - cbn [reloaded with_nodes l_nodes]. apply Forall_map. rewrite Forall_forall. intros [q a] Hqa. cbn [snd fst].
    unfold nbrs_ok. rewrite reloaded_nbrs. cbn [fst].
    destruct (Hn q) as [e E]; [change (In (fst (q, a)) (dkeys (l_nodes l))); unfold dkeys; now apply in_map|].
    rewrite E; cbn [odef]. destruct (adj_row l q e W E) as (N1 & N2 & Hin).
    exists (nbr_dict e). split; [reflexivity|].
    destruct (nbr_dict_char e N2) as (rest & -> & F). apply Forall_app. split.
    + apply Forall_map. rewrite Forall_forall. intros [nb d] Hnd. right. exists nb. split; [reflexivity|].
      match goal with |- In nb (dkeys ?m) => change m with (l_nodes (reloaded l)) end.
      rewrite dkeys_reloaded. apply Hin. apply (in_map fst) in Hnd. exact Hnd.
    + eapply Forall_impl; [|exact F]. intros dn Q. now left.
  - cbn [reloaded with_nodes l_nodes l_adj]. unfold edge_map. rewrite map_map. cbn [fst snd].
    transitivity (map (fun qa => (fst qa, odef [] (dget (fst qa) (l_adj l)))) (l_nodes l)).
    + assert (G : forall (ks : dict string attrs) (adj : dict string (dict string string)), NoDup (dkeys adj) ->
        dkeys adj = dkeys ks -> adj = map (fun qa => (fst qa, odef [] (dget (fst qa) adj))) ks).
      { clear. intros ks. induction ks as [|[q a] ks IH]; intros [|[q' e] adj] N H; try discriminate; [reflexivity|].
        simpl in H. injection H as -> H. simpl. rewrite eqb_refl; cbn [odef]. inversion N as [|? ? Hnq N']; subst.
        f_equal. rewrite (IH adj N' H) at 1. apply map_ext_in. intros [k b] Hk. cbn [fst].
        destruct (eqb_spec k q) as [->|Ne]; [|reflexivity]. exfalso. apply Hnq. simpl. rewrite H.
        apply (in_map fst) in Hk. exact Hk. }
      apply G; [rewrite (wf_keys _ W); exact (wf_nodup _ W)|exact (wf_keys _ W)].
    + apply map_ext_in. intros [q a] Hqa. cbn [fst snd]. f_equal. unfold nd_of. rewrite reloaded_nbrs. cbn [fst].
      destruct (Hn q) as [e E]; [apply (in_map fst) in Hqa; exact Hqa|]. rewrite E; cbn [odef].
      destruct (adj_row l q e W E) as (N1 & N2 & _). now rewrite edges_nbr_dict.
  - change (l_inds (reloaded l)) with (l_inds l). rewrite <- (wf_inds _ W). f_equal.
    cbn [reloaded with_nodes l_nodes]. unfold raw_inds. rewrite map_map. apply map_ext_in. intros [q a] Hqa. cbn [fst snd].
    rewrite reloaded_other; [reflexivity|discriminate|].
    pose proof (wf_noq _ W) as F. rewrite Forall_forall in F. exact (F _ Hqa).
Qed.

Lemma mapM_map {A B C} (f : B -> res C) (g : A -> B) l : mapM f (map g l) = mapM (fun x => f (g x)) l.
Proof. induction l as [|x l IH]; simpl; [reflexivity|]. now rewrite IH. Qed.
Lemma mapM_ext_in {A B} (f g : A -> res B) l : (forall x, In x l -> f x = g x) -> mapM f l = mapM g l.
Proof.
  induction l as [|x l IH]; simpl; intros H; [reflexivity|]. rewrite H by auto. rewrite IH; auto.
Qed.
Lemma valid_attrs_ext conds a b : no_key "neighbors" conds ->
  (forall k, k <> "neighbors" -> dget k a = dget k b) -> valid_attrs a conds = valid_attrs b conds.
Proof.
  unfold no_key. induction conds as [|[k v] conds IH]; simpl; intros N H; [reflexivity|].
  unfold dget_err. rewrite (H k) by intuition. destruct (dget k b); cbn [of_opt bind]; [|reflexivity].
  rewrite IH by (auto; tauto). reflexivity.
Qed.
Lemma reloaded_same l : wf l -> same_layout l (reloaded l).
Proof.
  intros W. pose proof (wf_noq _ W) as Fq. rewrite Forall_forall in Fq.
  constructor; try reflexivity.
  - intros conds N. unfold get_qubits. rewrite dkeys_reloaded. destruct conds as [|c conds]; [reflexivity|].
    cbn [reloaded with_nodes l_nodes]. rewrite mapM_map. cbn [snd].
    rewrite (mapM_ext_in _ (fun x => valid_attrs (reloaded_attrs l x) (c :: conds))); [reflexivity|].
    intros qa Hqa. apply valid_attrs_ext; [exact N|]. intros k Hk. symmetry. apply reloaded_other; auto.
  - intros p q Hp. unfold lparam, dget_err. cbn [reloaded with_nodes l_nodes].
    rewrite (dget_map (fun qa => reloaded_attrs l qa)). destruct (dget q (l_nodes l)) as [a|] eqn:E; [|reflexivity].
    cbn [of_opt bind]. rewrite reloaded_other; [reflexivity|exact Hp|]. exact (Fq _ (dget_In _ _ _ E)).
  - intros qs. unfold get_coords. assert (E : qubit_coords_attr (reloaded l) = qubit_coords_attr l); [|now rewrite E].
    unfold qubit_coords_attr. cbn [reloaded with_nodes l_nodes].
    assert (G : forall n, incl n (l_nodes l) ->
      flat_map (fun qa => match dget "coords" (snd qa) with Some c => [(fst qa, c)] | None => [] end)
        (map (fun qa => (fst qa, reloaded_attrs l qa)) n) =
      flat_map (fun qa : string * attrs => match dget "coords" (snd qa) with Some c => [(fst qa, c)] | None => [] end) n).
    { induction n as [|qa n IH]; intros Hn; simpl; [reflexivity|]. rewrite IH by (intros x Hx; apply Hn; now right).
      rewrite reloaded_other; [reflexivity|discriminate|]. apply Fq, Hn. now left. }
    apply G. apply incl_refl.
Qed.

Lemma C22_lemma r l0 l : py_dicts r -> layout_init r = Ok l0 -> edited l0 l ->
  exists l', layout_init (to_dict l) = Ok l' /\ same_layout l l'.
Proof.
  intros P H E. assert (W : wf l) by (eapply edited_wf; eauto using loaded_wf).
  exists (reloaded l). split; [now apply reload|now apply reloaded_same].
Qed.

(** * Indices *)
Lemma load_inds_char inds r : load_inds inds = Ok r -> NoDup (dkeys inds) ->
  dkeys r = dkeys inds /\ NoDup (map snd r) /\
  ((forall kv, In kv inds -> snd kv = PNone) \/
   Forall2 (fun kv r => as_ind (snd kv) = Ok (snd r)) inds r).
Proof.
  unfold load_inds. intros H N. destruct (forallb _ inds) eqn:E1.
  - injection H as <-. rewrite forallb_forall in E1.
    assert (G : forall (ks : list string) n,
      map fst (map (fun kq => (snd kq, Z.of_nat (fst kq))) (enumerate_from n ks)) = ks /\
      NoDup (map snd (map (fun kq => (snd kq, Z.of_nat (fst kq))) (enumerate_from n ks))) /\
      forall z, In z (map snd (map (fun kq => (snd kq, Z.of_nat (fst kq))) (enumerate_from n ks))) -> (Z.of_nat n <= z)%Z).
    { clear. induction ks as [|k ks IH]; intros n; simpl; [repeat split; [constructor|intros z []]|].
      destruct (IH (S n)) as (A & B & C). repeat split.
      - now rewrite A.
      - constructor; [|exact B]. intros Hi. apply C in Hi. lia.
      - intros z [<-|Hz]; [lia|]. apply C in Hz. lia. }
    destruct (G (dkeys inds) 0%nat) as (A & B & _). unfold enumerate. split; [exact A|]. split; [exact B|].
    left. intros kv Hkv. apply E1 in Hkv. destruct (snd kv); auto; discriminate.
  - destruct (existsb _ inds); [discriminate|]. apply bind_ok in H as [zs [Hz H]].
    destruct (nodupb zs) eqn:Ez; [|discriminate]. injection H as <-. apply nodupb_spec in Ez.
    apply mapM_Forall2 in Hz.
    assert (L : length (dkeys inds) = length zs).
    { unfold dkeys. rewrite map_length. eapply Forall2_len; eauto. }
    assert (C1 : forall (a : list string) (b : list Z), length a = length b -> map fst (combine a b) = a /\ map snd (combine a b) = b).
    { clear. induction a as [|x a IH]; intros [|y b] L; try discriminate; [auto|]. simpl. injection L as L.
      destruct (IH b L) as [-> ->]; auto. }
    destruct (C1 _ _ L) as [A B]. split; [exact A|]. split; [now rewrite B|]. right.
    clear -Hz. unfold dkeys. induction Hz; simpl; constructor; auto.
Qed.

Lemma as_ind_ok v z : as_ind v = Ok z <-> v = PNum (Q2Qc (inject_Z z)).
Proof.
  unfold as_ind. split.
  - destruct v; try discriminate. destruct (Pos.eqb_spec (Qden q) 1); [|discriminate].
    intros [= <-]. f_equal. apply Qc_is_canon. destruct q as [[n d] c]; simpl in *; subst d.
    symmetry. apply (Qred_correct (inject_Z n)).
  - intros ->. unfold Q2Qc. cbn [this]. assert (E : Qred (inject_Z z) = inject_Z z).
    { unfold inject_Z, Qred. pose proof (Z.ggcd_gcd z 1) as Hg. pose proof (Z.ggcd_correct_divisors z 1) as Hd.
      destruct (Z.ggcd z 1) as [g [aa bb]]. simpl in *. rewrite Z.gcd_1_r in Hg. subst g.
      destruct Hd as [H1 H2]. rewrite Z.mul_1_l in *. subst. reflexivity. }
    rewrite E. reflexivity.
Qed.

Lemma lay_inds_one l q i : lay_inds l [q] = Ok [i] <-> dget q (l_inds l) = Some i.
Proof.
  unfold lay_inds, dget_err. simpl. destruct (dget q (l_inds l)); simpl; split; congruence.
Qed.
Lemma Forall2_in_l {A B} (P : A -> B -> Prop) l r x : Forall2 P l r -> In x l -> exists y, In y r /\ P x y.
Proof.
  induction 1 as [|a b l r H F IH]; [intros []|]. intros [->|Hx]; [exists b; split; [now left|exact H]|].
  destruct (IH Hx) as (y & Hy & Hp). exists y; split; [now right|exact Hp].
Qed.
Lemma Forall2_in_r {A B} (P : A -> B -> Prop) l r y : Forall2 P l r -> In y r -> exists x, In x l /\ P x y.
Proof.
  induction 1 as [|a b l r H F IH]; [intros []|]. intros [->|Hx]; [exists a; split; [now left|exact H]|].
  destruct (IH Hx) as (x & Hy & Hp). exists x; split; [now right|exact Hp].
Qed.
Lemma NoDup_snd_inj {K V} (l : list (K * V)) k k' v : NoDup (map snd l) -> In (k, v) l -> In (k', v) l -> k = k'.
Proof.
  induction l as [|[a b] l IH]; simpl; [tauto|]. inversion 1 as [|? ? Hn N]; subst.
  intros [E1|H1] [E2|H2]; auto; [congruence| |]; [injection E1 as -> ->|injection E2 as -> ->].
  - exfalso. apply Hn. apply (in_map snd) in H2. exact H2.
  - exfalso. apply Hn. apply (in_map snd) in H1. exact H1.
Qed.

Section Indices.
  Context (r : raw_layout) (l : layout) (infos : list attrs).
  Hypothesis H : layout_init r = Ok l.
  Hypothesis Hi : rl_layout r = Some infos.
  Lemma infos_nodes : Forall2 node_of infos (l_nodes l).
  Proof.
    apply layout_init_char in H. destruct (ls_infos _ _ H) as (infos' & E & F). rewrite Hi in E. now injection E as ->.
  Qed.
  Lemma inds_char : dkeys (l_inds l) = dkeys (l_nodes l) /\ NoDup (map snd (l_inds l)) /\
    ((forall kv, In kv (raw_inds (l_nodes l)) -> snd kv = PNone) \/
     Forall2 (fun kv r => as_ind (snd kv) = Ok (snd r)) (raw_inds (l_nodes l)) (l_inds l)).
  Proof.
    apply layout_init_char in H. destruct (load_inds_char _ _ (ls_inds _ _ H)) as (A & B & C).
    - rewrite dkeys_raw_inds. exact (ls_nodup _ _ H).
    - rewrite dkeys_raw_inds in A. auto.
  Qed.
  Lemma C23_injective_lemma q q' i : lay_inds l [q] = Ok [i] -> lay_inds l [q'] = Ok [i] -> q = q'.
  Proof.
    rewrite !lay_inds_one. intros A B. apply dget_In in A, B.
    eapply NoDup_snd_inj; eauto. apply inds_char.
  Qed.
  Lemma C23_total_lemma q : In q (map fst (l_nodes l)) <-> exists i, lay_inds l [q] = Ok [i].
  Proof.
    destruct inds_char as (A & _ & _). change (map fst (l_nodes l)) with (dkeys (l_nodes l)). rewrite <- A. split.
    - intros Hq. destruct (key_dget _ _ Hq) as [i E]. exists i. now apply lay_inds_one.
    - intros [i E]. apply lay_inds_one in E. eapply dget_Some_key; eauto.
  Qed.
  Lemma node_info q a : dget q (l_nodes l) = Some a -> exists a0, In a0 infos /\ labelled a0 q /\ a = ddel "qubit" a0.
  Proof.
    intros E. apply dget_In in E. destruct (Forall2_in_r _ _ _ _ infos_nodes E) as (a0 & Ha & L & Q). eauto.
  Qed.
  Lemma info_node a q : In a infos -> labelled a q -> dget q (l_nodes l) = Some (ddel "qubit" a).
  Proof.
    intros Ha L. destruct (Forall2_in_l _ _ _ _ infos_nodes Ha) as ([q' b] & Hin & L' & Q). simpl in *.
    unfold labelled in *. rewrite L in L'. injection L' as <-. subst b.
    apply In_dget; [|exact Hin]. apply layout_init_char in H. exact (ls_nodup _ _ H).
  Qed.
  Lemma C23_labels_lemma : exists ls, Forall2 labelled infos ls /\ NoDup ls /\ get_qubits l [] = Ok ls.
  Proof.
    exists (dkeys (l_nodes l)). split; [|split; [|reflexivity]].
    - pose proof infos_nodes as F. clear -F. unfold dkeys. induction F as [|a qa infos n [L _] F IH]; constructor; auto.
    - apply layout_init_char in H. exact (ls_nodup _ _ H).
  Qed.
  Lemma raw_ind_none (a0 : attrs) : odef PNone (dget "ind" (ddel "qubit" a0)) = PNone -> no_index a0.
  Proof. rewrite dget_ddel. cbn. unfold no_index. destruct (dget "ind" a0); simpl; intros E; subst; auto. Qed.
  Lemma raw_ind_num (a0 : attrs) z : as_ind (odef PNone (dget "ind" (ddel "qubit" a0))) = Ok z -> index_is a0 z.
  Proof.
    rewrite dget_ddel. cbn. rewrite as_ind_ok. unfold index_is. destruct (dget "ind" a0); simpl; intros E; subst; auto. discriminate.
  Qed.
  Lemma C23_indices_lemma :
    Forall no_index infos \/
    exists zs, Forall2 index_is infos zs /\ NoDup zs /\
      forall a q z, In a infos -> labelled a q -> index_is a z -> lay_inds l [q] = Ok [z].
  Proof.
    destruct inds_char as (A & B & [C|C]).
    - left. rewrite Forall_forall. intros a Ha. destruct (Forall2_in_l _ _ _ _ infos_nodes Ha) as ([q b] & Hin & L & Q).
      simpl in Q; subst b. apply raw_ind_none.
      assert (Hr : In (q, odef PNone (dget "ind" (ddel "qubit" a))) (raw_inds (l_nodes l))).
      { unfold raw_inds. apply (in_map (fun qa => (fst qa, odef PNone (dget "ind" (snd qa))))) in Hin. exact Hin. }
      exact (C _ Hr).
    - right. exists (map snd (l_inds l)). split; [|split; [exact B|]].
      + pose proof infos_nodes as F. unfold raw_inds in C. revert C. generalize (l_inds l). clear -F.
        induction F as [|a [q b] infos n [L Q] F IH]; intros rr C; simpl in *; inversion C; subst; constructor; auto.
        simpl in *. now apply raw_ind_num.
      + intros a q z Ha L Hz. apply lay_inds_one.
        destruct (Forall2_in_l _ _ _ _ infos_nodes Ha) as ([q' b] & Hin & L' & Q). simpl in *. subst b.
        unfold labelled in *. rewrite L in L'. injection L' as <-.
        apply In_dget.
        { rewrite A. apply layout_init_char in H. exact (ls_nodup _ _ H). }
        assert (Hr : In (q, odef PNone (dget "ind" (ddel "qubit" a))) (raw_inds (l_nodes l))).
        { unfold raw_inds. apply (in_map (fun qa => (fst qa, odef PNone (dget "ind" (snd qa))))) in Hin. exact Hin. }
        assert (G : forall (xs : dict string pyv) ys, dkeys ys = dkeys xs -> Forall2 (fun kv (r : string * Z) => as_ind (snd kv) = Ok (snd r)) xs ys ->
          forall x, In x xs -> exists z, as_ind (snd x) = Ok z /\ In (fst x, z) ys).
        { clear. intros xs ys K F. induction F as [|x y xs ys E F IH]; simpl in *; [intros x []|].
          injection K as K1 K2. intros x' [->|Hx]; [exists (snd y); split; [exact E|left; rewrite <- K1; now destruct y]|].
          destruct (IH K2 x' Hx) as (z & ? & ?); eauto. }
        destruct (G (raw_inds (l_nodes l)) (l_inds l)) with (x := (q, odef PNone (dget "ind" (ddel "qubit" a)))) as (z' & E1 & E2); auto.
        { rewrite dkeys_raw_inds. exact A. }
        simpl in *. apply raw_ind_num in E1. unfold index_is in *. rewrite Hz in E1.
        apply (f_equal (fun o => match o with Some v => as_ind v | None => Err Unmodelled end)) in E1. cbv beta iota in E1.
        rewrite (proj2 (as_ind_ok _ z) eq_refl), (proj2 (as_ind_ok _ z') eq_refl) in E1. injection E1 as ->. exact E2.
  Qed.
End Indices.
