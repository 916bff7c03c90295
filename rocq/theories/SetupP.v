From Coq Require Import QArith Qcanon.
From Verif Require Import Base Lib SetupM SpecSetup.

Lemma dget_dupdate {K V} `{Eqb K} (d' d : dict K V) k : NoDup (dkeys d') ->
  dget k (dupdate d d') = or_else (dget k d') (dget k d).
Proof.
  unfold dupdate. revert d; induction d' as [|[k' v'] d' IH]; simpl; intros d Hnd; [reflexivity|].
  inversion Hnd as [|? ? Hni Hnd']; subst. rewrite IH by auto. simpl. rewrite dget_dset.
  rewrite (eqb_sym k' k). destruct (eqb_spec k k') as [->|N]; [|reflexivity].
  replace (dget k' d') with (@None V); [reflexivity|]. symmetry. now apply dget_None.
Qed.

Lemma parents_generic p : dget p parents = generic_of p.
Proof.
  unfold generic_of. cbn [mem parents dget].
  repeat match goal with |- context [eqb p ?x] => destruct (eqb p x); [reflexivity|] end.
  reflexivity.
Qed.

Lemma qkey_neq p : is_qkey p = false -> p <> "qubit" /\ p <> "qubits".
Proof. unfold is_qkey. intros H. apply orb_false_iff in H as [H1 H2]. rewrite !eqb_neq in *. auto. Qed.

Lemma pop_qubits_spec e qs e' : pop_qubits e = Ok (qs, e') ->
  entry_qubits e = match qs with Some l => l | None => [] end /\
  (forall p, is_qkey p = false -> dget p e' = dget p e) /\
  (NoDup (dkeys e) -> NoDup (dkeys e')) /\ (forall kv, In kv e' -> In kv e) /\
  dget "qubit" e' = None /\ (length (entry_qubits e) <> 1%nat -> dget "qubits" e' = None).
Proof.
  unfold pop_qubits, entry_qubits. intros H.
  assert (Hd : forall k (e : dict string pval), NoDup (dkeys e) -> NoDup (dkeys (ddel k e))).
  { intros k d. unfold ddel, dkeys. induction d as [|[k' v] d IH]; simpl; [auto|].
    inversion 1 as [|? ? Hni Hnd]; subst. destruct (negb (eqb k k')); simpl; auto. constructor; auto.
    intros Hin. apply Hni. apply in_map_iff in Hin as [kv [<- Hin]]. apply filter_In in Hin as [Hin _].
    now apply in_map. }
  assert (Hi : forall k (e : dict string pval) kv, In kv (ddel k e) -> In kv e).
  { intros k d kv Hin. unfold ddel in Hin. now apply filter_In in Hin. }
  destruct (dget "qubit" e) as [[| | |q|]|] eqn:E1; try discriminate.
  - injection H as <- <-. repeat split; eauto; [|rewrite dget_ddel; reflexivity|simpl; congruence]. intros p Hp. rewrite dget_ddel.
    apply qkey_neq in Hp as [Hp _]. destruct (eqb_spec "qubit" p); congruence.
  - destruct (dget "qubits" e) as [[| | | |l]|] eqn:E2; try discriminate; injection H as <- <-; repeat split; eauto;
      [|rewrite dget_ddel; exact E1|rewrite dget_ddel; reflexivity].
    intros p Hp. rewrite dget_ddel. apply qkey_neq in Hp as [_ Hp]. destruct (eqb_spec "qubits" p); congruence.
Qed.

(* what one entry adds *)
Lemma load_entry_spec s e s' : load_entry s e = Ok s' -> NoDup (dkeys e) ->
  exists e',
    (forall p, is_qkey p = false -> dget p e' = dget p e) /\ NoDup (dkeys e') /\ (forall kv, In kv e' -> In kv e) /\
    dget "qubit" e' = None /\ (length (entry_qubits e) <> 1%nat -> dget "qubits" e' = None) /\
    s_name s' = s_name s /\ s_desc s' = s_desc s /\ s_durations s' = s_durations s /\
    s_var s' = register_vars e' (s_var s) /\
    match entry_qubits e with
    | [] => s_qubit s' = s_qubit s /\ s_global s' = dupdate (s_global s) e'
    | q :: r => dmem (q :: r) (s_qubit s) = false /\
                s_qubit s' = dset (q :: r) e' (s_qubit s) /\ s_global s' = s_global s
    end.
Proof.
  unfold load_entry. intros H Hnd. apply bind_ok in H as [[qs e'] [E H]].
  apply pop_qubits_spec in E as (E1 & E2 & E3 & E4 & E5 & E6). apply bind_ok in H as [s1 [Es H]]. injection H as <-.
  exists e'. do 5 (split; [now auto|]).
  rewrite E1. destruct qs as [[|q r]|].
  - injection Es as <-; simpl; repeat split; auto.
  - destruct (dmem (q :: r) (s_qubit s)) eqn:Em; [discriminate|]. injection Es as <-; simpl; repeat split; auto.
  - injection Es as <-; simpl; repeat split; auto.
Qed.

Lemma find_app {A} (f : A -> bool) l l' : find f (l ++ l') = or_else (find f l) (find f l').
Proof. induction l as [|x l IH]; simpl; [reflexivity|]. destruct (f x); auto. Qed.

Record loaded (es : list (dict string pval)) (s : setup) : Prop := {
  l_global : forall p, is_qkey p = false -> dget p (s_global s) = global es p;
  l_qubit : forall p q r, is_qkey p = false ->
     match dget (q :: r) (s_qubit s) with Some d => dget p d | None => None end = specific es p (q :: r);
  l_keys : forall q r, dmem (q :: r) (s_qubit s) = existsb (fun e => eqb (entry_qubits e) (q :: r)) es;
  l_nokey : dmem [] (s_qubit s) = false;
  l_var : forall n v, dget n (s_var s) = Some v -> v = VNone }.

Lemma register_vars_none e : forall vars, (forall n v, dget n vars = Some v -> v = VNone) ->
  forall n v, dget n (register_vars e vars) = Some v -> v = VNone.
Proof.
  unfold register_vars. induction e as [|[p v] e IH]; simpl; intros vars Hv; auto.
  apply IH. destruct v; auto. destruct (dmem p vars); auto. intros n v. rewrite dget_dset.
  destruct (eqb s n); [congruence|apply Hv].
Qed.

Lemma existsb_find {A} (f : A -> bool) l : existsb f l = match find f l with Some _ => true | None => false end.
Proof. induction l as [|x l IH]; simpl; [reflexivity|]. destruct (f x); auto. Qed.

Lemma loaded_step es s e s' : NoDup (dkeys e) -> loaded es s -> load_entry s e = Ok s' -> loaded (es ++ [e]) s'.
Proof.
  intros Hnd L H. apply load_entry_spec in H; auto.
  destruct H as (e' & He & Hnd' & _ & _ & _ & _ & _ & _ & Hvar & Hm).
  assert (Hfind : forall q r, entry_qubits e <> q :: r ->
            find (fun e => eqb (entry_qubits e) (q :: r)) (es ++ [e]) =
            find (fun e => eqb (entry_qubits e) (q :: r)) es).
  { intros q r N. rewrite find_app. simpl.
    destruct (eqb_spec (entry_qubits e) (q :: r)); [congruence|]. now destruct (find _ es). }
  constructor.
  - intros p Hp. unfold global. rewrite rev_app_distr. simpl.
    destruct (entry_qubits e) as [|q r] eqn:Eq.
    + destruct Hm as [_ ->]. rewrite dget_dupdate by auto. rewrite (He p Hp).
      rewrite eqb_refl. simpl. unfold dmem.
      destruct (dget p e) as [v|] eqn:Ep; simpl; [now rewrite Ep|]. apply (l_global _ _ L p Hp).
    + destruct Hm as (_ & _ & ->). simpl. apply (l_global _ _ L p Hp).
  - intros p q r Hp. unfold specific.
    destruct (entry_qubits e) as [|q' r'] eqn:Eq.
    + destruct Hm as [-> _]. rewrite Hfind by (try congruence). apply (l_qubit _ _ L p q r Hp).
    + destruct Hm as (Hnew & -> & _). rewrite dget_dset.
      destruct (eqb_spec (q' :: r') (q :: r)) as [E|N].
      * injection E as -> ->. rewrite (l_keys _ _ L) in Hnew. rewrite existsb_find in Hnew.
        rewrite find_app. destruct (find _ es) eqn:Ef; [discriminate|]. simpl. rewrite Eq, eqb_refl. auto.
      * rewrite Hfind by congruence. apply (l_qubit _ _ L p q r Hp).
  - intros q r. rewrite existsb_app. simpl. rewrite orb_false_r.
    destruct (entry_qubits e) as [|q' r'] eqn:Eq.
    + destruct Hm as [-> _]. rewrite (l_keys _ _ L). now rewrite orb_false_r.
    + destruct Hm as (Hnew & -> & _). unfold dmem. rewrite dget_dset.
      destruct (eqb_spec (q' :: r') (q :: r)) as [E|N].
      * now rewrite orb_true_r.
      * rewrite orb_false_r. apply (l_keys _ _ L).
  - destruct (entry_qubits e) as [|q r].
    + destruct Hm as [-> _]. apply (l_nokey _ _ L).
    + destruct Hm as (_ & -> & _). unfold dmem. rewrite dget_dset.
      destruct (eqb_spec (q :: r) []); [congruence|]. apply (l_nokey _ _ L).
  - rewrite Hvar. apply register_vars_none. apply (l_var _ _ L).
Qed.

Lemma load_entries_app s es e : load_entries s (es ++ [e]) = (do s' <- load_entries s es; load_entry s' e).
Proof.
  revert s; induction es as [|x es IH]; simpl; intros s; [now destruct (load_entry s e)|].
  destruct (load_entry s x); simpl; auto.
Qed.
Lemma loaded_all s0 es s : wf_entries es -> loaded [] s0 -> load_entries s0 es = Ok s -> loaded es s.
Proof.
  intros Hwf L0. revert s. induction es as [|e es IH] using rev_ind; intros s H.
  - injection H as <-. exact L0.
  - rewrite load_entries_app in H. apply bind_ok in H as [s1 [H1 H]].
    apply Forall_app in Hwf as [Hwf He]. inversion He; subst.
    eapply loaded_step; eauto.
Qed.
Definition empty_setup n d dur : setup :=
  {| s_name := n; s_desc := d; s_durations := dur; s_qubit := []; s_global := []; s_var := [] |}.
Lemma loaded_empty n d dur : loaded [] (empty_setup n d dur).
Proof. constructor; simpl; try reflexivity; intros; discriminate. Qed.
Lemma setup_init_loaded raw s es : setup_init raw = Ok s -> r_params raw = Some es -> wf_entries es ->
  loaded es s /\ es <> [] /\ load_entries (empty_setup (r_name raw) (r_desc raw)
     (match r_durations raw with Some d => d | None => [] end)) es = Ok s.
Proof.
  unfold setup_init. intros H E Hwf. rewrite E in H. destruct es as [|e es]; [discriminate|].
  split; [|split; [discriminate|exact H]]. eapply loaded_all; eauto using loaded_empty.
Qed.

(** * C13 *)
Lemma assign_static avs : forall s, s_global (assign s avs) = s_global s /\ s_qubit (assign s avs) = s_qubit s.
Proof. unfold assign. induction avs as [|a avs IH]; simpl; intros s; auto. destruct (IH (set_var_param s (fst a) (snd a))) as [-> ->]. auto. Qed.
Lemma assign_var avs : forall s n, dget n (s_var (assign s avs)) = or_else (assigned avs n) (dget n (s_var s)).
Proof.
  unfold assign, assigned. induction avs as [|a avs IH]; simpl; intros s n; [reflexivity|].
  rewrite IH. simpl. rewrite find_app. simpl. rewrite dget_dset.
  destruct (find _ (rev avs)); simpl; [reflexivity|]. destruct (eqb (fst a) n); reflexivity.
Qed.
Lemma free_params_spec es s n : loaded es s -> mem n (free_params s) = dmem n (s_var s).
Proof.
  intros L. unfold free_params.
  destruct (dmem n (s_var s)) eqn:E.
  - apply mem_In. unfold dmem in E. destruct (dget n (s_var s)) as [v|] eqn:Ev; [|discriminate].
    pose proof (l_var _ _ L _ _ Ev) as ->. apply dget_In in Ev. apply in_map_iff. exists (n, VNone).
    split; auto. apply filter_In. auto.
  - apply mem_not_In. intros H. apply in_map_iff in H as [[k v] [<- H]]. apply filter_In in H as [H _].
    assert (In k (dkeys (s_var s))) by (apply in_map_iff; exists (k, v); auto).
    apply dmem_In in H0. simpl in E. congruence.
Qed.
Lemma eval_resolved es s avs v : loaded es s -> eval_val (assign s avs) v = resolved (free_params s) avs v.
Proof.
  intros L. destruct v; simpl; auto. rewrite assign_var. rewrite (free_params_spec es s) by auto.
  destruct (assigned avs s0) as [x|]; simpl; [destruct x; reflexivity|].
  unfold dmem. destruct (dget s0 (s_var s)) as [x|] eqn:E; simpl; auto.
  now rewrite (l_var _ _ L _ _ E).
Qed.
Lemma lookup_spec es s avs p qs : loaded es s -> is_qkey p = false ->
  lookup (assign s avs) p qs = or_else (specific es p qs) (global es p).
Proof.
  intros L Hp. unfold lookup. destruct (assign_static avs s) as [-> ->].
  rewrite (l_global _ _ L p Hp). destruct qs as [|q r].
  - pose proof (l_nokey _ _ L) as Hn. unfold dmem in Hn. destruct (dget [] (s_qubit s)); [discriminate|].
    reflexivity.
  - rewrite (l_qubit _ _ L p q r Hp). unfold or_else. now destruct (specific es p (q :: r)).
Qed.
Lemma generic_not_qkey p g : generic_of p = Some g -> is_qkey g = false.
Proof.
  unfold generic_of. destruct (mem p _); [intros [= <-]; reflexivity|].
  destruct (mem p _); [intros [= <-]; reflexivity|discriminate].
Qed.
Lemma C13_lemma raw s es avs p qs :
  setup_init raw = Ok s -> r_params raw = Some es -> wf_entries es -> is_qkey p = false ->
  param (assign s avs) p qs =
  match chosen es p qs with
  | Some v => resolved (free_params s) avs v
  | None => Err KeyError
  end.
Proof.
  intros H E Hwf Hp. destruct (setup_init_loaded raw s es H E Hwf) as (L & _ & _).
  unfold param, chosen. rewrite parents_generic. rewrite (lookup_spec es) by auto.
  destruct (specific es p qs) as [v|]; simpl; [now apply eval_resolved with es|].
  destruct (global es p) as [v|]; simpl; [now apply eval_resolved with es|].
  destruct (generic_of p) as [g|] eqn:Eg; [|reflexivity].
  rewrite (lookup_spec es) by (eauto using generic_not_qkey). simpl.
  destruct (global es g) as [v|]; simpl; [now apply eval_resolved with es|reflexivity].
Qed.

(** * C16 *)
Lemma set_param_stored s p v qs s' : dmem [] (s_qubit s) = false -> set_param s p v qs = Ok s' ->
  stored s' p qs = Some v /\
  (forall p' qs', (p', qs') <> (p, qs) -> stored s' p' qs' = stored s p' qs') /\
  s_var s' = s_var s /\ s_durations s' = s_durations s /\ dmem [] (s_qubit s') = false.
Proof.
  intros H0 H. unfold set_param in H.
  assert (Hc : (qs = [] /\ s' = {| s_name := s_name s; s_desc := s_desc s; s_durations := s_durations s;
                  s_qubit := s_qubit s; s_global := dset p v (s_global s); s_var := s_var s |}) \/
               (exists q r d, qs = q :: r /\ dget qs (s_qubit s) = Some d /\
                 s' = {| s_name := s_name s; s_desc := s_desc s; s_durations := s_durations s;
                 s_qubit := dset qs (dset p v d) (s_qubit s);
                 s_global := s_global s; s_var := s_var s |})).
  { destruct qs as [|q r]; [left|right; unfold dget_err in H; destruct (dget (q :: r) (s_qubit s)) as [d|] eqn:E;
      [exists q, r, d|]]; destruct v; try discriminate; injection H as <-; auto. }
  destruct Hc as [[-> ->]|(q & r & d & -> & Hd & ->)]; simpl; repeat split; auto.
  - apply dget_dset_same.
  - intros p' [|q' r'] N; [|reflexivity]. simpl. apply dget_dset_other. congruence.
  - rewrite dget_dset_same. apply dget_dset_same.
  - intros p' [|q' r'] N; [reflexivity|]. simpl. rewrite dget_dset.
    destruct (eqb_spec (q :: r) (q' :: r')) as [E|N'].
    + rewrite <- E, Hd. apply dget_dset_other. congruence.
    + reflexivity.
  - unfold dmem. rewrite dget_dset. destruct (eqb_spec (q :: r) []); [congruence|exact H0].
Qed.
Lemma lookup_stored s p qs : dmem [] (s_qubit s) = false ->
  lookup s p qs = or_else (stored s p qs) (stored s p []).
Proof.
  intros H. unfold lookup, stored. destruct qs as [|q r].
  - unfold dmem in H. destruct (dget [] (s_qubit s)); [discriminate|]. now destruct (dget p (s_global s)).
  - unfold or_else. destruct (dget (q :: r) (s_qubit s)) as [d|]; [|reflexivity]. now destruct (dget p d).
Qed.
Lemma eval_val_var s s' v : s_var s = s_var s' -> eval_val s v = eval_val s' v.
Proof. intros E. unfold eval_val. now rewrite E. Qed.
Lemma param_stored s p qs : dmem [] (s_qubit s) = false ->
  param s p qs =
  match or_else (or_else (stored s p qs) (stored s p []))
          (match dget p parents with Some g => stored s g [] | None => None end) with
  | Some v => eval_val s v | None => Err KeyError end.
Proof.
  intros H. unfold param. rewrite lookup_stored by auto.
  destruct (or_else (stored s p qs) (stored s p [])); [reflexivity|].
  destruct (dget p parents) as [g|]; [|reflexivity]. rewrite lookup_stored by auto.
  now destruct (stored s g []).
Qed.

Lemma C16_set_param s p v qs s' : dmem [] (s_qubit s) = false -> set_param s p v qs = Ok s' ->
  param s' p qs = eval_val s v /\
  (forall p' qs', (p', qs') <> (p, qs) -> stored s p' qs' <> None -> param s' p' qs' = param s p' qs') /\
  (qs <> [] -> forall p' qs', (p', qs') <> (p, qs) -> param s' p' qs' = param s p' qs').
Proof.
  intros H0 H. destruct (set_param_stored _ _ _ _ _ H0 H) as (H1 & H2 & Hv & _ & H0').
  split; [|split].
  - rewrite param_stored by auto. rewrite H1. cbn [or_else]. now apply eval_val_var.
  - intros p' qs' N Hs. rewrite !param_stored by auto. rewrite (H2 _ _ N).
    destruct (stored s p' qs') as [w|]; [|congruence]. cbn [or_else]. now apply eval_val_var.
  - intros Hqs p' qs' N. rewrite !param_stored by auto. rewrite (H2 _ _ N).
    assert (Hg : forall x, stored s' x [] = stored s x []) by (intros x; apply H2; congruence).
    rewrite (Hg p').
    replace (match dget p' parents with Some g => stored s' g [] | None => None end)
      with (match dget p' parents with Some g => stored s g [] | None => None end)
      by (destruct (dget p' parents); [now rewrite Hg|reflexivity]).
    destruct (or_else _ _); [now apply eval_val_var|reflexivity].
Qed.
Lemma set_param_unknown s p v q r : dmem (q :: r) (s_qubit s) = false ->
  is_ok (set_param s p v (q :: r)) = false.
Proof.
  unfold set_param, dget_err, dmem. destruct (dget (q :: r) (s_qubit s)); [discriminate|]. now destruct v.
Qed.
Definition stored_value (s : setup) (p : string) (qs : list string) : option pval :=
  or_else (lookup s p qs) (match generic_of p with Some g => lookup s g [] | None => None end).
Lemma param_stored_value s p qs : param s p qs =
  match stored_value s p qs with Some v => eval_val s v | None => Err KeyError end.
Proof.
  unfold param, stored_value. rewrite parents_generic. destruct (lookup s p qs); simpl; [reflexivity|].
  destruct (generic_of p) as [g|]; reflexivity.
Qed.
Lemma C16_set_var s n x p qs :
  (stored_value s p qs = Some (VStr n) -> x <> VNone -> param (set_var_param s n x) p qs = Ok x) /\
  (stored_value s p qs <> Some (VStr n) -> param (set_var_param s n x) p qs = param s p qs).
Proof.
  assert (E : forall y, stored_value (set_var_param s y x) p qs = stored_value s p qs) by reflexivity.
  rewrite !param_stored_value, E. split.
  - intros -> Hx. simpl. rewrite dget_dset_same. destruct x; congruence.
  - intros N. destruct (stored_value s p qs) as [v|]; [|reflexivity].
    destruct v; try reflexivity. simpl. rewrite dget_dset_other; [reflexivity|congruence].
Qed.

(** * C15 *)
Lemma register_keeps e : forall vars n, dmem n vars = true -> dmem n (register_vars e vars) = true.
Proof.
  unfold register_vars. induction e as [|[p v] e IH]; simpl; intros vars n H; auto.
  apply IH. destruct v; auto. destruct (dmem p vars); auto. unfold dmem in *. rewrite dget_dset.
  destruct (eqb s n); auto.
Qed.
(* registered names are str values; under vars_clear every str value is registered *)
Definition values (es : list (dict string pval)) (n : string) : Prop := exists e p, In e es /\ In (p, VStr n) e /\ p <> "qubit".
Lemma register_from e : forall vars n, dmem n (register_vars e vars) = true -> dmem n vars = true \/ exists p, In (p, VStr n) e.
Proof.
  unfold register_vars. induction e as [|[p v] e IH]; simpl; intros vars n H; auto.
  apply IH in H as [H|[p' H]]; [|eauto].
  destruct v; auto. destruct (dmem p vars); auto. unfold dmem in H. rewrite dget_dset in H.
  destruct (eqb_spec s n) as [->|N]; eauto.
Qed.
Lemma register_all es e : forall vars,
  vars_clear es -> (forall kv, In kv e -> fst kv <> "qubit" /\ exists e0, In e0 es /\ In kv e0) ->
  (forall n, dmem n vars = true -> values es n) ->
  forall p n, In (p, VStr n) e -> dmem n (register_vars e vars) = true.
Proof.
  unfold register_vars. induction e as [|[p v] e IH]; simpl; intros vars Hc Hin Hv p0 n H; [tauto|].
  destruct H as [H|H].
  - injection H as -> ->. change (dmem n (register_vars e (if dmem p0 vars then vars else dset n VNone vars)) = true).
    apply register_keeps. destruct (dmem p0 vars) eqn:E.
    + destruct (Hv _ E) as (e' & p' & He' & Hp' & Hq'). destruct (Hin (p0, VStr n)) as (Hq & e0 & He0 & Hp0); [auto|].
      rewrite (Hc e0 p0 n e' p') by auto. exact E.
    + unfold dmem. now rewrite dget_dset_same.
  - eapply IH; eauto. intros m Hm. destruct v; auto. destruct (dmem p vars); auto.
    unfold dmem in Hm. rewrite dget_dset in Hm. destruct (eqb_spec s m) as [->|N]; auto.
    destruct (Hin (p, VStr m)) as (Hq & e0 & He0 & Hp0); [auto|]. exists e0, p. auto.
Qed.

Record vloaded (all es : list (dict string pval)) (s : setup) : Prop := {
  v_from : forall n, dmem n (s_var s) = true -> values all n;
  v_glob : forall p n, In (p, VStr n) (s_global s) -> dmem n (s_var s) = true;
  v_qub : forall qs d p n, In (qs, d) (s_qubit s) -> In (p, VStr n) d -> dmem n (s_var s) = true;
  v_gfrom : forall kv, In kv (s_global s) -> exists e, In e all /\ In kv e;
  v_qfrom : forall qs d kv, In (qs, d) (s_qubit s) -> In kv d -> exists e, In e all /\ In kv e;
  v_gq : forall v, ~ In ("qubit", v) (s_global s) /\ ~ In ("qubits", v) (s_global s);
  v_qq : forall qs d, In (qs, d) (s_qubit s) -> qs <> [] /\
     dget "qubit" d = None /\ (length qs <> 1%nat -> dget "qubits" d = None);
  v_gnd : NoDup (dkeys (s_global s));
  v_qnd : NoDup (dkeys (s_qubit s));
  v_dnd : forall qs d, In (qs, d) (s_qubit s) -> NoDup (dkeys d) }.

Lemma In_dset {K V} `{Eqb K} (k : K) (v : V) d kv : In kv (dset k v d) -> kv = (k, v) \/ In kv d.
Proof.
  induction d as [|[k' v'] d IH]; simpl; [intros [<-|[]]; auto|].
  destruct (eqb_spec k k') as [->|N]; simpl; intros [<-|Hin]; auto. destruct (IH Hin); auto.
Qed.
Lemma In_dupdate {K V} `{Eqb K} (d' d : dict K V) kv : In kv (dupdate d d') -> In kv d' \/ In kv d.
Proof.
  unfold dupdate. revert d; induction d' as [|[k v] d' IH]; simpl; intros d Hin; auto.
  apply IH in Hin as [Hin|Hin]; auto. apply In_dset in Hin as [->|Hin]; auto.
Qed.
Lemma NoDup_dupdate {K V} `{Eqb K} (d' d : dict K V) : NoDup (dkeys d) -> NoDup (dkeys (dupdate d d')).
Proof.
  unfold dupdate. revert d; induction d' as [|[k v] d' IH]; simpl; intros d Hd; auto.
  apply IH. now apply NoDup_dset.
Qed.

Lemma vloaded_step all es s e s' : vars_clear all -> In e all -> NoDup (dkeys e) ->
  vloaded all es s -> load_entry s e = Ok s' -> vloaded all (es ++ [e]) s'.
Proof.
  intros Hc Hall Hnd L H. apply load_entry_spec in H; auto.
  destruct H as (e' & He & Hnd' & Hsub & Hnq & Hnq2 & _ & _ & _ & Hvar & Hm).
  assert (Hkey : forall kv, In kv e' -> fst kv <> "qubit").
  { intros [k v] Hin Hk. simpl in Hk. subst k. apply dget_None in Hnq. apply Hnq. apply in_map_iff. exists ("qubit", v). auto. }
  assert (Hreg : forall p n, In (p, VStr n) e' -> dmem n (s_var s') = true).
  { rewrite Hvar. apply (register_all all); auto.
    - intros kv Hin. split; auto. exists e. auto.
    - apply (v_from _ _ _ L). }
  assert (Hkeep : forall n, dmem n (s_var s) = true -> dmem n (s_var s') = true)
    by (rewrite Hvar; intros; now apply register_keeps).
  constructor.
  - rewrite Hvar. intros n Hn. apply register_from in Hn as [Hn|[p Hp]]; [now apply (v_from _ _ _ L)|].
    exists e, p. repeat split; auto. now apply (Hkey (p, VStr n)).
  - destruct (entry_qubits e) as [|q r].
    + destruct Hm as [_ ->]. intros p n Hin. apply In_dupdate in Hin as [Hin|Hin]; [eauto|].
      apply Hkeep. eapply (v_glob _ _ _ L); eauto.
    + destruct Hm as (_ & _ & ->). intros p n Hin. apply Hkeep. eapply (v_glob _ _ _ L); eauto.
  - destruct (entry_qubits e) as [|q r].
    + destruct Hm as [-> _]. intros qs d p n Hin Hin'. apply Hkeep. eapply (v_qub _ _ _ L); eauto.
    + destruct Hm as (_ & -> & _). intros qs d p n Hin Hin'. apply In_dset in Hin as [Hin|Hin].
      * injection Hin as -> ->. eauto.
      * apply Hkeep. eapply (v_qub _ _ _ L); eauto.
  - destruct (entry_qubits e) as [|q r].
    + destruct Hm as [_ ->]. intros kv Hin. apply In_dupdate in Hin as [Hin|Hin]; [exists e; auto|].
      now apply (v_gfrom _ _ _ L).
    + destruct Hm as (_ & _ & ->). apply (v_gfrom _ _ _ L).
  - destruct (entry_qubits e) as [|q r].
    + destruct Hm as [-> _]. apply (v_qfrom _ _ _ L).
    + destruct Hm as (_ & -> & _). intros qs d kv Hin Hin'. apply In_dset in Hin as [Hin|Hin].
      * injection Hin as -> ->. exists e; auto.
      * eapply (v_qfrom _ _ _ L); eauto.
  - destruct (entry_qubits e) as [|q r].
    + destruct Hm as [_ ->]. intros v. destruct (v_gq _ _ _ L v) as [G1 G2]. split; intros Hin.
      * apply In_dupdate in Hin as [Hin|Hin]; [|tauto]. now apply (Hkey _ Hin).
      * apply In_dupdate in Hin as [Hin|Hin]; [|tauto]. apply (dget_None "qubits" e'); [apply Hnq2; simpl; lia|].
        apply in_map_iff. now exists ("qubits", v).
    + destruct Hm as (_ & _ & ->). apply (v_gq _ _ _ L).
  - destruct (entry_qubits e) as [|q r].
    + destruct Hm as [-> _]. apply (v_qq _ _ _ L).
    + destruct Hm as (_ & -> & _). intros qs d Hin. apply In_dset in Hin as [Hin|Hin].
      * injection Hin as -> ->. split; [discriminate|]. auto.
      * eapply (v_qq _ _ _ L); eauto.
  - destruct (entry_qubits e) as [|q r].
    + destruct Hm as [_ ->]. apply NoDup_dupdate, (v_gnd _ _ _ L).
    + destruct Hm as (_ & _ & ->). apply (v_gnd _ _ _ L).
  - destruct (entry_qubits e) as [|q r].
    + destruct Hm as [-> _]. apply (v_qnd _ _ _ L).
    + destruct Hm as (_ & -> & _). apply NoDup_dset, (v_qnd _ _ _ L).
  - destruct (entry_qubits e) as [|q r].
    + destruct Hm as [-> _]. apply (v_dnd _ _ _ L).
    + destruct Hm as (_ & -> & _). intros qs d Hin. apply In_dset in Hin as [Hin|Hin].
      * injection Hin as -> ->. auto.
      * eapply (v_dnd _ _ _ L); eauto.
Qed.
Lemma vloaded_all all s0 es s : vars_clear all -> incl es all -> wf_entries es -> vloaded all [] s0 ->
  load_entries s0 es = Ok s -> vloaded all es s.
Proof.
  intros Hc Hincl Hwf L0. revert s. induction es as [|e es IH] using rev_ind; intros s H.
  - injection H as <-. exact L0.
  - rewrite load_entries_app in H. apply bind_ok in H as [s1 [H1 H]].
    apply Forall_app in Hwf as [Hwf He]. inversion He; subst.
    eapply vloaded_step; eauto.
    + apply Hincl. apply in_or_app. right. now left.
    + apply IH; auto. intros x Hx. apply Hincl. apply in_or_app. auto.
Qed.
Lemma vloaded_empty all n d dur : vloaded all [] (empty_setup n d dur).
Proof.
  constructor; simpl; try (intros; discriminate); try (intros; tauto); try (intros; split; intros []); constructor.
Qed.

Lemma load_ok s0 es : wf_entries es -> loaded [] s0 ->
  Forall (fun e => is_ok (pop_qubits e) = true) es ->
  (forall i j ei ej, nth_error es i = Some ei -> nth_error es j = Some ej -> i <> j ->
     entry_qubits ei = entry_qubits ej -> entry_qubits ei = []) ->
  exists s, load_entries s0 es = Ok s.
Proof.
  intros Hwf L0 Hok Hd. induction es as [|e es IH] using rev_ind; [simpl; eauto|].
  apply Forall_app in Hwf as [Hwf He]. apply Forall_app in Hok as [Hok Hoke].
  inversion Hoke as [|? ? Hpe _]; subst.
  destruct IH as [s Hs]; auto.
  { intros i j ei ej Hi Hj. apply (Hd i j); now (rewrite nth_error_app1 by (apply nth_error_Some; congruence)). }
  rewrite load_entries_app, Hs. simpl. pose proof (loaded_all s0 es s Hwf L0 Hs) as L.
  unfold load_entry. destruct (pop_qubits e) as [[qs e']|] eqn:Ep; [|discriminate]. simpl.
  apply pop_qubits_spec in Ep as (Eq & _).
  destruct qs as [[|q r]|]; simpl in *; eauto.
  destruct (dmem (q :: r) (s_qubit s)) eqn:Em; simpl; eauto.
  exfalso. rewrite (l_keys _ _ L) in Em. apply existsb_exists in Em as [e0 [Hin He0]].
  apply eqb_true in He0. apply In_nth_error in Hin as [i Hi].
  assert (i < length es)%nat by (apply nth_error_Some; congruence).
  assert (Hn : entry_qubits e0 = []).
  { apply (Hd i (length es) e0 e).
    - rewrite nth_error_app1 by lia. exact Hi.
    - rewrite nth_error_app2 by lia. now rewrite Nat.sub_diag.
    - lia.
    - transitivity (q :: r); [exact He0|symmetry; exact Eq]. }
  rewrite He0 in Hn. discriminate.
Qed.

Lemma entry_qubits_to_dict qs d : dget "qubit" d = None -> (length qs = 1 \/ length qs = 2)%nat ->
  entry_qubits (entry_to_dict (qs, d)) = qs /\ is_ok (pop_qubits (entry_to_dict (qs, d))) = true /\
  (forall p, is_qkey p = false -> dget p (entry_to_dict (qs, d)) = dget p d).
Proof.
  intros Hq Hl. destruct qs as [|q [|q' [|]]]; simpl in Hl; try lia; unfold entry_qubits, entry_to_dict, pop_qubits; cbn [fst snd].
  - rewrite dget_dset_same. repeat split; auto. intros p Hp. apply qkey_neq in Hp as [Hp _].
    apply dget_dset_other. congruence.
  - rewrite dget_dset_other by discriminate. rewrite Hq, dget_dset_same. repeat split; auto.
    intros p Hp. apply qkey_neq in Hp as [_ Hp]. apply dget_dset_other. congruence.
Qed.
Lemma dkeys_to_dict qs d : NoDup (dkeys d) -> NoDup (dkeys (entry_to_dict (qs, d))).
Proof. intros H. destruct qs as [|q [|q' [|]]]; simpl; auto; now apply NoDup_dset. Qed.
Lemma In_to_dict qs d k n : In (k, VStr n) (entry_to_dict (qs, d)) -> k <> "qubit" -> In (k, VStr n) d.
Proof.
  intros Hin Hk. destruct qs as [|q [|q' [|]]]; simpl in Hin; auto; apply In_dset in Hin as [Hin|Hin]; auto; congruence.
Qed.

Lemma find_map {A B} (f : A -> B) (g : B -> bool) l : find g (map f l) = option_map f (find (fun x => g (f x)) l).
Proof. induction l as [|x l IH]; simpl; [reflexivity|]. destruct (g (f x)); auto. Qed.
Lemma find_ext_in {A} (f g : A -> bool) l : (forall x, In x l -> f x = g x) -> find f l = find g l.
Proof.
  induction l as [|x l IH]; simpl; intros H; [reflexivity|]. rewrite (H x) by auto. destruct (g x); auto.
Qed.
Lemma find_key {V} (qs : list string) (l : dict (list string) V) :
  option_map snd (find (fun kv => eqb (fst kv) qs) l) = dget qs l.
Proof.
  induction l as [|[k v] l IH]; simpl; [reflexivity|]. rewrite (eqb_sym k qs).
  destruct (eqb qs k); auto.
Qed.

Lemma C15_lemma raw s es : setup_init raw = Ok s -> r_params raw = Some es -> wf_entries es -> vars_clear es ->
  (forall e, In e es -> (length (entry_qubits e) <= 2)%nat) ->
  (exists e, In e es /\ (entry_qubits e <> [] \/ exists p v, is_qkey p = false /\ dget p e = Some v)) ->
  exists s', setup_init (to_dict s) = Ok s' /\
    (forall p qs, is_qkey p = false -> param s' p qs = param s p qs) /\
    s_name s' = s_name s /\ s_desc s' = s_desc s /\ s_durations s' = s_durations s.
Proof.
  intros H E Hwf Hc Hlen Hne. destruct (setup_init_loaded raw s es H E Hwf) as (L & _ & Hload).
  pose proof (vloaded_all es _ es s Hc (incl_refl _) Hwf (vloaded_empty es _ _ _) Hload) as V.
  set (es' := (match s_global s with [] => [] | g => [g] end) ++ map entry_to_dict (s_qubit s)).
  assert (Hl : forall qs d, In (qs, d) (s_qubit s) -> (length qs = 1 \/ length qs = 2)%nat).
  { intros qs d Hin. destruct (v_qq _ _ _ V qs d Hin) as (Hnil & _). destruct qs as [|q r]; [congruence|].
    assert (Hm : dmem (q :: r) (s_qubit s) = true) by (apply dmem_In, in_map_iff; now exists (q :: r, d)).
    rewrite (l_keys _ _ L) in Hm. apply existsb_exists in Hm as [e [He Heq]]. apply eqb_true in Heq.
    specialize (Hlen e He). rewrite Heq in Hlen. simpl in *. lia. }
  assert (Hg0 : forall k, is_qkey k = true -> dget k (s_global s) = None).
  { intros k Hk. destruct (dget k (s_global s)) as [v|] eqn:Ek; [|reflexivity]. apply dget_In in Ek.
    destruct (v_gq _ _ _ V v) as [G1 G2]. unfold is_qkey in Hk. apply orb_true_iff in Hk as [Hk|Hk];
    apply eqb_true in Hk; subst; tauto. }
  assert (Hgq : entry_qubits (s_global s) = []).
  { unfold entry_qubits. now rewrite !Hg0 by reflexivity. }
  assert (Hgok : is_ok (pop_qubits (s_global s)) = true).
  { unfold pop_qubits. now rewrite !Hg0 by reflexivity. }
  assert (Hin' : forall e, In e es' -> (e = s_global s /\ s_global s <> []) \/
            exists qs d, In (qs, d) (s_qubit s) /\ e = entry_to_dict (qs, d)).
  { intros e He. apply in_app_or in He as [He|He].
    - left. destruct (s_global s); [destruct He|]. destruct He as [<-|[]]. split; [reflexivity|discriminate].
    - right. apply in_map_iff in He as [[qs d] [<- He]]. eauto. }
  assert (Hwf' : wf_entries es').
  { apply Forall_forall. intros e He. destruct (Hin' e He) as [[-> _]|(qs & d & Hd & ->)].
    - apply (v_gnd _ _ _ V).
    - apply dkeys_to_dict. eapply (v_dnd _ _ _ V); eauto. }
  assert (Hne' : es' <> []).
  { intros E0. apply app_eq_nil in E0 as [E1 E2].
    assert (Eg : s_global s = []) by (destruct (s_global s); [reflexivity|discriminate]).
    apply map_eq_nil in E2. destruct Hne as (e & He & Hne).
    destruct (entry_qubits e) as [|q r] eqn:Eq.
    - destruct Hne as [Hne|(p & v & Hp & Hv)]; [congruence|].
      pose proof (l_global _ _ L p Hp) as G. rewrite Eg in G. simpl in G. unfold global in G.
      destruct (find _ (rev es)) as [e0|] eqn:Ef.
      + apply find_some in Ef as [_ Ef]. apply andb_true_iff in Ef as [_ Ef]. unfold dmem in Ef.
        now rewrite <- G in Ef.
      + apply find_none with (x := e) in Ef; [|now apply -> in_rev]. unfold dmem in Ef. rewrite Eq, eqb_refl, Hv in Ef. discriminate.
    - pose proof (l_keys _ _ L q r) as K. rewrite E2 in K. simpl in K. symmetry in K.
      assert (K' : existsb (fun e => eqb (entry_qubits e) (q :: r)) es = true).
      { apply existsb_exists. exists e. split; auto. rewrite Eq. apply eqb_refl. }
      unfold dmem in K. simpl in K. congruence. }
  destruct (load_ok (empty_setup (s_name s) (s_desc s) (s_durations s)) es') as [s' Hs'].
  - exact Hwf'.
  - apply loaded_empty.
  - apply Forall_forall. intros e He. destruct (Hin' e He) as [[-> _]|(qs & d & Hd & ->)]; auto.
    apply entry_qubits_to_dict; [|eapply Hl; eauto]. eapply (v_qq _ _ _ V); eauto.
  - assert (Hkk : forall e, In e es' -> entry_qubits e = [] \/ True) by auto. clear Hkk.
    assert (Hmap : map entry_qubits (map entry_to_dict (s_qubit s)) = dkeys (s_qubit s)).
    { rewrite map_map. unfold dkeys. apply map_ext_in. intros [qs d] Hd. simpl.
      apply entry_qubits_to_dict; [|eapply Hl; eauto]. eapply (v_qq _ _ _ V); eauto. }
    intros i j ei ej Hi Hj Hij Heq. unfold es' in Hi, Hj.
    set (pre := match s_global s with [] => [] | g => [g] end) in *.
    assert (Hpre : forall e, In e pre -> entry_qubits e = []).
    { subst pre. intros e He. destruct (s_global s) eqn:Eg; [destruct He|]. destruct He as [<-|[]]. exact Hgq. }
    destruct (Nat.lt_ge_cases i (length pre)) as [Hli|Hli].
    { rewrite nth_error_app1 in Hi by auto. apply nth_error_In in Hi. now apply Hpre. }
    destruct (Nat.lt_ge_cases j (length pre)) as [Hlj|Hlj].
    { rewrite nth_error_app1 in Hj by auto. apply nth_error_In in Hj. rewrite Heq. now apply Hpre. }
    exfalso. rewrite nth_error_app2 in Hi, Hj by auto.
    apply (map_nth_error entry_qubits) in Hi. apply (map_nth_error entry_qubits) in Hj. rewrite Hmap in Hi, Hj.
    assert (i - length pre = j - length pre)%nat; [|lia].
    apply (proj1 (NoDup_nth_error (dkeys (s_qubit s)))).
    + apply (v_qnd _ _ _ V).
    + apply nth_error_Some. congruence.
    + congruence.
  - exists s'.
    assert (Hinit : setup_init (to_dict s) = Ok s').
    { unfold setup_init, to_dict. simpl. fold es'. destruct es' eqn:Ee; [congruence|]. exact Hs'. }
    split; [exact Hinit|].
    destruct (setup_init_loaded (to_dict s) s' es' Hinit eq_refl Hwf') as (L' & _ & _).
    assert (Hc' : vars_clear es').
    { assert (Hf : forall e k n, In e es' -> In (k, VStr n) e -> k <> "qubit" -> exists e0, In e0 es /\ In (k, VStr n) e0).
      { intros e k n He Hkn Hk. destruct (Hin' e He) as [[-> _]|(qs & d & Hd & ->)].
        - now apply (v_gfrom _ _ _ V).
        - apply In_to_dict in Hkn; auto. eapply (v_qfrom _ _ _ V); eauto. }
      intros e p v e' p' He Hpv Hp He' Hpp Hp'.
      destruct (Hf e p v He Hpv Hp) as (e1 & He1 & Hpv1). destruct (Hf e' p' p He' Hpp Hp') as (e2 & He2 & Hpv2).
      eapply (Hc e1 p v e2 p'); eauto. }
    pose proof (vloaded_all es' _ es' s' Hc' (incl_refl _) Hwf' (vloaded_empty es' _ _ _) Hs') as V'.
    assert (Hglob : forall p, is_qkey p = false -> dget p (s_global s') = dget p (s_global s)).
    { intros p Hp. rewrite (l_global _ _ L' p Hp). unfold global, es'. rewrite rev_app_distr, find_app.
      replace (find _ (rev (map entry_to_dict (s_qubit s)))) with (@None (dict string pval)).
      - unfold or_else. destruct (s_global s) as [|kv g] eqn:Eg; [reflexivity|].
        change (rev [kv :: g]) with [kv :: g]. cbn [find]. rewrite Hgq, eqb_refl. unfold dmem. cbn [andb].
        destruct (dget p (kv :: g)) eqn:Ed; [exact Ed|reflexivity].
      - symmetry. destruct (find _ _) as [e|] eqn:Ef; [|reflexivity]. exfalso. apply find_some in Ef as [Hin Hb].
        apply in_rev in Hin. apply in_map_iff in Hin as [[qs d] [<- Hd]]. apply andb_true_iff in Hb as [Hb _].
        apply eqb_true in Hb. destruct (v_qq _ _ _ V _ _ Hd) as (Hnil & Hq & _).
        destruct (entry_qubits_to_dict qs d Hq (Hl _ _ Hd)) as (Hx & _). congruence. }
    assert (Hqub : forall p q r, is_qkey p = false ->
       match dget (q :: r) (s_qubit s') with Some d => dget p d | None => None end =
       match dget (q :: r) (s_qubit s) with Some d => dget p d | None => None end).
    { intros p q r Hp. rewrite (l_qubit _ _ L' p q r Hp). unfold specific, es'. rewrite find_app.
      replace (find _ (match s_global s with [] => [] | g => [g] end)) with (@None (dict string pval)).
      - cbn [or_else]. rewrite find_map.
        rewrite (find_ext_in _ (fun kv => eqb (fst kv) (q :: r))).
        2:{ intros [qs d] Hd. destruct (v_qq _ _ _ V _ _ Hd) as (Hnil & Hq & _).
            destruct (entry_qubits_to_dict qs d Hq (Hl _ _ Hd)) as (Hx & _). now rewrite Hx. }
        rewrite <- (find_key (q :: r) (s_qubit s)).
        destruct (find _ (s_qubit s)) as [[qs d]|] eqn:Ef; [|reflexivity]. simpl.
        apply find_some in Ef as [Hd _]. destruct (v_qq _ _ _ V _ _ Hd) as (Hnil & Hq & _).
        now apply (entry_qubits_to_dict qs d Hq (Hl _ _ Hd)).
      - destruct (s_global s) as [|kv g] eqn:Eg; [reflexivity|]. cbn [find]. rewrite Hgq.
        destruct (eqb_spec [] (q :: r)); [congruence|reflexivity]. }
    assert (Hlook : forall p qs, is_qkey p = false -> lookup s' p qs = lookup s p qs).
    { intros p qs Hp. unfold lookup. rewrite (Hglob p Hp). destruct qs as [|q r].
      - pose proof (l_nokey _ _ L') as N'. pose proof (l_nokey _ _ L) as N. unfold dmem in N, N'.
        destruct (dget [] (s_qubit s')); [discriminate|]. destruct (dget [] (s_qubit s)); [discriminate|]. reflexivity.
      - now rewrite Hqub. }
    assert (Heval : forall p qs v, lookup s p qs = Some v -> lookup s' p qs = Some v -> eval_val s' v = eval_val s v).
    { intros p qs v Hv Hv'. destruct v as [| | |n|]; try reflexivity.
      assert (R : forall al t, vloaded al al t -> (forall n v, dget n (s_var t) = Some v -> v = VNone) ->
                   lookup t p qs = Some (VStr n) -> eval_val t (VStr n) = Err ValueError).
      { intros al t Vt Nt Ht. simpl. assert (Hd : dmem n (s_var t) = true).
        { unfold lookup in Ht. destruct (dget qs (s_qubit t)) as [d|] eqn:Eq.
          - destruct (dget p d) as [w|] eqn:Ed.
            + injection Ht as ->. apply dget_In in Eq, Ed. eapply (v_qub _ _ _ Vt); eauto.
            + apply dget_In in Ht. eapply (v_glob _ _ _ Vt); eauto.
          - apply dget_In in Ht. eapply (v_glob _ _ _ Vt); eauto. }
        unfold dmem in Hd. destruct (dget n (s_var t)) as [w|] eqn:Ew; [|discriminate]. now rewrite (Nt _ _ Ew). }
      rewrite (R es' s' V' (l_var _ _ L') Hv'), (R es s V (l_var _ _ L) Hv). reflexivity. }
    split.
    + intros p qs Hp. unfold param. rewrite (Hlook p qs Hp). destruct (lookup s p qs) as [v|] eqn:Ev.
      * apply (Heval p qs); auto. now rewrite Hlook.
      * rewrite parents_generic. destruct (generic_of p) as [g|] eqn:Eg; [|reflexivity].
        pose proof (generic_not_qkey _ _ Eg) as Hg. rewrite (Hlook g [] Hg).
        destruct (lookup s g []) as [v|] eqn:Ev'; [|reflexivity]. apply (Heval g []); auto. now rewrite Hlook.
    + assert (S : forall es s0 s1, wf_entries es -> load_entries s0 es = Ok s1 ->
                s_name s1 = s_name s0 /\ s_desc s1 = s_desc s0 /\ s_durations s1 = s_durations s0).
      { intros xs. induction xs as [|x xs IHx]; simpl; intros s0 s1 Hw Hx; [injection Hx as <-; auto|].
        apply bind_ok in Hx as [s2 [H2 Hx]]. inversion Hw; subst. destruct (IHx _ _ ltac:(assumption) Hx) as (-> & -> & ->).
        apply load_entry_spec in H2; auto. destruct H2 as (? & ? & ? & ? & ? & ? & ? & ? & ? & _). auto. }
      apply (S _ _ _ Hwf' Hs').
Qed.

Lemma C14_lemma raw s es avs p qs :
  setup_init raw = Ok s -> r_params raw = Some es -> wf_entries es -> is_qkey p = false ->
  specific es p qs = None -> param (assign s avs) p qs = param (assign s avs) p [].
Proof.
  intros H E Hwf Hp Hs. rewrite !(C13_lemma raw s es) by auto. unfold chosen. rewrite Hs. reflexivity.
Qed.
Lemma to_dict_assign avs : forall s, to_dict (assign s avs) = to_dict s.
Proof. unfold assign. induction avs as [|a avs IH]; simpl; intros s; auto. rewrite IH. reflexivity. Qed.
Lemma C15_lemma' raw s es avs : setup_init raw = Ok s -> r_params raw = Some es -> wf_entries es -> vars_clear es ->
  (forall e, In e es -> (length (entry_qubits e) <= 2)%nat) ->
  (exists e, In e es /\ (entry_qubits e <> [] \/ exists p v, is_qkey p = false /\ dget p e = Some v)) ->
  exists s', setup_init (to_dict (assign s avs)) = Ok s' /\
    (forall p qs, is_qkey p = false -> param s' p qs = param s p qs) /\
    (forall g, gate_duration s' g = gate_duration s g).
Proof.
  intros H1 H2 H3 H4 H5 H6. rewrite to_dict_assign.
  destruct (C15_lemma raw s es H1 H2 H3 H4 H5 H6) as (s' & Hs & Hp & _ & _ & Hd).
  exists s'. repeat split; auto. intros g. unfold gate_duration. now rewrite Hd.
Qed.
Lemma loaded_nokey raw s es :
  setup_init raw = Ok s -> r_params raw = Some es -> wf_entries es -> dmem [] (s_qubit s) = false.
Proof. intros H E Hwf. apply (l_nokey es). now destruct (setup_init_loaded raw s es H E Hwf). Qed.
Lemma C16_set_var' s n x p qs :
  let v := or_else (or_else (stored s p qs) (stored s p []))
             (match generic_of p with Some g => stored s g [] | None => None end) in
  dmem [] (s_qubit s) = false ->
  (v = Some (VStr n) -> x <> VNone -> param (set_var_param s n x) p qs = Ok x) /\
  (v <> Some (VStr n) -> param (set_var_param s n x) p qs = param s p qs).
Proof.
  intros v H0. rewrite (param_stored s) by auto. rewrite (param_stored (set_var_param s n x)) by auto.
  rewrite parents_generic.
  change (or_else (or_else (stored (set_var_param s n x) p qs) (stored (set_var_param s n x) p []))
           match generic_of p with Some g => stored (set_var_param s n x) g [] | None => None end) with v.
  fold v. split.
  - intros -> Hx. simpl. rewrite dget_dset_same. destruct x; congruence.
  - intros N. destruct v as [w|]; [|reflexivity].
    destruct w; try reflexivity. simpl. rewrite dget_dset_other; [reflexivity|congruence].
Qed.
