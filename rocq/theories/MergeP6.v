(** Observables of the merged logical measurement (C45); operands of the library rounds. *)
From Coq Require Import QArith Qcanon.
From Verif Require Import Base Lib StimM SetupM NoiseM SpecNoise NoiseP DetM LayoutM BlockM ExpM SpecTrack SpecExp TrackP LiftP ExpP ExpP13
  MergeM SpecMerge MergeP MergeP2 MergeP3 MergeP4 MergeP5 GenM OneP.
Open Scope Z_scope.

Lemma no_obs c : ~ In OBSERVABLE_INCLUDE (names c) -> observable_args c = [].
Proof.
  intros N. apply flat_map_nil'. intros i I. destruct (eqb_spec (nm i) OBSERVABLE_INCLUDE) as [E|]; [|reflexivity]. exfalso. apply N. rewrite <- E. now apply in_map.
Qed.
Lemma obs_app a b : observable_args (a ++ b) = observable_args a ++ observable_args b.
Proof. apply flat_map_app. Qed.
Lemma append_obs c i : nm i = OBSERVABLE_INCLUDE -> append c i = c ++ [i].
Proof.
  intros E. destruct (append_app c i) as [->|(c'&j&->&H2&H3&H4&->)]; [reflexivity|]. rewrite E in H4. discriminate.
Qed.
Lemma appends_obs os : forall c, Forall (fun i => nm i = OBSERVABLE_INCLUDE) os -> appends c os = c ++ os.
Proof.
  induction os as [|o os IH]; intros c F; [now rewrite app_nil_r|]. inversion F; subst. unfold appends. cbn [fold_left]. rewrite append_obs by assumption.
  fold (appends (c ++ [o]) os). rewrite IH by assumption. now rewrite <- app_assoc.
Qed.
Lemma block_no_obs b m m' c : run_block b m = (m', Ok c) -> ~ In OBSERVABLE_INCLUDE (names c).
Proof.
  revert m m' c. induction b as [|x b IH]; intros m m' c H; cbn in H.
  - apply sret_ok in H as [-> <-]. intros [].
  - apply sbind_ok in H as (m1 & c1 & H1 & H). apply sbind_ok in H as (m2 & c2 & H2 & H). apply sret_ok in H as [-> <-].
    rewrite names_app. intros I. apply in_app_or in I as [I|I]; [|revert I; eapply IH; eauto].
    destruct x as [o qs|]; [|apply sret_ok in H1 as [_ <-]; destruct I as [I|[]]; discriminate I]. cbn in H1. apply apply_char in H1 as (_ & js & (_ & G & _) & _).
    unfold names in I. apply in_map_iff in I as (j & E & J). rewrite Forall_forall in G. destruct (G j J) as [_ A]. rewrite E in A. discriminate A.
Qed.
Lemma zip_loop_no_obs fuse n : forall its acc m m' c, zip_loop fuse n its acc m = (m', Ok c) -> ~ In OBSERVABLE_INCLUDE (names acc) -> ~ In OBSERVABLE_INCLUDE (names c).
Proof.
  induction n as [|n IH]; intros its acc m m' c H N; cbn [zip_loop] in H; [apply sret_ok in H as [_ <-]; exact N|].
  apply sbind_ok in H as (m1 & x & Hz & H). apply zip_next_inv in Hz as (bs & raw & m1' & R & D). destruct x as [[cs rs]|]; [|apply sret_ok in H as [_ <-]; exact N].
  destruct D as (-> & -> & _ & _). apply sbind_ok in H as (m2 & st & Hm & H). unfold slift in Hm. injection Hm as <- Hm. eapply IH; [exact H|].
  assert (Ns : ~ In OBSERVABLE_INCLUDE (names st)).
  { intros I. destruct (merge_tick_names _ _ _ _ Hm I) as (b & B & I'). apply in_map_iff in B as (y & <- & B). apply cat_names in I' as [[]|I'].
    pose proof (ran_each _ _ _ _ R) as E. revert B I'. clear - E. induction E as [|b x bs raw (m1 & m2 & _ & B) E IH]; intros J I'; [destruct J|]. destruct J as [<-|J]; [revert I'; eapply block_no_obs; eauto|now apply IH]. }
  destruct st as [|i st]; cbn [add_step]; [intros I; apply cat_names in I as [I|[]]; contradiction|]. destruct (eqb_spec (nm i) TICK) as [E|].
  - intros I. apply append_names in I as [I|I]; [contradiction|]. rewrite E in I. discriminate.
  - intros I. apply cat_names in I as [I|I]; contradiction.
Qed.
Lemma ann_names (P : gname) (T : target -> Prop) (c : circuit) : (forall i, In i c -> nm i <> P) -> ~ In P (names c).
Proof. intros H I. apply in_map_iff in I as (i & E & I). exact (H i I E). Qed.
Lemma det_names d g ancs t dets c : mapM (det_instr d g ancs t) dets = Ok c -> Forall (fun i => nm i = DETECTOR) c.
Proof.
  revert c. induction dets as [|x dets IH]; intros c H; [injection H as <-; constructor|]. cbn [mapM] in H.
  apply bind_ok in H as (i & Hi & H). apply bind_ok in H as (r & Hr & H). injection H as <-. constructor; [|now apply IH].
  unfold det_instr in Hi. apply bind_ok in Hi as (recs & Hr' & Hi). apply bind_ok in Hi as (cs & _ & Hi). apply mk_ok in Hi as [-> _]. reflexivity.
Qed.
Lemma data_no_obs g sup reset recon req d d' c : build_from_data g sup reset recon req d = (d', Ok c) -> ~ In OBSERVABLE_INCLUDE (names c).
Proof.
  unfold build_from_data. destruct (strict_superset _ _); [discriminate|]. intros H.
  apply sbind_ok in H as (d1 & x1 & _ & H). apply sbind_ok in H as (d2 & x2 & _ & H). apply sbind_ok in H as (d3 & x3 & _ & H).
  apply sbind_ok in H as (d4 & x4 & _ & H). apply sbind_ok in H as (d5 & x5 & H5 & H). apply sbind_ok in H as (d6 & x6 & _ & H). injection H as <- <-.
  unfold sread in H5. injection H5 as <- H5. apply det_names in H5. intros I. apply (cat_names true []) in I as [[]|I].
  apply in_map_iff in I as (i & E & I). rewrite Forall_forall in H5. rewrite (H5 i I) in E. discriminate.
Qed.

(* the observables of the layouts, one after the other *)
Lemma layout_obs m k l r os : layout_observables m k (l, r) = Ok os ->
  Forall (fun i => nm i = OBSERVABLE_INCLUDE) os /\ map ar os = map (fun j => [ANum (zq (Z.of_nat (k * length (l_logs l) + j)))]) (seq 0 (length (l_logs l))) /\
  forall j q, nth_error (l_logs l) j = Some q -> exists qs ts, dget q (if r then l_logx l else l_logz l) = Some qs /\ mapM (fun x => meas_target m x (-1)) qs = Ok ts /\
    nth_error os j = Some (Instr OBSERVABLE_INCLUDE ts [ANum (zq (Z.of_nat (k * length (l_logs l) + j)))]).
Proof.
  unfold layout_observables. intros H. apply mapM_Forall2 in H. set (N := length (l_logs l)) in *. unfold enumerate in H.
  assert (G : forall n ls, Forall2 (fun (jq : nat * string) (i : instr) => (do qs <- dget_err (snd jq) (if r then l_logx l else l_logz l); do ts <- mapM (fun q => meas_target m q (-1)) qs;
      mk OBSERVABLE_INCLUDE ts [ANum (zq (Z.of_nat (k * N + fst jq)))]) = Ok i) (enumerate_from n ls) os ->
    Forall (fun i => nm i = OBSERVABLE_INCLUDE) os /\ map ar os = map (fun j => [ANum (zq (Z.of_nat (k * N + j)))]) (seq n (length ls)) /\
    forall j q, nth_error ls j = Some q -> exists qs ts, dget q (if r then l_logx l else l_logz l) = Some qs /\ mapM (fun x => meas_target m x (-1)) qs = Ok ts /\
      nth_error os j = Some (Instr OBSERVABLE_INCLUDE ts [ANum (zq (Z.of_nat (k * N + (n + j))))])).
  { clear. intros n ls. revert n os. induction ls as [|q ls IH]; intros n os H; cbn [enumerate_from] in H; inversion H as [|? i0 ? os' K H2]; subst; cbn [length seq map].
    - split; [constructor|]. split; [reflexivity|]. intros [|j] q E; discriminate.
    - cbn [fst snd] in K; apply bind_ok in K as (qs & Hq & K); apply bind_ok in K as (ts & Ht & K); apply mk_ok in K as [-> _].
      apply IH in H2 as (F & A & B). split; [constructor; auto|]. split; [cbn; now rewrite A|].
      intros [|j] q' E; cbn in E.
      + injection E as <-. exists qs, ts. rewrite Nat.add_0_r. unfold dget_err in Hq. destruct (dget q _); [|discriminate]. injection Hq as ->. auto.
      + destruct (B j q' E) as (qs' & ts' & B1 & B2 & B3). exists qs', ts'. replace (n + S j)%nat with (S n + j)%nat by lia. auto. }
  exact (G O (l_logs l) H).
Qed.
Lemma all_obs m n : forall lrs s oss, Forall2 (fun klr os => layout_observables m (fst klr) (snd klr) = Ok os) (enumerate_from s lrs) oss ->
  (forall l r, In (l, r) lrs -> length (l_logs l) = n) ->
  map ar (concat oss) = map (fun j => [ANum (zq (Z.of_nat j))]) (seq (s * n) (length lrs * n)).
Proof.
  induction lrs as [|[l r] lrs IH]; intros s oss H E; cbn in H; inversion H as [|? os ? oss' H1 H2]; subst; [reflexivity|].
  cbn [concat length]. rewrite map_app, (IH (S s) oss' H2) by (intros; eapply E; right; eauto). cbn [fst snd] in H1. apply layout_obs in H1 as (_ & -> & _).
  rewrite (E l r) by now left. replace (S (length lrs) * n)%nat with (n + length lrs * n)%nat by lia. rewrite seq_app, map_app. replace (s * n + n)%nat with (S s * n)%nat by lia. f_equal.
  generalize (s * n)%nat as base. intros base. clear. induction n as [|n IH]; [reflexivity|].
  rewrite !seq_S, !map_app, IH. reflexivity.
Qed.
Lemma merge_obs fuse it ls rots reset dets w w' c : merge_log_meas fuse it ls rots reset dets w = (w', Ok c) ->
  exists oss pre, Forall2 (fun klr os => layout_observables (fst w') (fst klr) (snd klr) = Ok os) (enumerate (combine ls rots)) oss /\
    length rots = length ls /\ c = pre ++ concat oss /\ observable_args pre = [] /\ Forall (fun i => nm i = OBSERVABLE_INCLUDE) (concat oss).
Proof.
  unfold merge_log_meas. destruct (Nat.eqb_spec (length rots) (length ls)) as [L|]; [|discriminate]. cbn [negb]. intros H.
  apply sbind_ok in H as (w1 & ok & H1 & H). unfold slift in H1. injection H1 as <- _.
  destruct (negb ok); [discriminate|]. apply sbind_ok in H as (w2 & c1 & H1 & H). apply onm_ok in H1 as (m1 & H1 & ->).
  apply sbind_ok in H as (w4 & [st su] & H3 & H). unfold slift in H3. injection H3 as <- _.
  apply sbind_ok in H as (w3 & d & H2 & H). apply ond_ok in H2 as (d3 & H2 & ->).
  apply sbind_ok in H as (w5 & os & H4 & H). apply onm_ok in H4 as (m5 & H4 & ->). apply sread_ok in H4 as [-> H4].
  apply sret_ok in H as [-> <-]. cbn [fst snd] in *.
  unfold all_observables in H4. apply bind_ok in H4 as (oss & H4 & E). assert (os = concat oss) as -> by congruence. apply mapM_Forall2 in H4.
  assert (F : Forall (fun i => nm i = OBSERVABLE_INCLUDE) (concat oss)).
  { clear - H4. induction H4 as [|[k [l r]] o lrs oss H _ IH]; [constructor|]. cbn. apply Forall_app. split; [|exact IH]. cbn [fst snd] in H. now apply layout_obs in H. }
  exists oss, (cat fuse c1 d). split; [exact H4|]. split; [exact L|]. split; [now apply appends_obs|]. split; [|exact F].
  apply no_obs. intros I. apply cat_names in I as [I|I]; [|revert I; eapply data_no_obs; eauto]. revert I.
  unfold merged_blocks in H1. destruct (map _ _); [apply sret_ok in H1 as [_ <-]; intros []|]. eapply zip_loop_no_obs; [exact H1|intros []].
Qed.
Lemma obs_all c : Forall (fun i => nm i = OBSERVABLE_INCLUDE) c -> observable_args c = map ar c.
Proof. induction 1 as [|i c E _ IH]; [reflexivity|]. unfold observable_args in *. cbn. now rewrite E, IH. Qed.
Lemma C45_lemma fuse it ls rots reset dets w w' c n : merge_log_meas fuse it ls rots reset dets w = (w', Ok c) ->
  (forall l, In l ls -> length (l_logs l) = n) ->
  observable_args c = map (fun j => [ANum (zq (Z.of_nat j))]) (seq 0 (length ls * n)).
Proof.
  intros H N. apply merge_obs in H as (oss & pre & H & L & -> & P & F). rewrite obs_app, P, (obs_all _ F). cbn [app].
  rewrite (all_obs _ n _ O oss H).
  - now rewrite combine_length, L, Nat.min_id.
  - intros l r I. apply N. eapply in_combine_l; exact I.
Qed.
Lemma C45_supports fuse it ls rots reset dets w w' c k l r j q : merge_log_meas fuse it ls rots reset dets w = (w', Ok c) ->
  nth_error ls k = Some l -> nth_error rots k = Some r -> nth_error (l_logs l) j = Some q ->
  exists qs ts, dget q (if r then l_logx l else l_logz l) = Some qs /\ mapM (fun x => meas_target (fst w') x (-1)) qs = Ok ts /\
    In (Instr OBSERVABLE_INCLUDE ts [ANum (zq (Z.of_nat (k * length (l_logs l) + j)))]) c.
Proof.
  intros H Nl Nr Nq. apply merge_obs in H as (oss & pre & H & L & -> & P & F).
  assert (exists os, In os oss /\ layout_observables (fst w') k (l, r) = Ok os) as (os & I & E).
  { clear - H Nl Nr. unfold enumerate in H. replace k with (0 + k)%nat by lia. revert Nl Nr H. generalize 0%nat as s. revert ls rots oss. induction k as [|k IH]; intros [|l0 ls] [|r0 rots] oss s Nl Nr H; try discriminate; cbn in H; inversion H as [|? os ? oss' H1 H2]; subst.
    - injection Nl as ->. injection Nr as ->. exists os. split; [now left|]. now rewrite Nat.add_0_r.
    - destruct (IH ls rots oss' (S s) Nl Nr H2) as (o & I & E). exists o. split; [now right|]. now replace (s + S k)%nat with (S s + k)%nat by lia. }
  apply layout_obs in E as (_ & _ & E). destruct (E j q Nq) as (qs & ts & E1 & E2 & E3). exists qs, ts. split; [exact E1|]. split; [exact E2|].
  apply in_or_app. right. apply in_concat. exists os. split; [exact I|]. eapply nth_error_In; exact E3.
Qed.

(** * Operands of the library rounds and measurements *)
Lemma gen_in (x : res blocks) (b : list call) : In (Ok b) (generator x) -> exists l, x = Ok l /\ In (Ok b) l.
Proof. destruct x as [l|e]; cbn; [eauto|intros [E|[]]; discriminate]. Qed.
Lemma one_operands l bl data b q qs : one_each l bl -> get_qubits l [] = Ok qs -> nth_error bl 0 = Some (Ok [Call OINC data]) -> incl data qs ->
  In (Ok b) bl -> In q (operands b) -> In q qs.
Proof.
  intros (qs' & inc & steps & Hq & _ & -> & F) Hq' E I B Q. rewrite Hq in Hq'. injection Hq' as ->. cbn in E. injection E as ->.
  apply in_flat_map in B as (s & S & B). destruct S as [<-|S]; destruct B as [B|[B|[]]]; injection B as <-; try (cbn in Q; contradiction).
  - unfold operands in Q. cbn in Q. rewrite app_nil_r in Q. now apply I.
  - rewrite Forall_forall in F. destruct (F s S) as [_ P]. eapply Permutation_in; eauto.
Qed.

Lemma role_incl l r qs : get_role l r = Ok qs -> incl qs (dkeys (l_nodes l)).
Proof.
  unfold get_role, get_qubits. intros H. apply bind_ok in H as (bs & _ & H). injection H as <-. intros q Q.
  apply in_map_iff in Q as ([x b] & <- & Q). apply filter_In in Q as [Q _]. eapply in_combine_l; exact Q.
Qed.
Lemma css_operands ord code l reset b q : one_each l (css_round ord code l reset) -> In (Ok b) (css_round ord code l reset) ->
  In q (operands b) -> In q (dkeys (l_nodes l)).
Proof.
  intros O B Q. destruct (gen_in _ _ B) as (bl & E & _). destruct (negb _) eqn:C; [discriminate|].
  apply bind_ok in E as (data & Hd & E). apply bind_ok in E as (anc & Ha & E). apply bind_ok in E as (xs & Hx & E).
  apply (one_operands l _ data b q _ O eq_refl); [|eapply role_incl; eauto|exact B|exact Q].
  unfold css_round. rewrite C, Hd, Ha, Hx. reflexivity.
Qed.
Lemma meas_operands l r b q : In (Ok b) (log_meas_blocks l r) -> In q (operands b) -> In q (dkeys (l_nodes l)).
Proof.
  intros B Q. destruct (gen_in _ _ B) as (bl & E & I). apply bind_ok in E as (anc & Ha & E). apply bind_ok in E as (data & Hd & E). injection E as <-.
  pose proof (role_incl _ _ _ Ha) as Ia. pose proof (role_incl _ _ _ Hd) as Id.
  assert (K : incl (operands b) (anc ++ data)).
  { clear Q B. cbn [app] in I. destruct I as [I|[I|I]]; [| |apply in_app_or in I as [I|I]].
    1,2: injection I as <-; intros x; unfold operands; cbn; rewrite ?app_nil_r; intros; apply in_or_app; auto; contradiction.
    - destruct r; [|destruct I]. destruct I as [I|[I|[]]]; injection I as <-; intros x; unfold operands; cbn; rewrite ?app_nil_r, ?in_app_iff; tauto.
    - destruct I as [I|[I|[]]]; injection I as <-; intros x; unfold operands; cbn; rewrite ?app_nil_r, ?in_app_iff; tauto. }
  specialize (K q Q). apply in_app_or in K as [K|K]; auto.
Qed.
Lemma C64_css fuse ord code ls reset dets w w' c k l q i m2 own : wf_inds (inds (fst w)) -> dget q (inds (fst w)) = Some i -> apart ls ->
  (forall k l, nth_error ls k = Some l -> one_each l (css_round (ord k) code l reset)) ->
  nth_error ls k = Some l -> In q (dkeys (l_nodes l)) -> run_blocks (css_round (ord k) code l reset) (fst w) = (m2, Ok own) ->
  merge_qec_rounds fuse (fun k => css_round (ord k) code) ls reset dets w = (w', Ok c) ->
  on_index i (applications c) = on_index i (applications own).
Proof.
  intros W D A O N Q R H. eapply (C64_round fuse (fun k => css_round (ord k) code)); eauto.
  - apply (lock_round fuse (fun k => css_round (ord k) code) ls reset dets w w' c); [|exact H]. intros; left; eauto.
  - intros k' l' b N' Ne B Q'. apply Ne. symmetry. refine (A k k' l l' q _ _ N N' eq_refl eq_refl Q _). eapply css_operands; eauto.
Qed.
Lemma C64_log fuse ls rot n reset dets w w' c k l q i m2 own : wf_inds (inds (fst w)) -> dget q (inds (fst w)) = Some i -> apart ls ->
  nth_error ls k = Some l -> In q (dkeys (l_nodes l)) -> run_blocks (log_meas_blocks l rot) (fst w) = (m2, Ok own) ->
  merge_log_meas fuse (fun _ => log_meas_blocks) ls (repeat rot n) reset dets w = (w', Ok c) ->
  on_index i (applications c) = on_index i (applications own).
Proof.
  intros W D A N Q R H.
  assert (L : length (repeat rot n) = length ls).
  { unfold merge_log_meas in H. destruct (Nat.eqb_spec (length (repeat rot n)) (length ls)); [assumption|discriminate]. }
  assert (Nr : nth_error (repeat rot n) k = Some rot).
  { assert (k < n)%nat. { rewrite repeat_length in L. rewrite L. apply nth_error_Some. now rewrite N. }
    clear - H0. revert k H0. induction n as [|n IH]; intros k L; [lia|]. destruct k; [reflexivity|]. cbn. apply IH. lia. }
  refine (C64_meas fuse (fun _ => log_meas_blocks) ls (repeat rot n) reset dets w w' c k l rot q i m2 own W D _ N Nr _ R H).
  - exact (lock_meas _ _ _ _ _ _ _ _ _ H).
  - intros k' l' r' b N' _ Ne B Q'. apply Ne. symmetry. refine (A k k' l l' q _ _ N N' eq_refl eq_refl Q _). eapply meas_operands; eauto.
Qed.
Lemma uniform_global s : s_qubit s = [] -> uniform s.
Proof. intros E p q q'. unfold param, lookup. now rewrite E. Qed.
