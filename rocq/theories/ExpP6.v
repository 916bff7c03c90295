(** C38 and C39: order of the outcomes, number of detectors. *)
From Coq Require Import QArith Qcanon.
From Verif Require Import Base Lib StimM SetupM NoiseM SpecNoise NoiseP LayoutM DetM SpecDet DetP DetCountP
  BlockM ExpM SpecTrack SpecExp TrackP LiftP ExpDetP ExpP ExpP3 ExpP4 ExpP5.
Open Scope Z_scope.

(** * Counting *)
Lemma number_app g a b : number g (a ++ b) = (number g a + number g b)%nat.
Proof. unfold number. now rewrite filter_app, app_length. Qed.
Lemma number_zero g c : Forall (fun i => nm i <> g) c -> number g c = 0%nat.
Proof.
  unfold number. induction 1 as [|i c H _ IH]; [reflexivity|]. cbn [filter]. now rewrite (proj2 (eqb_neq (nm i) g)) by assumption.
Qed.
Lemma number_all g c : Forall (fun i => nm i = g) c -> number g c = length c.
Proof. unfold number. induction 1 as [|i c H _ IH]; [reflexivity|]. cbn [filter]. rewrite H, eqb_refl. cbn [length]. now rewrite IH. Qed.
Lemma checkless_none c : checkless c -> number DETECTOR c = 0%nat /\ number OBSERVABLE_INCLUDE c = 0%nat.
Proof. intros H. split; apply number_zero; (eapply Forall_impl; [|exact H]); intros i N E; apply N; [left|right]; exact E. Qed.
Lemma dets_count (Q : string -> instr -> Prop) ls cd : (forall a i, Q a i -> nm i = DETECTOR) -> Forall2 Q ls cd ->
  number DETECTOR cd = length ls /\ number OBSERVABLE_INCLUDE cd = 0%nat.
Proof.
  intros HQ F. assert (A : Forall (fun i => nm i = DETECTOR) cd) by (induction F; constructor; eauto).
  split; [rewrite number_all by exact A; symmetry; eapply Forall2_len; exact F|]. apply number_zero. eapply Forall_impl; [|exact A]. intros i ->. discriminate.
Qed.
Lemma round_count d0 qi ancs reset n ds L c0 c w : round_out d0 qi ancs reset n ds L c0 c w ->
  number DETECTOR c = length (labels d0) /\ number OBSERVABLE_INCLUDE c = 0%nat.
Proof.
  intros [_ (cb & cd & ls & -> & _ & _ & Hc & _ & P & F)]. rewrite !number_app. destruct (checkless_none _ Hc) as [-> ->].
  apply dets_count in F as [-> ->]; [|intros a i ((xs & _ & E & _) & _); exact E]. now rewrite (Permutation_length P).
Qed.
Lemma trace_count d0 qi ancs reset dsf I G pre n c w : trace d0 qi ancs reset dsf I G pre n c w ->
  number DETECTOR c = (n * length (labels d0))%nat /\ number OBSERVABLE_INCLUDE c = 0%nat.
Proof.
  induction 1 as [w T D|n c w c' w' _ [IH1 IH2] O]; [now split|]. rewrite !number_app, IH1, IH2. apply round_count in O as [-> ->]. split; [cbn; lia|reflexivity].
Qed.
Lemma meas_count d0 qi ancs l rot reset n ds L m c0 c : meas_out d0 qi ancs l rot reset n ds L m c0 c ->
  exists stabs, get_stabs l (basis_type rot) = Ok stabs /\
  number DETECTOR c = length (filter (fun a => mem a stabs) (labels d0)) /\ number OBSERVABLE_INCLUDE c = 1%nat.
Proof.
  intros [(stabs & sup & lq & qs & cd & o & ls & -> & _ & _ & Es & _ & _ & _ & Eo & _ & _ & _ & P & F)]. exists stabs. split; [exact Es|].
  rewrite !number_app. apply dets_count in F as [-> ->]; [|intros a i ((xs & _ & E & _) & _); exact E].
  rewrite (number_zero DETECTOR [o]) by (repeat constructor; congruence). rewrite (number_all _ [o]) by (repeat constructor; exact Eo).
  rewrite (Permutation_length P). split; [lia|reflexivity].
Qed.
Lemma memory_count ordt d0 qi l rot reset gauge dets R I G D c : memory_out ordt d0 qi l rot reset gauge dets R I G D c ->
  exists stabs, get_stabs l (basis_type rot) = Ok stabs /\
  number DETECTOR c = (R * length (labels d0) + length (filter (fun a => mem a stabs) (labels d0)))%nat /\ number OBSERVABLE_INCLUDE c = 1%nat.
Proof.
  intros [(ancs & ds & dsf & c01 & c2 & c3 & c4 & w2 & m3 & -> & _ & _ & B1 & _ & Ht & B3 & _ & Hm)].
  destruct (meas_count _ _ _ _ _ _ _ _ _ _ _ _ Hm) as (stabs & Es & E1 & E2). exists stabs. split; [exact Es|].
  rewrite !number_app, E1, E2. destruct (checkless_none _ B1) as [-> ->]. destruct (checkless_none _ B3) as [-> ->].
  destruct (trace_count _ _ _ _ _ _ _ _ _ _ _ Ht) as [-> ->]. split; lia.
Qed.
Lemma google_count ordt d0 qi l rot gauge dets R I G D c : google_out ordt d0 qi l rot gauge dets R I G D c ->
  exists stabs, get_stabs l (basis_type rot) = Ok stabs /\
  number DETECTOR c = (S R * length (labels d0) + length (filter (fun a => mem a stabs) (labels d0)))%nat /\ number OBSERVABLE_INCLUDE c = 1%nat.
Proof.
  intros [(ancs & ds & dsf & c01 & c2 & c3 & c4 & w2 & w3 & -> & _ & _ & B1 & _ & Ht & O & Hm)].
  destruct (meas_count _ _ _ _ _ _ _ _ _ _ _ _ Hm) as (stabs & Es & E1 & E2). exists stabs. split; [exact Es|].
  rewrite !number_app, E1, E2. destruct (checkless_none _ B1) as [-> ->]. destruct (round_count _ _ _ _ _ _ _ _ _ _ O) as [-> ->].
  destruct (trace_count _ _ _ _ _ _ _ _ _ _ _ Ht) as [-> ->]. split; cbn; lia.
Qed.
(* with the ancillas of the layout as labels *)
Lemma filter_pairs {A} (ks : list A) (bs cs : list bool) : length bs = length ks -> length cs = length ks ->
  (forall k, nth k cs false = true -> nth k bs false = true) ->
  incl (map fst (filter snd (combine ks cs))) (map fst (filter snd (combine ks bs))) /\
  (NoDup (map fst (filter snd (combine ks bs))) -> NoDup (map fst (filter snd (combine ks cs)))).
Proof.
  revert bs cs. induction ks as [|k ks IH]; intros [|b bs] [|c cs] Hb Hc H; try discriminate; [split; [intros x []|auto]|].
  cbn [combine filter snd]. destruct (IH bs cs ltac:(cbn in *; lia) ltac:(cbn in *; lia) (fun k => H (S k))) as [S N].
  specialize (H 0%nat). cbn in H. destruct c; [rewrite H by reflexivity|]; cbn.
  - split; [intros x [<-|Hx]; [now left|right; auto]|]. intros D. inversion D; subst. constructor; auto.
  - destruct b; cbn; split; auto; [intros x Hx; right; auto|]. intros D. inversion D; auto.
Qed.
Lemma stabs_anc l t stabs ancs : get_stabs l t = Ok stabs -> get_role l "anc" = Ok ancs -> incl stabs ancs /\ (NoDup ancs -> NoDup stabs).
Proof.
  unfold get_stabs, get_role, get_qubits. intros H1 H2. apply bind_ok in H1 as (cs & F1 & H1). apply bind_ok in H2 as (bs & F2 & H2).
  injection H1 as <-. injection H2 as <-. apply mapM_Forall2 in F1, F2. unfold dkeys. apply filter_pairs.
  - rewrite map_length. symmetry. eapply Forall2_len; eauto.
  - rewrite map_length. symmetry. eapply Forall2_len; eauto.
  - revert bs F2. induction F1 as [|qa b n cs E F1 IH]; intros bs F2 k Hk; [destruct k; discriminate|].
    inversion F2 as [|? b' ? bs' E' F2']; subst. destruct k as [|k]; [|exact (IH _ F2' k Hk)]. cbn in Hk |- *. subst b.
    cbn [valid_attrs] in E, E'. apply bind_ok in E as (v & Ev & E). rewrite Ev in E'. cbn [bind] in E'.
    destruct (is_none v || negb (pyv_eqb v (PStr "anc"))); [discriminate|]. congruence.
Qed.
Lemma filter_mem_len (s ancs : list string) : NoDup s -> NoDup ancs -> incl s ancs -> length (filter (fun a => mem a s) ancs) = length s.
Proof.
  intros Ns Na Hi. apply Permutation_length, NoDup_Permutation; [now apply NoDup_filter|exact Ns|].
  intros x. rewrite filter_In, mem_In. intuition.
Qed.
Lemma count_stabs l rot stabs ancs ls : get_stabs l (basis_type rot) = Ok stabs -> get_role l "anc" = Ok ancs -> NoDup ls -> Permutation ls ancs ->
  length ls = length ancs /\ length (filter (fun a => mem a stabs) ls) = length stabs.
Proof.
  intros E1 E2 N P. split; [now apply Permutation_length|]. destruct (stabs_anc _ _ _ _ E1 E2) as [I D].
  apply filter_mem_len; [|exact N|]. { apply D. eapply Permutation_NoDup; eauto. }
  intros x Hx. eapply Permutation_in; [symmetry; exact P|]. auto.
Qed.

(** * The outcomes *)
Lemma mlab_Gn G ancs n : (forall r, (r < n)%nat -> mlab (G r) = ancs) -> mlab (Gn G n) = times n ancs.
Proof.
  induction n as [|n IH]; intros H; [reflexivity|]. cbn [Gn]. rewrite mlab_app, IH, H by auto.
  clear. induction n as [|n IH]; cbn [times]; [now rewrite app_nil_r|]. rewrite <- app_assoc. f_equal. exact IH.
Qed.
Lemma memory_measured ordt d0 qi l rot reset gauge dets R I G D c anc data : memory_out ordt d0 qi l rot reset gauge dets R I G D c ->
  mlab I = [] -> (forall r, (r < R)%nat -> mlab (G r) = anc) -> mlab D = data ->
  at_inds qi (times R anc ++ data) (measured c).
Proof.
  intros [(ancs & ds & dsf & c01 & c2 & c3 & c4 & w2 & m3 & -> & Ea & _ & B1 & _ & Ht & B3 & T & Hm)] HI HG HD.
  destruct Hm as [(stabs & sup & lq & qs & cd & o & ls & _ & Tm & _)]. rewrite <- !app_assoc in Tm.
  apply tracked_at in Tm. rewrite !mlab_app, HI, HD, (mlab_Gn G anc R HG) in Tm. exact Tm.
Qed.
Lemma google_measured ordt d0 qi l rot gauge dets R I G D c anc data : google_out ordt d0 qi l rot gauge dets R I G D c ->
  mlab I = [] -> (forall r, (r < R)%nat -> mlab (G r) = anc) -> mlab D = anc ++ data ->
  at_inds qi (times (S R) anc ++ data) (measured c).
Proof.
  intros [(ancs & ds & dsf & c01 & c2 & c3 & c4 & w2 & m3 & -> & Ea & _ & B1 & _ & Ht & O & Hm)] HI HG HD.
  destruct Hm as [(stabs & sup & lq & qs & cd & o & ls & _ & Tm & _)]. rewrite <- !app_assoc in Tm.
  apply tracked_at in Tm. rewrite !mlab_app, HI, HD, (mlab_Gn G anc R HG) in Tm. cbn [app] in Tm.
  replace (times (S R) anc ++ data) with (times R anc ++ anc ++ data); [exact Tm|]. rewrite app_assoc. f_equal.
  clear. induction R as [|n IH]; cbn [times]; [now rewrite app_nil_r|]. rewrite <- app_assoc. f_equal. exact IH.
Qed.

(** * Splitting the outcomes *)
Lemma times_len {A} n (x : list A) : length (times n x) = (n * length x)%nat.
Proof. induction n; cbn; [reflexivity|]. now rewrite app_length, IHn. Qed.
Lemma at_count qi qs ts q i : wf_inds qi -> at_inds qi qs ts -> dget q qi = Some i -> count (TQ i) ts = count q qs.
Proof.
  intros W F Hq. induction F as [|q' t qs ts (j & Ej & ->) F IH]; [reflexivity|]. cbn [count]. rewrite IH. f_equal.
  destruct (eqb_spec q q') as [<-|Ne].
  - rewrite Hq in Ej. injection Ej as <-. now rewrite eqb_refl.
  - rewrite (proj2 (eqb_neq (TQ i) (TQ j))); [reflexivity|]. intros [= <-]. apply Ne. eapply inj_inds; eauto.
Qed.
Lemma rows_nth {A} m n : forall (x : list A) r row k v, nth_error (rows n m x) r = Some row -> nth_error row k = Some v ->
  nth_error x (r * m + k) = Some v /\ (r < n)%nat /\ (k < m)%nat.
Proof.
  induction n as [|n IH]; intros x r row k v Hr Hk; [destruct r; discriminate|]. destruct r as [|r]; cbn in Hr.
  - injection Hr as <-. assert (Hm : (k < length (firstn m x))%nat) by (apply nth_error_Some; congruence). rewrite firstn_length in Hm.
    split; [|lia]. cbn. rewrite <- (firstn_skipn m x) at 1. rewrite nth_error_app1; [exact Hk|]. rewrite firstn_length. lia.
  - destruct (IH _ _ _ _ _ Hr Hk) as (E & H1 & H2). split; [|lia]. assert (S : forall j, nth_error (skipn m x) j = nth_error x (m + j)).
    { clear. revert m. induction x as [|a x IH]; intros [|m] j; cbn; auto. now destruct j. }
    rewrite S in E. rewrite <- E. f_equal. lia.
Qed.
Lemma rows_len {A} m n : forall x : list A, length (rows n m x) = n.
Proof. induction n; cbn; auto. Qed.
Lemma rows_all {A} m n : forall x : list A, length x = (n * m)%nat -> Forall (fun r => length r = m) (rows n m x).
Proof.
  induction n as [|n IH]; intros x H; [constructor|]. cbn in H |- *. constructor; [rewrite firstn_length; lia|]. apply IH. rewrite skipn_length. lia.
Qed.
Lemma fst_combine {A B} (x : list A) : forall y : list B, length x = length y -> map fst (combine x y) = x.
Proof. induction x; intros [|b y] H; try discriminate; cbn; [reflexivity|]. f_equal. apply IHx. now injection H. Qed.
Lemma combine_nth' {A B} (x : list A) : forall (y : list B) k q v, nth_error (combine x y) k = Some (q, v) -> nth_error x k = Some q /\ nth_error y k = Some v.
Proof. induction x; intros [|b y] [|k] q v H; try discriminate; cbn in H; [injection H as -> ->; now split|exact (IHx _ _ _ _ H)]. Qed.
Lemma nth_skip {A} m (x : list A) j : nth_error (skipn m x) j = nth_error x (m + j).
Proof. revert m. induction x as [|a x IH]; intros [|m]; cbn; auto. now destruct j. Qed.
Lemma nth_first {A} m : forall (x : list A) j v, nth_error (firstn m x) j = Some v -> nth_error x j = Some v.
Proof. induction m; intros [|a x] [|j] v H; try discriminate; cbn in *; auto. Qed.
Lemma times_nth {A} n (x : list A) : forall r k q, (r < n)%nat -> nth_error x k = Some q -> nth_error (times n x) (r * length x + k) = Some q.
Proof.
  induction n as [|n IH]; intros r k q Hr Hk; [lia|]. destruct r as [|r]; cbn [times].
  - cbn. rewrite nth_error_app1; [exact Hk|]. apply nth_error_Some. congruence.
  - rewrite nth_error_app2 by (cbn; lia). replace (S r * length x + k - length x)%nat with (r * length x + k)%nat by (cbn; lia). apply IH; [lia|exact Hk].
Qed.
Lemma count_first (anc : list string) q k : NoDup anc -> nth_error anc k = Some q -> count q (firstn k anc) = 0%nat.
Proof.
  intros N. revert k. induction N as [|a anc Ha N IH]; intros [|k] H; try discriminate; cbn in *; [reflexivity|].
  rewrite IH by exact H. rewrite (proj2 (eqb_neq q a)); [reflexivity|]. intros ->. apply Ha. eapply nth_error_In; eauto.
Qed.
Lemma count_times n (anc : list string) q : forall r k, NoDup anc -> (r < n)%nat -> nth_error anc k = Some q ->
  count q (firstn (r * length anc + k) (times n anc)) = r.
Proof.
  induction n as [|n IH]; intros r k N Hr Hk; [lia|]. cbn [times]. assert (B : (k < length anc)%nat) by (apply nth_error_Some; congruence).
  destruct r as [|r].
  - cbn. rewrite firstn_app. replace (k - length anc)%nat with 0%nat by lia. cbn. rewrite app_nil_r. now apply count_first.
  - rewrite firstn_app. rewrite firstn_all2 by (cbn; lia). replace (S r * length anc + k - length anc)%nat with (r * length anc + k)%nat by (cbn; lia).
    rewrite count_app, IH by (auto; lia). rewrite count_nodup by exact N. rewrite (proj2 (mem_In q anc)) by (eapply nth_error_In; eauto). reflexivity.
Qed.
Lemma at_first qi k : forall qs ts, at_inds qi qs ts -> at_inds qi (firstn k qs) (firstn k ts).
Proof. induction k as [|k IH]; intros qs ts F; [constructor|]. destruct F; cbn; constructor; [assumption|now apply IH]. Qed.
Lemma at_nth qi : forall qs ts k q, at_inds qi qs ts -> nth_error qs k = Some q -> exists i, dget q qi = Some i /\ nth_error ts k = Some (TQ i).
Proof.
  intros qs ts k q F. revert k. induction F as [|q' t qs ts (i & E & ->) F IH]; intros [|k] H; try discriminate; cbn in *; [injection H as ->; eauto|auto].
Qed.
Lemma split_lemma {A} qi l R anc data ts (outcomes : list A) : wf_inds qi -> NoDup anc ->
  get_role l "anc" = Ok anc -> get_role l "data" = Ok data ->
  at_inds qi (times R anc ++ data) ts -> length outcomes = length ts ->
  exists a d, split_outcomes l R outcomes = Ok (a, d) /\ map (map fst) a = repeat anc R /\ map fst d = data /\
    (forall r row q v, nth_error a r = Some row -> In (q, v) row -> exists k i, dget q qi = Some i /\
       nth_error outcomes k = Some v /\ nth_error ts k = Some (TQ i) /\ count (TQ i) (firstn k ts) = r) /\
    (forall q v, In (q, v) d -> exists k i, dget q qi = Some i /\
       nth_error outcomes k = Some v /\ nth_error ts k = Some (TQ i) /\ (R * length anc <= k)%nat).
Proof.
  intros W N Ea Ed F Hl. pose proof (Forall2_len _ _ _ F) as Hl2. rewrite app_length, times_len in Hl2. rewrite <- Hl in Hl2.
  set (n := length anc) in *. unfold split_outcomes. rewrite Ea, Ed. cbn [bind]. fold n. unfold reshape.
  rewrite firstn_length, skipn_length. replace (Nat.min (R * n) (length outcomes)) with (R * n)%nat by lia. rewrite Nat.eqb_refl. cbn [of_opt bind].
  replace (length outcomes - R * n)%nat with (length data) by lia. rewrite Nat.eqb_refl. cbn [negb].
  eexists _, _. split; [reflexivity|]. split; [|split; [|split]].
  - rewrite map_map. pose proof (rows_all n R (firstn (R * n) outcomes)) as Ra. rewrite firstn_length in Ra. specialize (Ra ltac:(lia)).
    pose proof (rows_len n R (firstn (R * n) outcomes)) as Rl. revert Ra Rl. generalize (rows R n (firstn (R * n) outcomes)) as rs. clear.
    intros rs Ra <-. induction Ra as [|r rs E _ IH]; [reflexivity|]. cbn. f_equal; [|exact IH]. apply fst_combine. now symmetry.
  - apply fst_combine. rewrite skipn_length. lia.
  - intros r row q v Hr Hi. rewrite nth_error_map in Hr. destruct (nth_error (rows R n _) r) as [vs|] eqn:Er; [|discriminate]. injection Hr as <-.
    apply In_nth_error in Hi as (k & Hk). apply combine_nth' in Hk as [Hq Hv]. destruct (rows_nth _ _ _ _ _ _ _ Er Hv) as (Eo & Br & Bk).
    apply nth_first in Eo. pose proof (times_nth R anc r k q Br Hq) as Et. fold n in Et.
    assert (Et' : nth_error (times R anc ++ data) (r * n + k) = Some q) by (rewrite nth_error_app1; [exact Et|apply nth_error_Some; congruence]).
    destruct (at_nth _ _ _ _ _ F Et') as (i & Ei & Ets). exists (r * n + k)%nat, i. repeat split; auto.
    rewrite (at_count qi (firstn (r * n + k) (times R anc ++ data)) _ q i W) by (auto; now apply at_first).
    rewrite firstn_app. rewrite times_len. fold n. replace (r * n + k - R * n)%nat with 0%nat by nia. cbn [firstn]. rewrite app_nil_r. now apply count_times.
  - intros q v Hi. apply In_nth_error in Hi as (k & Hk). apply combine_nth' in Hk as [Hq Hv]. rewrite nth_skip in Hv.
    assert (Et : nth_error (times R anc ++ data) (R * n + k) = Some q).
    { rewrite nth_error_app2; rewrite times_len; fold n; [|lia]. now replace (R * n + k - R * n)%nat with k by lia. }
    destruct (at_nth _ _ _ _ _ F Et) as (i & Ei & Ets). exists (R * n + k)%nat, i. repeat split; auto. lia.
Qed.
