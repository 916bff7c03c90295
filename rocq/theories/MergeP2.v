(** Proofs about merge_tick_blocks and the merged QEC rounds. *)
From Coq Require Import QArith Qcanon.
From Verif Require Import Base Lib StimM SetupM NoiseM SpecNoise NoiseP DetM LayoutM BlockM ExpM SpecTrack SpecExp TrackP LiftP ExpP
  MergeM SpecMerge MergeP.
Open Scope Z_scope.

(** * Circuits do not depend on the record *)
Lemma same_refl m : same_model m m.
Proof. repeat split. Qed.
Lemma op_same m m2 o qs : same_model m m2 -> circ_op m o qs = circ_op m2 o qs /\ biased_op m o qs = biased_op m2 o qs /\
  exper_op m o qs = exper_op m2 o qs /\ (forall s, decoh_op m s o qs = decoh_op m2 s o qs) /\ (forall s, noiseless_op m s o qs = noiseless_op m2 s o qs).
Proof.
  destruct m as [k s i r n], m2 as [k2 s2 i2 r2 n2]. unfold same_model; cbn. intros (<- & <- & <-).
  repeat split; destruct o; reflexivity.
Qed.
(* the result does not depend on the record *)
Definition respects {A} (f : ST model A) : Prop := forall m m2 m' m2' a b, same_model m m2 ->
  f m = (m', Ok a) -> f m2 = (m2', Ok b) -> a = b /\ same_model m' m2'.
Lemma respects_ret {A} (a : A) : respects (sret a).
Proof. intros m m2 m' m2' x y S H1 H2. apply sret_ok in H1 as [-> <-]. apply sret_ok in H2 as [-> <-]. auto. Qed.
Lemma respects_read {A} (f : model -> res A) : (forall m m2, same_model m m2 -> f m = f m2) -> respects (sread f).
Proof.
  intros K m m2 m' m2' x y S H1 H2. apply sread_ok in H1 as [-> H1]. apply sread_ok in H2 as [-> H2]. rewrite (K m m2 S) in H1. split; [congruence|exact S].
Qed.
Lemma respects_lift {A} (x : res A) : respects (slift x).
Proof. intros m m2 m' m2' a b S H1 H2. unfold slift in *. split; [congruence|]. now injection H1 as <- _; injection H2 as <- _. Qed.
Lemma respects_bind {A B} (f : ST model A) (g : A -> ST model B) : respects f -> (forall a, respects (g a)) -> respects (sbind f g).
Proof.
  intros F G m m2 m' m2' a b S H1 H2. apply sbind_ok in H1 as (m1 & x & H1 & H1'). apply sbind_ok in H2 as (m3 & y & H2 & H2').
  destruct (F _ _ _ _ _ _ S H1 H2) as [-> S']. exact (G y _ _ _ _ _ _ S' H1' H2').
Qed.
Lemma respects_fold {A B} (f : B -> A -> ST model B) : (forall b a, respects (f b a)) -> forall l b, respects (sfold f l b).
Proof. intros F. induction l as [|x l IH]; intros b; [apply respects_ret|]. cbn [sfold]. apply respects_bind; auto. Qed.
Lemma respects_fail {A} e : respects (@sfail model A e).
Proof. intros m m2 m' m2' a b S H1 H2. discriminate. Qed.
Lemma respects_add q : respects (add_meas q).
Proof.
  intros m m2 m' m2' [] [] (K & S & I) H1 H2. split; [reflexivity|]. unfold add_meas in *. destruct (negb (dmem q (inds m))); [discriminate|].
  destruct (dget q (order m)); [|discriminate]. destruct (negb (dmem q (inds m2))); [discriminate|]. destruct (dget q (order m2)); [|discriminate].
  injection H1 as <-. injection H2 as <-. repeat split; assumption.
Qed.
Lemma pair_ok {A} (m m' : model) (r : res A) a : (m, r) = (m', Ok a) -> m' = m /\ r = Ok a.
Proof. intros E. split; congruence. Qed.
Ltac same_read := apply respects_read; intros [? ? ? ? ?] [? ? ? ? ?] (? & ? & ?); cbn in *; subst; reflexivity.
Lemma respects_apply o qs : respects (apply o qs).
Proof.
  intros m m2 m' m2' a b S H1 H2.
  assert (M1 : forall e g, respects (measure1 e g qs)).
  { intros e g. unfold measure1. repeat (apply respects_bind; [same_read|intros]). apply respects_fold. intros.
    apply respects_bind; [apply respects_add|intros]. apply respects_bind; [same_read|intros]. apply respects_ret. }
  assert (M0 : forall g, respects (measure0 g qs)).
  { intros g. unfold measure0. apply respects_fold. intros.
    apply respects_bind; [apply respects_add|intros]. apply respects_bind; [same_read|intros]. apply respects_ret. }
  assert (Md : forall s n g, respects (measure_decoh s n g qs)).
  { intros s n g. unfold measure_decoh. destruct s.
    - repeat (apply respects_bind; [same_read|intros]). apply respects_bind.
      + apply respects_fold. intros. apply respects_bind; [apply respects_add|intros]. apply respects_bind; [same_read|intros]. apply respects_ret.
      + intros. apply respects_bind; [same_read|intros]. apply respects_ret.
    - apply respects_bind; [same_read|intros]. destruct qs; [apply respects_ret|]. apply respects_bind; [apply respects_add|intros; apply respects_fail]. }
  destruct (op_same m m2 o qs S) as (O1 & O2 & O3 & O4 & O5). unfold apply in *. pose proof S as (K & _). rewrite <- K in H2.
  destruct (kind m); destruct o;
    first [ discriminate H1 | exact (M1 _ _ _ _ _ _ _ _ S H1 H2) | exact (M0 _ _ _ _ _ _ _ S H1 H2) | exact (Md _ _ _ _ _ _ _ _ _ S H1 H2)
          | apply pair_ok in H1 as [-> H1]; apply pair_ok in H2 as [-> H2]; split; [|exact S];
            first [rewrite O1 in H1; congruence | rewrite O2 in H1; congruence | rewrite O3 in H1; congruence | rewrite O4 in H1; congruence | rewrite O5 in H1; congruence] ].
Qed.
Lemma respects_call c : respects (run_call c).
Proof. destruct c; [apply respects_apply|apply respects_ret]. Qed.
Lemma respects_block b : respects (run_block b).
Proof.
  induction b as [|c b IH]; [apply respects_ret|]. cbn [run_block]. apply respects_bind; [apply respects_call|intros].
  apply respects_bind; [exact IH|intros; apply respects_ret].
Qed.

(** * Steps *)
Definition tgood (i : instr) : Prop := instr_ok i = true.
Lemma tgood_even c : Forall tgood c -> even_targets c.
Proof.
  intros F. eapply Forall_impl; [|exact F]. intros i G T. unfold tgood, instr_ok in G. rewrite T in G. cbn [negb orb] in G. apply andb_true_iff in G as [G _].
  revert G. generalize (tg i). fix IH 1. intros [|a [|b r]]; cbn; try reflexivity; try discriminate. intros G. apply andb_true_iff in G as [_ G]. now apply IH.
Qed.
Lemma call_even c m m' r : run_call c m = (m', Ok r) -> even_targets r.
Proof.
  destruct c as [o qs|]; cbn [run_call]; intros H.
  - apply apply_char in H as [_ [js [(_ & B & _) _]]]. apply tgood_even. eapply Forall_impl; [|exact B]. intros i [G _]. exact G.
  - apply sret_ok in H as [_ <-]. repeat constructor.
Qed.
Lemma even_app a b : even_targets (a ++ b) <-> even_targets a /\ even_targets b.
Proof. apply Forall_app. Qed.
Lemma block_even b : forall m m' r, run_block b m = (m', Ok r) -> even_targets r.
Proof.
  induction b as [|c b IH]; intros m m' r H; cbn [run_block] in H.
  - apply sret_ok in H as [_ <-]. constructor.
  - apply sbind_ok in H as (m1 & x & H1 & H). apply sbind_ok in H as (m2 & y & H2 & H). apply sret_ok in H as [_ <-].
    apply even_app. split; [eapply call_even; eauto|eapply IH; eauto].
Qed.
Lemma cat_uses fuse a b : even_targets a -> even_targets b -> applications (cat fuse a b) = applications a ++ applications b /\ even_targets (cat fuse a b).
Proof.
  intros Ea Eb. unfold cat. destruct fuse; [now apply appends_uses|]. split; [apply flat_map_app|]. now apply even_app.
Qed.
Lemma cat_measured fuse a b : measured (cat fuse a b) = measured a ++ measured b.
Proof. unfold cat. destruct fuse; [apply measured_appends'|apply measured_app']. Qed.

(* merge_tick_blocks as one list of slices *)
Lemma fold_cat_uses fuse l : forall acc, even_targets acc -> Forall even_targets l ->
  applications (fold_left (cat fuse) l acc) = applications acc ++ flat_map applications l /\ even_targets (fold_left (cat fuse) l acc).
Proof.
  induction l as [|b l IH]; intros acc Ea El; cbn [fold_left flat_map]; [now rewrite app_nil_r|].
  inversion El as [|? ? Eb El']; subst. destruct (cat_uses fuse acc b Ea Eb) as [C1 C2]. destruct (IH _ C2 El') as [I1 I2].
  split; [|exact I2]. rewrite I1, C1. now rewrite app_assoc.
Qed.
Lemma fold_cat_measured fuse l : forall acc, measured (fold_left (cat fuse) l acc) = measured acc ++ flat_map measured l.
Proof.
  induction l as [|b l IH]; intros acc; cbn [fold_left flat_map]; [now rewrite app_nil_r|]. rewrite IH, cat_measured. now rewrite app_assoc.
Qed.
Definition slices (n : nat) (bs : list circuit) : list circuit := flat_map (fun t => map (slice1 t) bs) (seq 0 n).
Lemma fold_slices fuse bs n : fold_left (fun acc t => fold_left (fun acc b => cat fuse acc (slice1 t b)) bs acc) (seq 0 n) [] =
  fold_left (cat fuse) (slices n bs) [].
Proof.
  unfold slices. generalize (@nil instr) as acc. generalize (seq 0 n) as ts. induction ts as [|t ts IH]; intros acc; cbn [fold_left flat_map]; [reflexivity|].
  rewrite fold_left_app, <- IH. f_equal. generalize acc. clear. induction bs as [|b bs IH]; intros acc; cbn [fold_left map]; [reflexivity|]. apply IH.
Qed.
Lemma merge_tick_inv fuse bs c : merge_tick_blocks fuse bs = Ok c ->
  exists n, bs <> [] /\ (forall b, In b bs -> length b = n) /\ c = fold_left (cat fuse) (slices n (concat (dvals (group_blocks bs)))) [].
Proof.
  unfold merge_tick_blocks. destruct (dedup (map (@length instr) bs)) as [|n [|m r]] eqn:E; try discriminate. intros [= <-].
  apply dedup_single in E as [N K]. exists n. split; [intros ->; now apply N|]. split; [|apply fold_slices].
  intros b Hb. apply K, in_map_iff. now exists b.
Qed.
(* the groups are the blocks in another order *)
Lemma group_perm bs : Permutation (concat (dvals (group_blocks bs))) bs.
Proof.
  unfold group_blocks.
  assert (G : forall d, NoDup (dkeys d) -> Permutation (concat (dvals (fold_left (fun d b => match dget (names b) d with
     | None => dset (names b) [b] d | Some l => dset (names b) (l ++ [b]) d end) bs d))) (concat (dvals d) ++ bs)).
  { induction bs as [|b bs IH]; intros d N; cbn [fold_left]; [now rewrite app_nil_r|].
    assert (P : forall l, (match dget (names b) d with None => [] | Some l => l end) = l ->
      Permutation (concat (dvals (dset (names b) (l ++ [b]) d))) (concat (dvals d) ++ [b])).
    { clear. intros l. induction d as [|[k v] d IH]; cbn [dget dset]; intros E.
      - subst l. cbn. constructor. constructor.
      - destruct (eqb_spec (names b) k).
        + cbn [dvals map concat snd]. subst v. rewrite <- !app_assoc. apply Permutation_app_head, Permutation_app_comm.
        + cbn [dvals map concat snd]. rewrite <- app_assoc. apply Permutation_app_head. now apply IH. }
    specialize (P _ eq_refl). 
    replace (match dget (names b) d with Some l => dset (names b) (l ++ [b]) d | None => dset (names b) [b] d end)
      with (dset (names b) ((match dget (names b) d with None => [] | Some l => l end) ++ [b]) d) by (destruct (dget (names b) d); reflexivity).
    rewrite IH by now apply NoDup_dset. rewrite P, <- app_assoc. reflexivity. }
  specialize (G [] ltac:(constructor)). exact G.
Qed.
(* blocks with the same names are one group *)
Lemma group_same bs N : bs <> [] -> (forall b, In b bs -> names b = N) -> concat (dvals (group_blocks bs)) = bs.
Proof.
  intros Ne K. destruct bs as [|b0 bs]; [contradiction|]. unfold group_blocks. cbn [fold_left dget]. rewrite (K b0) by now left. cbn [dset].
  assert (G : forall l, fold_left (fun d b => match dget (names b) d with
     | None => dset (names b) [b] d | Some l => dset (names b) (l ++ [b]) d end) bs [(N, l)] = [(N, l ++ bs)]).
  { assert (K' : forall b, In b bs -> names b = N) by (intros b Hb; apply K; now right). clear - K'. induction bs as [|b bs IH]; intros l; cbn [fold_left]; [now rewrite app_nil_r|].
    rewrite (K' b) by now left. cbn [dget]. rewrite eqb_refl. cbn [dset]. rewrite eqb_refl. rewrite IH by (intros x Hx; apply K'; now right).
    now rewrite <- app_assoc. }
  rewrite G. cbn. now rewrite app_nil_r.
Qed.
Lemma flat_map_map {A B C} (f : B -> list C) (g : A -> B) l : flat_map f (map g l) = flat_map (fun x => f (g x)) l.
Proof. induction l; cbn; [reflexivity|]. now rewrite IHl. Qed.
Lemma slices_one b : flat_map (fun t => slice1 t b) (seq 0 (length b)) = b.
Proof.
  induction b as [|i b IH]; [reflexivity|]. cbn [length seq flat_map]. change (slice1 0 (i :: b)) with [i]. cbn [app]. f_equal.
  rewrite <- seq_shift, flat_map_concat_map, map_map. rewrite <- IH at 2. rewrite flat_map_concat_map. reflexivity.
Qed.
Lemma slice_incl t b : incl (slice1 t b) b.
Proof.
  unfold slice1. intros i Hi. assert (K : In i (skipn t b)).
  { destruct (skipn t b); [destruct Hi|]. destruct Hi as [<-|[]]. now left. }
  rewrite <- (firstn_skipn t b). apply in_or_app. now right.
Qed.
Lemma slice_even t b : even_targets b -> even_targets (slice1 t b).
Proof. unfold even_targets. rewrite !Forall_forall. intros K i Hi. apply K, (slice_incl t), Hi. Qed.
Lemma filter_nil_iff {A} (f : A -> bool) l : filter f l = [] <-> forall x, In x l -> f x = false.
Proof.
  induction l as [|x l IH]; cbn; [tauto|]. destruct (f x) eqn:E.
  - split; [discriminate|]. intros K. specialize (K x (or_introl eq_refl)). congruence.
  - rewrite IH. split; [intros K y [<-|Hy]; auto|auto].
Qed.
Lemma filter_flat_map {A B} (f : B -> bool) (g : A -> list B) l : filter f (flat_map g l) = flat_map (fun x => filter f (g x)) l.
Proof. induction l; cbn; [reflexivity|]. now rewrite filter_app, IHl. Qed.
Lemma merge_tick_uses fuse bs c : Forall even_targets bs -> merge_tick_blocks fuse bs = Ok c ->
  even_targets c /\ Permutation (applications c) (flat_map applications bs) /\
  forall f l1 b l2, bs = l1 ++ b :: l2 -> (forall b', In b' (l1 ++ l2) -> filter f (applications b') = []) ->
    filter f (applications c) = filter f (applications b).
Proof.
  intros Ev H. destruct (merge_tick_inv _ _ _ H) as (n & N & Len & ->). set (B := concat (dvals (group_blocks bs))) in *.
  pose proof (group_perm bs) as P. fold B in P.
  assert (EB : Forall even_targets (slices n B)).
  { apply Forall_flat_map, Forall_forall. intros t _. apply Forall_map, Forall_forall. intros b Hb. apply slice_even. rewrite Forall_forall in Ev.
    apply Ev. now apply (Permutation_in _ P). }
  destruct (fold_cat_uses fuse (slices n B) [] ltac:(constructor) EB) as [U E]. split; [exact E|]. rewrite U. cbn [applications app flat_map].
  assert (Sl : flat_map applications (slices n B) = flat_map (fun t => flat_map (fun b => applications (slice1 t b)) B) (seq 0 n)).
  { unfold slices. generalize (seq 0 n) as ts. induction ts as [|t ts IH]; cbn [flat_map]; [reflexivity|]. rewrite flat_map_app, IH. f_equal.
    apply flat_map_map. }
  assert (One : forall b, In b B -> flat_map (fun t => applications (slice1 t b)) (seq 0 n) = applications b).
  { intros b Hb. rewrite <- (Len b) by now apply (Permutation_in _ P). rewrite <- (slices_one b) at 2. unfold applications.
    generalize (seq 0 (length b)) as ts. induction ts as [|t ts IH]; cbn [flat_map]; [reflexivity|]. now rewrite flat_map_app, IH. }
  rewrite Sl. split.
  - transitivity (flat_map applications B); [|now apply Permutation_flat_map].
    rewrite <- (flat_map_ext_in (fun b => flat_map (fun t => applications (slice1 t b)) (seq 0 n)) applications B One).
    clear. generalize (seq 0 n) as ts. induction ts as [|t ts IH]; cbn [flat_map].
    + now rewrite flat_map_nil'.
    + rewrite IH. clear. induction B as [|b B IH]; cbn [flat_map]; [constructor|]. rewrite <- IH, <- !app_assoc. apply Permutation_app_head.
      rewrite !app_assoc. apply Permutation_app_tail, Permutation_app_comm.
  - intros f l1 b l2 -> Ot. assert (Hb : In b B) by (apply (Permutation_in _ (Permutation_sym P)), in_elt).
    apply in_split in Hb as (p1 & p2 & EB'). rewrite EB' in P. pose proof (Permutation_app_inv _ _ _ _ _ P) as P'.
    rewrite filter_flat_map. rewrite <- (One b) by (rewrite EB'; apply in_elt). rewrite filter_flat_map. apply flat_map_ext_in. intros t _.
    rewrite filter_flat_map, EB'. apply (flat_map_only (fun x => filter f (applications (slice1 t x)))). intros b' Hb'.
    apply filter_nil_iff. intros a Ha. apply (proj1 (filter_nil_iff f (applications b')) (Ot b' (Permutation_in _ P' Hb'))).
    apply in_flat_map in Ha as (i & Hi & Ha). apply in_flat_map. exists i. split; [now apply (slice_incl t)|exact Ha].
Qed.
(* the record of a step in which at most one instruction of every block measures *)
Lemma merge_tick_measured fuse bs c N : merge_tick_blocks fuse bs = Ok c -> (forall b, In b bs -> names b = N) ->
  (length (filter is_meas N) <= 1)%nat -> measured c = flat_map measured bs.
Proof.
  intros H K L. destruct (merge_tick_inv _ _ _ H) as (n & Ne & Len & ->). rewrite (group_same bs N Ne K), fold_cat_measured. cbn [measured flat_map app].
  assert (n = length N) as ->. { destruct bs as [|b bs]; [contradiction|]. rewrite <- (Len b), <- (K b) by now left. unfold names. now rewrite map_length. }
  assert (Sl : flat_map measured (slices (length N) bs) = flat_map (fun t => flat_map (fun b => measured (slice1 t b)) bs) (seq 0 (length N))).
  { unfold slices. generalize (seq 0 (length N)) as ts. induction ts as [|t ts IH]; cbn [flat_map]; [reflexivity|]. rewrite flat_map_app, IH. f_equal.
    apply flat_map_map. }
  rewrite Sl. clear - K L Ne. revert bs K Ne. induction N as [|g N IH]; intros bs K Ne.
  - symmetry. apply flat_map_nil'. intros b Hb. specialize (K b Hb). destruct b; [reflexivity|discriminate].
  - cbn [length seq flat_map]. rewrite <- seq_shift, flat_map_map.
    assert (Tl : flat_map (fun t => flat_map (fun b => measured (slice1 (S t) b)) bs) (seq 0 (length N)) =
                 flat_map (fun t => flat_map (fun b => measured (slice1 t b)) (map (@tl instr) bs)) (seq 0 (length N))).
    { apply flat_map_ext_in. intros t _. rewrite flat_map_map. apply flat_map_ext_in. intros b Hb.
      specialize (K b Hb). destruct b; [discriminate|reflexivity]. }
    rewrite Tl. rewrite IH.
    + rewrite flat_map_map.
      assert (Hd : forall b, In b bs -> exists i r, b = i :: r /\ nm i = g /\ names r = N).
      { intros b Hb. specialize (K b Hb). destruct b as [|i r]; [discriminate|]. injection K as E1 E2. eauto. }
      destruct (is_meas g) eqn:G.
      * (* no measurement in the tails *)
        cbn in L. rewrite G in L. cbn in L. assert (Z : filter is_meas N = []) by (destruct (filter is_meas N); [reflexivity|cbn in L; lia]).
        rewrite (flat_map_nil' (fun b => measured (tl b)) bs).
        -- rewrite app_nil_r. apply flat_map_ext_in. intros b Hb. destruct (Hd b Hb) as (i & r & -> & E & E2). unfold measured. cbn. f_equal.
           symmetry. apply flat_map_nil'. intros j Hj. unfold instr_meas. destruct (is_meas (nm j)) eqn:Mj; [|reflexivity]. exfalso.
           rewrite <- E2 in Z. pose proof (proj1 (filter_nil_iff is_meas (names r)) Z (nm j) (in_map nm _ _ Hj)). congruence.
        -- intros b Hb. destruct (Hd b Hb) as (i & r & -> & E & E2). cbn. apply flat_map_nil'. intros j Hj. unfold instr_meas.
           destruct (is_meas (nm j)) eqn:Mj; [|reflexivity]. exfalso.
           rewrite <- E2 in Z. pose proof (proj1 (filter_nil_iff is_meas (names r)) Z (nm j) (in_map nm _ _ Hj)). congruence.
      * rewrite (flat_map_nil' (fun b => measured (slice1 0 b)) bs).
        -- cbn [app]. apply flat_map_ext_in. intros b Hb. destruct (Hd b Hb) as (i & r & -> & E & _). unfold measured. cbn. unfold instr_meas at 2. now rewrite E, G.
        -- intros b Hb. destruct (Hd b Hb) as (i & r & -> & E & _). unfold measured. cbn. unfold instr_meas. now rewrite E, G.
    + cbn in L. destruct (is_meas g); cbn in L; lia.
    + intros b Hb. apply in_map_iff in Hb as (b' & <- & Hb). specialize (K b' Hb). destruct b'; [discriminate|]. now injection K.
    + destruct bs; [contradiction|discriminate].
Qed.
