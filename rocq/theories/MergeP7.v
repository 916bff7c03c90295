(** A generator that runs merged with others also runs alone (C64, C65). *)
From Coq Require Import QArith Qcanon.
From Verif Require Import Base Lib StimM SetupM NoiseM SpecNoise NoiseP DetM LayoutM BlockM ExpM SpecTrack SpecExp TrackP LiftP ExpP ExpP13
  MergeM SpecMerge MergeP MergeP2 MergeP3 MergeP4 MergeP5 GenM OneP MergeP6.
Open Scope Z_scope.

Definition like (m m2 : model) : Prop := same_model m m2 /\ forall q, dmem q (order m) = dmem q (order m2).
Lemma like_refl m : like m m.
Proof. split; [apply same_refl|reflexivity]. Qed.
Lemma like_sym a b : like a b -> like b a.
Proof. intros [S K]. split; [now apply same_sym|intros; now rewrite K]. Qed.
Lemma like_trans a b c : like a b -> like b c -> like a c.
Proof. intros [S K] [S' K']. split; [eapply same_trans; eauto|intros; now rewrite K]. Qed.
Definition works {A} (f : ST model A) : Prop := forall m m2 m' a, like m m2 -> f m = (m', Ok a) ->
  like m m' /\ exists m2', f m2 = (m2', Ok a) /\ like m' m2'.
Lemma works_ret {A} (a : A) : works (sret a).
Proof. intros m m2 m' x L H. apply sret_ok in H as [-> <-]. split; [apply like_refl|]. exists m2. auto. Qed.
Lemma works_read {A} (f : model -> res A) : (forall m m2, same_model m m2 -> f m = f m2) -> works (sread f).
Proof.
  intros K m m2 m' x L H. apply sread_ok in H as [-> H]. split; [apply like_refl|]. exists m2. split; [|exact L]. unfold sread. f_equal. rewrite <- H. symmetry. apply K, L.
Qed.
Lemma works_bind {A B} (f : ST model A) (g : A -> ST model B) : works f -> (forall a, works (g a)) -> works (sbind f g).
Proof.
  intros F G m m2 m' a L H. apply sbind_ok in H as (m1 & x & H1 & H). destruct (F _ _ _ _ L H1) as (L1 & m3 & H3 & L3).
  destruct (G _ _ _ _ _ L3 H) as (L4 & m5 & H5 & L5). split; [eapply like_trans; eauto|]. exists m5. split; [|exact L5]. unfold sbind. now rewrite H3.
Qed.
Lemma works_fold {A B} (f : B -> A -> ST model B) : (forall b a, works (f b a)) -> forall l b, works (sfold f l b).
Proof. intros F. induction l as [|x l IH]; intros b; [apply works_ret|]. cbn [sfold]. apply works_bind; auto. Qed.
Lemma works_fail {A} e : works (@sfail model A e).
Proof. intros m m2 m' a L H. discriminate. Qed.
Lemma dmem_dset' {B} (k : string) (v : B) (d : dict string B) q : dmem q (dset k v d) = eqb q k || dmem q d.
Proof.
  unfold dmem. induction d as [|[a b] d IH]; cbn.
  - destruct (eqb_spec q k); reflexivity.
  - destruct (eqb_spec k a) as [<-|N]; cbn.
    + destruct (eqb_spec q k); reflexivity.
    + destruct (eqb_spec q a) as [->|]; [now destruct (eqb a k)|exact IH].
Qed.
Lemma works_add q : works (add_meas q).
Proof.
  intros m m2 m' [] [S O] H. unfold add_meas in *. pose proof S as (K1 & K2 & K3). rewrite <- K3. destruct (negb (dmem q (inds m))); [discriminate|].
  destruct (dget q (order m)) as [l|] eqn:E; [|discriminate]. injection H as <-. pose proof (O q) as Oq. unfold dmem in Oq. rewrite E in Oq.
  assert (Q : dmem q (order m) = true) by (unfold dmem; now rewrite E).
  split. { split; [repeat split|]. intros q'. cbn. rewrite dmem_dset'. destruct (eqb_spec q' q) as [->|]; [exact Q|reflexivity]. }
  destruct (dget q (order m2)) as [l2|]; [|discriminate]. eexists. split; [reflexivity|]. split; [repeat split; cbn; auto|]. intros q'. cbn. now rewrite !dmem_dset', O.
Qed.
Ltac same_works := apply works_read; intros [? ? ? ? ?] [? ? ? ? ?] (? & ? & ?); cbn in *; subst; reflexivity.
Lemma works_apply o qs : works (apply o qs).
Proof.
  intros m m2 m' a S H.
  assert (M1 : forall e g, works (measure1 e g qs)).
  { intros e g. unfold measure1. repeat (apply works_bind; [same_works|intros]). apply works_fold. intros.
    apply works_bind; [apply works_add|intros]. apply works_bind; [same_works|intros]. apply works_ret. }
  assert (M0 : forall g, works (measure0 g qs)).
  { intros g. unfold measure0. apply works_fold. intros.
    apply works_bind; [apply works_add|intros]. apply works_bind; [same_works|intros]. apply works_ret. }
  assert (Md : forall s n g, works (measure_decoh s n g qs)).
  { intros s n g. unfold measure_decoh. destruct s.
    - repeat (apply works_bind; [same_works|intros]). apply works_bind.
      + apply works_fold. intros. apply works_bind; [apply works_add|intros]. apply works_bind; [same_works|intros]. apply works_ret.
      + intros. apply works_bind; [same_works|intros]. apply works_ret.
    - apply works_bind; [same_works|intros]. destruct qs; [apply works_ret|]. apply works_bind; [apply works_add|intros; apply works_fail]. }
  destruct (op_same m m2 o qs (proj1 S)) as (O1 & O2 & O3 & O4 & O5). unfold apply in *. pose proof S as ((K & _) & _). rewrite <- K.
  destruct (kind m); destruct o;
    first [ discriminate H | exact (M1 _ _ _ _ _ _ S H) | exact (M0 _ _ _ _ _ S H) | exact (Md _ _ _ _ _ _ _ S H)
          | apply pair_ok in H as [-> H]; split; [apply like_refl|]; exists m2; split; [|exact S]; f_equal;
            first [rewrite <- O1; exact H | rewrite <- O2; exact H | rewrite <- O3; exact H | rewrite <- O4; exact H | rewrite <- O5; exact H] ].
Qed.
Lemma works_block b : works (run_block b).
Proof.
  induction b as [|c b IH]; [apply works_ret|]. cbn [run_block]. apply works_bind; [destruct c; [apply works_apply|apply works_ret]|intros].
  apply works_bind; [exact IH|intros; apply works_ret].
Qed.

Lemma ran_like m bs m' cs : ran m bs m' cs -> like m m' /\ Forall2 (fun b c => exists m1 m2, like m m1 /\ run_block b m1 = (m2, Ok c)) bs cs.
Proof.
  induction 1 as [m|m b bs m1 c m2 cs H R [L F]]; [split; [apply like_refl|constructor]|].
  destruct (works_block b _ _ _ _ (like_refl m) H) as [L1 _]. split; [eapply like_trans; eauto|]. constructor; [exists m, m1; split; [apply like_refl|exact H]|].
  clear - F L1. induction F as [|b c bs cs (k1 & k2 & K & B) F IH]; constructor; [|exact IH]. exists k1, k2. split; [eapply like_trans; eauto|exact B].
Qed.
Lemma combine_in {A B C} (g : A * B -> C) : forall (bs : list A) (rs : list B) l1 x l2, length bs = length rs -> l1 ++ x :: l2 = map g (combine bs rs) ->
  exists k b r, nth_error bs k = Some b /\ nth_error rs k = Some r /\ x = g (b, r) /\ exists r1 r2, rs = r1 ++ r :: r2.
Proof.
  intros bs rs l1 x l2 L E. symmetry in E. apply split_combine in E as (b1 & b0 & b2 & r1 & r0 & r2 & -> & -> & -> & _ & _ & L1 & L2); [|exact L].
  exists (length b1), b0, r0. rewrite nth_error_app2, Nat.sub_diag by lia. split; [reflexivity|]. rewrite L1, nth_error_app2, Nat.sub_diag by lia.
  split; [reflexivity|]. split; [reflexivity|]. eauto.
Qed.
Lemma F2_nth {A B} (P : A -> B -> Prop) l l' k a : Forall2 P l l' -> nth_error l k = Some a -> exists b, P a b.
Proof. intros F. revert k. induction F as [|x y l l' H F IH]; intros [|k] E; try discriminate; cbn in E; [injection E as <-; eauto|eauto]. Qed.
(* a generator that runs merged with others runs alone *)
Lemma zip_alone fuse n : forall l1 it0 l2 acc m m' c m0, lockstep (l1 ++ it0 :: l2) -> (length it0 <= n)%nat -> like m m0 ->
  zip_loop fuse n (l1 ++ it0 :: l2) acc m = (m', Ok c) -> exists m0' own, run_blocks it0 m0 = (m0', Ok own).
Proof.
  induction n as [|n IH]; intros l1 it0 l2 acc m m' c m0 K L S H; cbn [zip_loop] in H.
  - destruct it0; [|cbn in L; lia]. exists m0, []. reflexivity.
  - apply sbind_ok in H as (m1 & x & Hz & H). apply zip_next_inv in Hz as (bs & raw & m1' & Rn & Dx). destruct (ran_like _ _ _ _ Rn) as [L1 F].
    destruct x as [[cs rs]|].
    + destruct Dx as (-> & -> & E & Lb). rewrite E in K. apply lockstep_next in K as [K K']; [|exact Lb].
      apply combine_in in E as (k & b & r & Nb & Nr & -> & r1 & r2 & ->); [|exact Lb]. cbn [fst snd] in *.
      apply sbind_ok in H as (m2 & st & Hm & H). unfold slift in Hm. injection Hm as <- Hm.
      destruct (F2_nth _ _ _ _ _ F Nb) as (y & k1 & k2 & K1 & B).
      destruct (works_block b _ _ _ _ (like_trans _ _ _ (like_sym _ _ K1) S) B) as (K2 & k3 & B3 & K3).
      destruct (IH r1 r r2 (add_step fuse acc st) m1 m' c k3 K') as (m0' & own & R); [cbn in L; lia| |exact H|].
      * eapply like_trans; [apply like_sym, L1|]. eapply like_trans; [exact K1|]. eapply like_trans; [exact K2|exact K3].
      * exists m0', (y ++ own). cbn [run_blocks]. unfold sbind, slift. rewrite B3, R. reflexivity.
    + destruct Dx as (-> & pre & rest & E & _). destruct K as (k & Ln & _).
      assert (it0 = []) as ->.
      { assert (k = 0)%nat as ->. { rewrite E in Ln. apply Forall_app in Ln as [_ Ln]. apply Forall_inv in Ln. now rewrite <- Ln. }
        apply Forall_app in Ln as [_ Ln]. apply Forall_inv in Ln. now destruct it0. }
      exists m0, []. reflexivity.
Qed.
Lemma merged_alone fuse its it0 m m' c : In it0 its -> lockstep its -> merged_blocks fuse its m = (m', Ok c) -> exists m0' own, run_blocks it0 m = (m0', Ok own).
Proof.
  intros I K H. unfold merged_blocks in H. destruct its as [|f rest] eqn:E; [destruct I|]. rewrite <- E in *.
  assert (L : (length it0 <= S (length f))%nat).
  { destruct K as (k & Ln & _). rewrite Forall_forall in Ln. rewrite (Ln it0 I). rewrite (Ln f); [lia|]. rewrite E. now left. }
  apply in_split in I as (l1 & l2 & ->). eapply zip_alone; eauto using like_refl.
Qed.
Lemma enum_in {A} (l : list A) : forall n k x, nth_error l k = Some x -> In ((n + k)%nat, x) (enumerate_from n l).
Proof.
  induction l as [|y l IH]; intros n [|k] x E; try discriminate; cbn in E; cbn [enumerate_from].
  - injection E as ->. rewrite Nat.add_0_r. now left.
  - right. replace (n + S k)%nat with (S n + k)%nat by lia. now apply IH.
Qed.
Lemma round_alone fuse it ls reset dets w w' c k l : lockstep (map (fun kl => it (fst kl) (snd kl) reset) (enumerate ls)) ->
  merge_qec_rounds fuse it ls reset dets w = (w', Ok c) -> nth_error ls k = Some l ->
  exists m2 own, run_blocks (it k l reset) (fst w) = (m2, Ok own).
Proof.
  intros K H N. apply round_merged in H as (m' & c' & H). eapply merged_alone; [|exact K|exact H].
  apply in_map_iff. exists (k, l). split; [reflexivity|]. exact (enum_in ls O k l N).
Qed.
Lemma meas_alone fuse it ls rots reset dets w w' c k l r : lockstep (map (fun klr => it (fst klr) (fst (snd klr)) (snd (snd klr))) (enumerate (combine ls rots))) ->
  merge_log_meas fuse it ls rots reset dets w = (w', Ok c) -> nth_error ls k = Some l -> nth_error rots k = Some r ->
  exists m2 own, run_blocks (it k l r) (fst w) = (m2, Ok own).
Proof.
  intros K H N Nr. apply meas_merged in H as (m' & c' & H). eapply merged_alone; [|exact K|exact H].
  apply in_map_iff. exists (k, (l, r)). split; [reflexivity|]. apply (enum_in (combine ls rots) O k (l, r)).
  clear - N Nr. revert ls rots N Nr. induction k as [|k IH]; intros [|x ls] [|y rots] N Nr; try discriminate; cbn in *; [congruence|auto].
Qed.

(** * C64 and C65 for layouts with different labels *)
Lemma C64_css' fuse ord code ls reset dets w w' c k l q i : wf_inds (inds (fst w)) -> dget q (inds (fst w)) = Some i -> apart ls ->
  (forall k l, nth_error ls k = Some l -> one_each l (css_round (ord k) code l reset)) ->
  nth_error ls k = Some l -> In q (dkeys (l_nodes l)) ->
  merge_qec_rounds fuse (fun k => css_round (ord k) code) ls reset dets w = (w', Ok c) ->
  exists m2 own, run_blocks (css_round (ord k) code l reset) (fst w) = (m2, Ok own) /\
    on_index i (applications c) = on_index i (applications own).
Proof.
  intros W D A O N Q H.
  destruct (round_alone fuse (fun k => css_round (ord k) code) ls reset dets w w' c k l) as (m2 & own & R); auto.
  - apply (lock_round fuse (fun k => css_round (ord k) code) ls reset dets w w' c); [|exact H]. intros; left; eauto.
  - exists m2, own. split; [exact R|]. eapply C64_css; eauto.
Qed.
Lemma base_nth {A} (a : A) n (ls : list layout) k l : length (repeat a n) = length ls -> nth_error ls k = Some l -> nth_error (repeat a n) k = Some a.
Proof.
  intros L N. assert (B : (k < n)%nat) by (rewrite repeat_length in L; rewrite L; apply nth_error_Some; now rewrite N).
  clear - B. revert k B. induction n as [|n IH]; intros k B; [lia|]. destruct k; [reflexivity|]. cbn. apply IH. lia.
Qed.
Lemma C64_log' fuse ls rot n reset dets w w' c k l q i : wf_inds (inds (fst w)) -> dget q (inds (fst w)) = Some i -> apart ls ->
  nth_error ls k = Some l -> In q (dkeys (l_nodes l)) ->
  merge_log_meas fuse (fun _ => log_meas_blocks) ls (repeat rot n) reset dets w = (w', Ok c) ->
  exists m2 own, run_blocks (log_meas_blocks l rot) (fst w) = (m2, Ok own) /\ on_index i (applications c) = on_index i (applications own).
Proof.
  intros W D A N Q H.
  assert (L : length (repeat rot n) = length ls).
  { unfold merge_log_meas in H. destruct (Nat.eqb_spec (length (repeat rot n)) (length ls)); [assumption|discriminate]. }
  destruct (meas_alone fuse (fun _ => log_meas_blocks) ls (repeat rot n) reset dets w w' c k l rot) as (m2 & own & R); auto.
  - exact (lock_meas _ _ _ _ _ _ _ _ _ H).
  - eapply base_nth; eauto.
  - exists m2, own. split; [exact R|]. eapply C64_log; eauto.
Qed.
Lemma measured_in i c : In (TQ i) (measured c) <-> exists a, In a (on_index i (applications c)) /\ is_meas (name_of a) = true.
Proof.
  unfold measured, applications, on_index. rewrite in_flat_map. split.
  - intros (j & J & I). unfold instr_meas in I. destruct (is_meas (nm j)) eqn:M; [|destruct I]. exists (nm j, [TQ i], ar j). split; [|exact M].
    apply filter_In. split; [|cbn; now rewrite eqb_refl]. apply in_flat_map. exists j. split; [exact J|]. unfold uses. apply in_map_iff. exists [TQ i]. split; [reflexivity|].
    destruct (nm j); try discriminate; cbn; apply in_map_iff; exists (TQ i); auto.
  - intros (a & A & M). apply filter_In in A as [A F]. apply in_flat_map in A as (j & J & A). exists j. split; [exact J|]. unfold uses in A. apply in_map_iff in A as (t & <- & A).
    unfold name_of in M. cbn in M, F. unfold instr_meas. rewrite M. destruct (nm j); try discriminate M; cbn in A; apply in_map_iff in A as (x & <- & A); cbn in F;
      destruct (eqb_spec (TQ i) x) as [->|]; try discriminate F; exact A.
Qed.
Lemma op_measured qs m m' c q i : apply OM qs m = (m', Ok c) -> In q qs -> dget q (inds m) = Some i -> In (TQ i) (measured c).
Proof.
  intros H Q D. apply apply_char in H as [_ [js [B G]]]. rewrite (built_measured _ _ B).
  destruct (gate_of (kind m) OM) as [g|] eqn:Eg.
  - destruct G as (is & Hi & _ & _ & ->). unfold instr_meas. cbn. assert (is_meas g = true) as -> by (destruct (kind m); cbn in Eg; injection Eg as <-; reflexivity).
    apply get_inds_F2 in Hi. apply in_map. clear - Hi Q D. induction Hi as [|x y qs is H F IH]; [destruct Q|]. destruct Q as [<-|Q]; [left; congruence|right; auto].
  - destruct (kind m); discriminate Eg.
Qed.
Lemma blocks_measured bl : forall m m' c b data q i r, run_blocks bl m = (m', Ok c) -> In (Ok (Call OM data :: b)) bl -> In q data -> dget q (inds m) = Some i -> r = (TQ i) -> In r (measured c).
Proof.
  induction bl as [|x bl IH]; intros m m' c b data q i r H B Q D ->; [destruct B|]. cbn [run_blocks] in H.
  apply sbind_ok in H as (m0 & x0 & H0 & H). unfold slift in H0. injection H0 as <- ->. apply sbind_ok in H as (m1 & c1 & H1 & H). apply sbind_ok in H as (m2 & c2 & H2 & H).
  apply sret_ok in H as [-> <-]. rewrite measured_app'. apply in_or_app. destruct B as [B|B].
  - injection B as ->. left. cbn [run_block] in H1. apply sbind_ok in H1 as (k1 & y1 & K1 & H1). apply sbind_ok in H1 as (k2 & y2 & K2 & H1). apply sret_ok in H1 as [-> <-].
    rewrite measured_app'. apply in_or_app. left. eapply op_measured; eauto.
  - right. pose proof (block_static _ _ _ _ H1) as (_ & _ & E). eapply IH; eauto. now rewrite <- E.
Qed.
Lemma C65_lemma fuse ls rot n reset dets w w' c k l data q i : wf_inds (inds (fst w)) -> dget q (inds (fst w)) = Some i -> apart ls ->
  nth_error ls k = Some l -> get_role l "data" = Ok data -> In q data ->
  merge_log_meas fuse (fun _ => log_meas_blocks) ls (repeat rot n) reset dets w = (w', Ok c) -> In (TQ i) (measured c).
Proof.
  intros W D A N Hd Q H. destruct (C64_log' fuse ls rot n reset dets w w' c k l q i W D A N) as (m2 & own & R & E); auto.
  { eapply role_incl; eauto. }
  assert (M : In (TQ i) (measured own)).
  { destruct (get_role l "anc") as [anc|e] eqn:Ha.
    - eapply (blocks_measured _ _ _ _ [Call OIDLE anc] data q i _ R); auto. unfold log_meas_blocks. rewrite Ha, Hd. cbn [bind generator].
      apply in_or_app. right. apply in_or_app. right. now left.
    - unfold log_meas_blocks in R. rewrite Ha in R. discriminate R. }
  apply measured_in in M. apply measured_in. now rewrite E.
Qed.
