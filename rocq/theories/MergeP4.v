(** The operations on one qubit in merged rounds (C64). *)
From Coq Require Import QArith Qcanon.
From Verif Require Import Base Lib StimM SetupM NoiseM SpecNoise NoiseP DetM LayoutM BlockM ExpM SpecTrack SpecExp TrackP LiftP ExpP ExpP13
  MergeM SpecMerge MergeP MergeP2 MergeP3.
Open Scope Z_scope.

(** * The targets of the operations *)
Definition only (T : target -> Prop) (c : circuit) : Prop := Forall (fun i => Forall T (tg i)) c.
Lemma only_append T c i : only T c -> Forall T (tg i) -> only T (append c i).
Proof.
  unfold only. intros C I. destruct (append_app c i) as [->|(c'&j&->&H2&H3&H4&->)]; apply Forall_app; [split; [exact C|now constructor]|].
  apply Forall_app in C as [C J]. inversion J; subst. split; [exact C|]. constructor; [|constructor]. cbn. now apply Forall_app.
Qed.
Lemma only_appends T js : forall c, only T c -> Forall (fun i => Forall T (tg i)) js -> only T (appends c js).
Proof. induction js as [|j js IH]; intros c C J; [exact C|]. inversion J; subst. unfold appends. cbn [fold_left]. apply IH; [|assumption]. now apply only_append. Qed.
Lemma only_fold {A} (f : A -> res instr) T l c c' : foldM (fun c x => do i <- f x; Ok (append c i)) l c = Ok c' ->
  (forall x j, In x l -> f x = Ok j -> Forall T (tg j)) -> only T c -> only T c'.
Proof.
  intros H F C. apply (foldM_appends f) in H as (js & J & ->). apply only_appends; [exact C|].
  clear - F J. induction J as [|x j l js H J IH]; constructor; [eapply F; eauto; now left|apply IH; intros; eapply F; eauto; now right].
Qed.
Section Only.
  Context (m : model) (qs : list string).
  Definition on_qubits (t : target) : Prop := exists q i, t = TQ i /\ In q qs /\ dget q (inds m) = Some i.
  Lemma inds_on is : get_inds m qs = Ok is -> Forall (fun i => on_qubits (TQ i)) is.
  Proof.
    unfold get_inds, on_qubits. intros H. apply mapM_Forall2 in H. revert H. generalize (fun (q : string) (H : In q qs) => H). generalize qs at 1 3 as l.
    intros l K H. induction H as [|q i l is H _ IH]; constructor.
    - exists q, i. split; [reflexivity|]. split; [apply K; now left|]. unfold dget_err in H. destruct (dget q (inds m)); [now injection H as ->|discriminate].
    - apply IH. intros; apply K; now right.
  Qed.
  Lemma inds_targets is : get_inds m qs = Ok is -> Forall on_qubits (map TQ is).
  Proof. intros H. apply Forall_map. now apply inds_on. Qed.
  Lemma one_on is qi : get_inds m qs = Ok is -> In qi (combine qs is) -> on_qubits (TQ (snd qi)).
  Proof. intros H I. destruct qi as [q i]. apply in_combine_r in I. apply inds_on in H. rewrite Forall_forall in H. exact (H i I). Qed.
  Lemma grouper_in {A} (l : list A) ps : grouper2 l = Ok ps -> forall p, In p ps -> In (fst p) l /\ In (snd p) l.
  Proof.
    assert (G : forall n (l : list A) ps, (length l <= n)%nat -> grouper2 l = Ok ps -> forall p, In p ps -> In (fst p) l /\ In (snd p) l).
    { clear. induction n as [|n IH]; intros [|x [|y l]] ps L H p P; cbn in *; try lia; try discriminate; try (injection H as <-; destruct P).
      apply bind_ok in H as (t & E & H). injection H as <-. destruct P as [<-|P]; [cbn; auto|]. destruct (IH l t ltac:(lia) E p P). auto. }
    exact (G (length l) l ps (le_n _)).
  Qed.
  Lemma pair_on is ip (qp : list (string * string)) (x : (string * string) * (Z * Z)) : get_inds m qs = Ok is -> grouper2 is = Ok ip -> In x (combine qp ip) ->
    on_qubits (TQ (fst (snd x))) /\ on_qubits (TQ (snd (snd x))).
  Proof.
    intros H G I. destruct x as [q i]. apply in_combine_r in I. destruct (grouper_in _ _ G _ I) as [A B]. apply inds_on in H. rewrite Forall_forall in H. cbn. auto.
  Qed.
  Definition own1 (f : string -> Z -> res instr) : Prop := forall q i j, f q i = Ok j -> tg j = [TQ i].
  Definition own2 (f : string * string -> Z * Z -> res instr) : Prop := forall q i j, f q i = Ok j -> tg j = [TQ (fst i); TQ (snd i)].
  Lemma chan1_own g p : own1 (chan1 m g p).
  Proof. intros q i j H. apply chan1_shape in H as (v & x & _ & _ & -> & _). reflexivity. Qed.
  Lemma chan2_own g p : own2 (chan2 m g p).
  Proof. intros q i j H. apply chan2_shape in H as (v & x & _ & _ & -> & _). reflexivity. Qed.
  Lemma bchan1_own p : own1 (bchan1 m p).
  Proof. intros q i j H. unfold bchan1 in H. apply bind_ok in H as (a & _ & H). apply mk_ok in H as [-> _]. reflexivity. Qed.
  Lemma bchan2_own p : own2 (bchan2 m p).
  Proof. intros q i j H. unfold bchan2 in H. apply bind_ok in H as (a & _ & H). apply mk_ok in H as [-> _]. reflexivity. Qed.
  Lemma meas_own g : own1 (meas_instr m g).
  Proof.
    intros q i j H. unfold meas_instr in H. apply bind_ok in H as (a & _ & H). destruct (truthy a).
    - apply bind_ok in H as (v & _ & H). apply bind_ok in H as (x & _ & H). apply mk_ok in H as [-> _]. reflexivity.
    - apply mk_ok in H as [-> _]. reflexivity.
  Qed.
  Lemma chans_only f is c c' : own1 f -> get_inds m qs = Ok is -> chans f (combine qs is) c = Ok c' -> only on_qubits c -> only on_qubits c'.
  Proof.
    intros O I H C. unfold chans in H. apply (only_fold (fun qi => f (fst qi) (snd qi)) on_qubits _ _ _ H); [|exact C].
    intros x j X Y. rewrite (O _ _ _ Y). constructor; [eapply one_on; eauto|constructor].
  Qed.
  Lemma only_nil T : only T [].
  Proof. constructor. Qed.
  Lemma only_one i : Forall on_qubits (tg i) -> only on_qubits (append [] i).
  Proof. intros H. apply only_append; [constructor|exact H]. Qed.
  Lemma gate1_only g f c : own1 f -> gate1 m g f qs = Ok c -> only on_qubits c.
  Proof.
    intros O H. unfold gate1 in H. apply bind_ok in H as (is & I & H). apply bind_ok in H as (i & E & H). apply mk_ok in E as [-> _].
    eapply chans_only; eauto. apply only_one. now apply inds_targets.
  Qed.
  Lemma gate2_only g f c : own2 f -> gate2 m g f qs = Ok c -> only on_qubits c.
  Proof.
    intros O H. unfold gate2 in H. destruct (Nat.odd _); [discriminate|]. apply bind_ok in H as (is & I & H). apply bind_ok in H as (i & E & H). apply mk_ok in E as [-> _].
    apply bind_ok in H as (qp & _ & H). apply bind_ok in H as (ip & G & H). unfold chans2 in H.
    apply (only_fold (fun qi => f (fst qi) (snd qi)) on_qubits _ _ _ H); [|apply only_one; now apply inds_targets].
    intros x j X Y. rewrite (O _ _ _ Y). destruct (pair_on _ _ _ _ I G X). repeat constructor; assumption.
  Qed.
  Lemma gate0_only g c : gate0 m g qs = Ok c -> only on_qubits c.
  Proof.
    intros H. unfold gate0 in H. apply bind_ok in H as (is & I & H). apply bind_ok in H as (i & E & H). apply mk_ok in E as [-> _]. injection H as <-.
    apply only_one. now apply inds_targets.
  Qed.
  Lemma idle1_only f c : own1 f -> idle1 m f qs = Ok c -> only on_qubits c.
  Proof. intros O H. unfold idle1 in H. apply bind_ok in H as (is & I & H). eapply chans_only; eauto. constructor. Qed.
  Lemma inc_only c : incoming1 m qs = Ok c -> only on_qubits c.
  Proof.
    intros H. unfold incoming1 in H. apply bind_ok in H as (is & I & H). apply bind_ok in H as (c1 & E & H).
    eapply chans_only; [apply chan1_own|exact I|exact H|]. eapply chans_only; [apply chan1_own|exact I|exact E|constructor].
  Qed.
  Lemma single_on q is : In q qs -> get_inds m [q] = Ok is -> Forall on_qubits (map TQ is) /\ exists i, is = [i] /\ on_qubits (TQ i).
  Proof.
    intros Q H. unfold get_inds in H. cbn in H. apply bind_ok in H as (i & E & H). injection H as <-. unfold dget_err in E.
    destruct (dget q (inds m)) as [x|] eqn:D; [|discriminate]. injection E as ->. assert (on_qubits (TQ i)) by (exists q, i; auto).
    split; [repeat constructor; assumption|eauto].
  Qed.
  Lemma idle_only d c : idle_dur m d qs = Ok c -> only on_qubits c.
  Proof.
    intros H. unfold idle_dur in H. apply (only_fold (idle_chan m d) on_qubits _ _ _ H); [|constructor]. intros q j Q E. unfold idle_chan in E.
    repeat (apply bind_ok in E as (? & _ & E)). destruct (negb _); [discriminate|]. apply bind_ok in E as (? & _ & E). destruct (negb _); [discriminate|].
    apply bind_ok in E as (is & I & E). apply mk_ok in E as [-> _]. now apply (single_on q).
  Qed.
  Lemma only_app T a b : only T a -> only T b -> only T (a ++ b).
  Proof. intros A B. now apply Forall_app. Qed.
  Lemma generic_only sym n g c : generic_op m sym n g qs = Ok c -> only on_qubits c.
  Proof.
    intros H. unfold generic_op in H. destruct sym.
    - apply bind_ok in H as (d & _ & H). apply bind_ok in H as (c1 & E1 & H). apply bind_ok in H as (is & I & H). apply bind_ok in H as (i & E & H).
      apply bind_ok in H as (c2 & E2 & H). injection H as <-. apply mk_ok in E as [-> _]. apply only_app; [|eapply idle_only; eauto].
      apply only_append; [eapply idle_only; eauto|now apply inds_targets].
    - apply bind_ok in H as (d & _ & H). apply bind_ok in H as (is & I & H). apply bind_ok in H as (i & E & H).
      apply bind_ok in H as (c2 & E2 & H). injection H as <-. apply mk_ok in E as [-> _]. apply (only_app _ [Instr g (map TQ is) []]); [|eapply idle_only; eauto].
      constructor; [now apply inds_targets|constructor].
  Qed.
  Lemma loop_only {A} (F : A -> res instr) l js c : Forall2 (fun x j => F x = Ok j) l js -> (forall x j, In x l -> F x = Ok j -> Forall on_qubits (tg j)) ->
    only on_qubits c -> only on_qubits (appends c js).
  Proof.
    intros J K C. apply only_appends; [exact C|]. clear C. induction J as [|x j l js H J IH]; constructor; [eapply K; eauto; now left|].
    apply IH. intros; eapply K; eauto; now right.
  Qed.
  Lemma measure1_only e g m' c : measure1 e g qs m = (m', Ok c) -> only on_qubits c.
  Proof.
    intros H. unfold measure1 in H. apply sbind_ok in H as (m1 & is & H1 & H). apply sread_ok in H1 as [-> Hi].
    apply sbind_ok in H as (m1 & c1 & H1 & H). apply sread_ok in H1 as [-> H1].
    apply (meas_loop fst (fun m x => meas_instr m g (fst x) (snd x)) _ (fun m m' x => same_meas m m' g (fst x) (snd x)) m) in H; [|apply same_refl].
    destruct H as [_ (js & Fj & ->)]. eapply loop_only; [exact Fj| |eapply chans_only; [apply chan1_own|exact Hi|exact H1|constructor]].
    intros x j X Y. cbn in Y. rewrite (meas_own _ _ _ _ Y). constructor; [eapply one_on; eauto|constructor].
  Qed.
  Lemma measure0_only g m' c : measure0 g qs m = (m', Ok c) -> only on_qubits c.
  Proof.
    intros H. unfold measure0 in H.
    apply (meas_loop (fun q => q) (fun m q => do is <- get_inds m [q]; mk g (map TQ is) [])) with (m0 := m) in H; [| |apply same_refl].
    - destruct H as [_ (js & Fj & ->)]. eapply loop_only; [exact Fj| |constructor]. intros x j X Y. cbn in Y.
      apply bind_ok in Y as (is & I & Y). apply mk_ok in Y as [-> _]. now apply (single_on x).
    - intros a b x E. now rewrite (same_get_inds _ _ _ E).
  Qed.
  Lemma decoh_only sym n g m' c : measure_decoh sym n g qs m = (m', Ok c) -> only on_qubits c.
  Proof.
    intros H. unfold measure_decoh in H. destruct sym.
    - apply sbind_ok in H as (m1 & d & H1 & H). apply sread_ok in H1 as [-> _]. apply sbind_ok in H as (m1 & c1 & H1 & H). apply sread_ok in H1 as [-> H1].
      apply sbind_ok in H as (m2 & c2 & H2 & H). apply sbind_ok in H as (m3 & c3 & H3 & H). apply sread_ok in H3 as [-> H3]. apply sret_ok in H as [-> <-].
      apply (meas_loop (fun q => q) (fun m q => do is <- get_inds m [q]; meas_instr m g q (nth 0 is 0))) with (m0 := m) in H2; [| |apply same_refl].
      + destruct H2 as [S (js & Fj & ->)]. apply only_app.
        * eapply loop_only; [exact Fj| |eapply idle_only; exact H1]. intros x j X Y. cbn in Y. apply bind_ok in Y as (is & I & Y).
          rewrite (meas_own _ _ _ _ Y). destruct (single_on x is X I) as [_ (i & -> & O)]. constructor; [exact O|constructor].
        * assert (E : idle_dur m2 d qs = idle_dur m d qs).
          { unfold idle_dur. destruct S as (_ & S1 & S2). unfold idle_chan, mparam, get_inds. now rewrite S1, S2. }
          rewrite E in H3. eapply idle_only; exact H3.
      + intros a b x E. rewrite (same_get_inds _ _ _ E). destruct (get_inds b [x]); [apply same_meas; exact E|reflexivity].
    - apply sbind_ok in H as (m1 & d & H1 & H). destruct qs; [apply sret_ok in H as [_ <-]; constructor|].
      apply sbind_ok in H as (m2 & u & _ & H). discriminate.
  Qed.
  Lemma apply_only o m' c : apply o qs m = (m', Ok c) -> only on_qubits c.
  Proof.
    unfold apply. intros H.
    destruct (kind m) eqn:K; destruct o;
      first [ eapply measure1_only; exact H | eapply measure0_only; exact H | eapply decoh_only; exact H
            | apply pair_ok in H as [_ H]; cbn [circ_op biased_op exper_op decoh_op noiseless_op] in H;
              first [ discriminate H
                    | eapply gate1_only; [|exact H]; first [apply chan1_own|apply bchan1_own]
                    | eapply gate2_only; [|exact H]; first [apply chan2_own|apply bchan2_own]
                    | eapply gate0_only; exact H | eapply generic_only; exact H
                    | eapply idle1_only; [|exact H]; first [apply chan1_own|apply bchan1_own]
                    | eapply idle_only; exact H | eapply inc_only; exact H
                    | injection H as <-; constructor ] ].
  Qed.
End Only.

(** * Blocks *)
Lemma on_mono m m' a b t : same_model m m' -> incl a b -> on_qubits m a t -> on_qubits m' b t.
Proof. intros (_ & _ & E) I (q & i & -> & Q & D). exists q, i. rewrite <- E. auto. Qed.
Lemma block_only b : forall m m' c, run_block b m = (m', Ok c) -> only (on_qubits m (operands b)) c.
Proof.
  induction b as [|x b IH]; intros m m' c H; cbn in H.
  - apply sret_ok in H as [-> <-]. constructor.
  - apply sbind_ok in H as (m1 & c1 & H1 & H). apply sbind_ok in H as (m2 & c2 & H2 & H). apply sret_ok in H as [-> <-]. apply only_app.
    + destruct x as [o qs|]; cbn in H1.
      * apply apply_only in H1. eapply Forall_impl; [|exact H1]. intros i. apply Forall_impl. intros t. apply on_mono; [apply same_refl|].
        intros y Y. unfold operands. cbn. apply in_or_app. now left.
      * apply sret_ok in H1 as [-> <-]. repeat constructor.
    + assert (S : same_model m m1). { apply (block_static [x] m m1 c1). cbn. unfold sbind. rewrite H1. cbn. now rewrite app_nil_r. }
      apply IH in H2. eapply Forall_impl; [|exact H2]. intros i. apply Forall_impl. intros t. apply on_mono; [now apply same_sym|].
      intros y Y. unfold operands in *. cbn. apply in_or_app. now right.
Qed.
Lemma pairs_in {A} (l p : list A) x : In p (pairs_of l) -> In x p -> In x l.
Proof.
  assert (G : forall n (l : list A), (length l <= n)%nat -> In p (pairs_of l) -> In x p -> In x l).
  { clear. induction n as [|n IH]; intros [|a [|b l]] L P X; cbn in *; try lia; try contradiction.
    destruct P as [<-|P]; [destruct X as [<-|[<-|[]]]; auto|]. right; right. apply IH; auto; lia. }
  exact (G (length l) l (le_n _)).
Qed.
Lemma uses_targets i a t : In a (uses i) -> In t (snd (fst a)) -> In t (tg i).
Proof.
  unfold uses. intros A T. apply in_map_iff in A as (l & <- & A). cbn in T. destruct (not_fusable (nm i)).
  - destruct A as [<-|[]]. exact T.
  - destruct (is_two (nm i)); [eapply pairs_in; eauto|]. apply in_map_iff in A as (y & <- & A). destruct T as [<-|[]]. exact A.
Qed.
Lemma only_away (T : target -> Prop) c i : only T c -> ~ T (TQ i) -> on_index i (applications c) = [].
Proof.
  intros O N. apply filter_nil_iff. intros a A. apply in_flat_map in A as (j & J & A). destruct (mem (TQ i) (snd (fst a))) eqn:M; [|reflexivity]. exfalso. apply N.
  apply mem_In in M. unfold only in O. rewrite Forall_forall in O. specialize (O j J). rewrite Forall_forall in O. apply O. eapply uses_targets; eauto.
Qed.
Lemma block_away b m m' c q i : wf_inds (inds m) -> dget q (inds m) = Some i -> ~ In q (operands b) -> run_block b m = (m', Ok c) ->
  on_index i (applications c) = [].
Proof.
  intros W D N H. eapply only_away; [eapply block_only; exact H|]. intros (q' & i' & E & Q & D'). injection E as <-.
  now rewrite (inj_inds _ _ _ _ W D D') in N.
Qed.
Lemma block_plain b m m' c : run_block b m = (m', Ok c) -> ~ In CTick b -> ~ In TICK (names c).
Proof.
  revert m m' c. induction b as [|x b IH]; intros m m' c H N; cbn in H.
  - apply sret_ok in H as [-> <-]. intros [].
  - apply sbind_ok in H as (m1 & c1 & H1 & H). apply sbind_ok in H as (m2 & c2 & H2 & H). apply sret_ok in H as [-> <-].
    rewrite names_app. intros I. apply in_app_or in I as [I|I]; [|revert I; eapply IH; eauto; intros K; apply N; now right].
    destruct x as [o qs|]; [|apply N; now left]. cbn in H1. apply apply_char in H1 as (_ & js & (_ & G & _) & _).
    unfold names in I. apply in_map_iff in I as (j & E & J). rewrite Forall_forall in G. destruct (G j J) as [_ A]. rewrite E in A. discriminate A.
Qed.
Lemma on_app i a b : on_index i (a ++ b) = on_index i a ++ on_index i b.
Proof. apply filter_app. Qed.
Lemma append_uses c i : even_targets c -> even_targets [i] -> applications (append c i) = applications c ++ uses i /\ even_targets (append c i).
Proof. intros A B. destruct (cat_uses true c [i] A B) as [U E]. cbn in U. rewrite app_nil_r in U. split; [exact U|exact E]. Qed.

(** * Steps *)
Lemma split_combine {A B C} (g : A * B -> C) : forall l1 (bs : list A) (rs : list B) x l2, length bs = length rs ->
  map g (combine bs rs) = l1 ++ x :: l2 -> exists b1 b0 b2 r1 r0 r2, bs = b1 ++ b0 :: b2 /\ rs = r1 ++ r0 :: r2 /\ x = g (b0, r0) /\
    l1 = map g (combine b1 r1) /\ l2 = map g (combine b2 r2) /\ length b1 = length r1 /\ length b2 = length r2.
Proof.
  induction l1 as [|y l1 IH]; intros [|b bs] [|r rs] x l2 L E; try discriminate.
  - injection E as E1 E2. injection L as L. exists [], b, bs, [], r, rs. repeat split; auto.
  - injection E as E1 E2. injection L as L. destruct (IH bs rs x l2 L E2) as (b1 & b0 & b2 & r1 & r0 & r2 & -> & -> & -> & -> & -> & L1 & L2).
    exists (b :: b1), b0, b2, (r :: r1), r0, r2. cbn. repeat split; congruence.
Qed.
Lemma step_uses fuse m b1 b0 b2 m' raw c acc q i : wf_inds (inds m) -> dget q (inds m) = Some i -> ran m (b1 ++ b0 :: b2) m' raw ->
  step_kind (b1 ++ b0 :: b2) -> (forall b, In b (b1 ++ b2) -> ~ In q (operands b)) -> even_targets acc ->
  merge_tick_blocks fuse (map (cat fuse []) raw) = Ok c ->
  even_targets (add_step fuse acc c) /\ exists x0 m1 m2, same_model m m1 /\ run_block b0 m1 = (m2, Ok x0) /\
    on_index i (applications (add_step fuse acc c)) = on_index i (applications acc) ++ on_index i (applications x0).
Proof.
  intros W D R K N Ea H. pose proof (ran_each _ _ _ _ R) as E. apply Forall2_app_inv_l in E as (raw1 & raw' & E1 & E' & ->).
  inversion E' as [|? x0 ? raw2 E0 E2]; subst. destruct E0 as (m1 & m2 & S0 & H0).
  assert (Al : forall bs rs, Forall2 (fun b c => exists m1 m2, same_model m m1 /\ run_block b m1 = (m2, Ok c)) bs rs ->
               forall x, In x rs -> exists b m1 m2, In b bs /\ same_model m m1 /\ run_block b m1 = (m2, Ok x)).
  { clear. intros bs rs. induction 1 as [|b x bs raw (m1 & m2 & S & B) E IH]; intros y []; [subst; exists b, m1, m2; repeat split; try apply S; [now left|exact B]|].
    destruct (IH y H) as (b' & a & d & I & J). exists b', a, d. split; [now right|exact J]. }
  assert (A : forall x, In x (raw1 ++ x0 :: raw2) -> exists b m1 m2, In b (b1 ++ b0 :: b2) /\ same_model m m1 /\ run_block b m1 = (m2, Ok x)).
  { apply Al. apply Forall2_app; [exact E1|]. constructor; eauto. }
  assert (Ev : forall x, In x (raw1 ++ x0 :: raw2) -> even_targets x /\ applications (cat fuse [] x) = applications x /\ even_targets (cat fuse [] x)).
  { intros x X. destruct (A x X) as (b & n1 & n2 & _ & _ & B). apply block_even in B. destruct (cat_uses fuse [] x ltac:(constructor) B). auto. }
  assert (Z : forall x, In x (raw1 ++ raw2) -> on_index i (applications (cat fuse [] x)) = []).
  { intros x X. assert (X' : In x (raw1 ++ x0 :: raw2)) by (apply in_app_or in X as [X|X]; apply in_or_app; [now left|right; now right]).
    destruct (Ev x X') as (_ & -> & _). assert (exists b n1 n2, In b (b1 ++ b2) /\ same_model m n1 /\ run_block b n1 = (n2, Ok x)) as (b & n1 & n2 & B & S & B2).
    { apply in_app_or in X as [X|X]; [destruct (Al _ _ E1 x X) as (b & n1 & n2 & B & J)|destruct (Al _ _ E2 x X) as (b & n1 & n2 & B & J)];
      exists b, n1, n2; (split; [apply in_or_app; auto|exact J]). }
    destruct S as (_ & _ & S). eapply (block_away b n1); eauto; rewrite <- ?S; auto. }
  assert (Eb : Forall even_targets (map (cat fuse []) (raw1 ++ x0 :: raw2))).
  { apply Forall_map, Forall_forall. intros x X. now apply Ev. }
  destruct (merge_tick_uses fuse _ _ Eb H) as (Ec & _ & F).
  assert (Fc : on_index i (applications c) = on_index i (applications x0)).
  { unfold on_index in *. rewrite (F _ (map (cat fuse []) raw1) (cat fuse [] x0) (map (cat fuse []) raw2)).
    - f_equal. apply Ev. apply in_elt.
    - now rewrite map_app.
    - intros b' B'. rewrite <- map_app in B'. apply in_map_iff in B' as (x & <- & X). now apply Z. }
  assert (G : even_targets (cat fuse acc c) /\ on_index i (applications (cat fuse acc c)) = on_index i (applications acc) ++ on_index i (applications x0)).
  { destruct (cat_uses fuse acc c Ea Ec) as [U1 U2]. split; [exact U2|]. now rewrite U1, on_app, Fc. }
  assert (R0 : forall P, P (cat fuse acc c) -> (forall j r, c = j :: r -> nm j = TICK -> P (append acc j)) -> P (add_step fuse acc c)).
  { clear. intros P P1 P2. destruct c as [|j r]; [exact P1|]. cbn [add_step]. destruct (eqb_spec (nm j) TICK) as [E|]; [now apply (P2 j r)|exact P1]. }
  assert (Tk : forall j r, c = j :: r -> nm j = TICK -> even_targets (append acc j) /\
     on_index i (applications (append acc j)) = on_index i (applications acc) ++ on_index i (applications x0)).
  { intros j r -> Ej. destruct (merge_tick_names fuse _ _ TICK H ltac:(left; exact Ej)) as (x & X & G'). apply in_map_iff in X as (y & <- & Y).
    apply cat_names in G' as [[]|G']. assert (b0 = [CTick]) as ->.
    { destruct (A y Y) as (b & n1 & n2 & B & _ & B2). destruct K as [K|[K|K]]; [apply K, in_elt| |]; exfalso; revert G'; eapply block_plain; eauto; intros I.
      - specialize (K b B). unfold quiet_calls in K. rewrite Forall_forall in K. exact (K _ I).
      - destruct (K b B) as (u & v & ->). destruct I as [I|[I|[]]]; discriminate I. }
    cbn in H0. injection H0 as <- <-. inversion Ec as [|? ? Ej' _]; subst.
    destruct (append_uses acc j Ea ltac:(constructor; [exact Ej'|constructor])) as [U1 U2]. split; [exact U2|]. rewrite U1, on_app.
    f_equal. cbn. cbn [applications flat_map] in Fc. rewrite on_app in Fc. cbn in Fc. now apply app_eq_nil in Fc. }
  split; [apply R0; [apply G|intros j r E Ej; now apply (Tk j r)]|].
  exists x0, m1, m2. split; [exact S0|]. split; [exact H0|]. apply R0; [apply G|intros j r E Ej; now apply (Tk j r)].
Qed.

(** * The loop *)
Lemma zip_loop_uses fuse n : forall l1 it0 l2 acc m m' c q i m0 m0' own, wf_inds (inds m) -> dget q (inds m) = Some i ->
  lockstep (l1 ++ it0 :: l2) -> (length it0 <= n)%nat ->
  (forall it b, In it (l1 ++ l2) -> In (Ok b) it -> ~ In q (operands b)) -> even_targets acc -> same_model m m0 ->
  run_blocks it0 m0 = (m0', Ok own) -> zip_loop fuse n (l1 ++ it0 :: l2) acc m = (m', Ok c) ->
  even_targets c /\ on_index i (applications c) = on_index i (applications acc) ++ on_index i (applications own).
Proof.
  induction n as [|n IH]; intros l1 it0 l2 acc m m' c q i m0 m0' own W D K L N Ea S R H; cbn [zip_loop] in H.
  - apply sret_ok in H as [-> <-]. destruct it0; [|cbn in L; lia]. cbn in R. apply sret_ok in R as [_ <-]. split; [exact Ea|]. now rewrite app_nil_r.
  - apply sbind_ok in H as (m1 & x & Hz & H). apply zip_next_inv in Hz as (bs & raw & m1' & Rn & Dx). destruct x as [[cs rs]|].
    + destruct Dx as (-> & -> & E & Lb). pose proof K as K0. rewrite E in K. apply lockstep_next in K as [K K']; [|exact Lb]. symmetry in E.
      apply split_combine in E as (b1 & b0 & b2 & r1 & r0 & r2 & -> & -> & -> & -> & -> & L1 & L2); [|exact Lb]. cbn [fst snd] in *.
      apply sbind_ok in H as (m2 & st & Hm & H). unfold slift in Hm. injection Hm as <- Hm.
      assert (Mem : forall b r, (In b b1 \/ In b b2 -> exists r, In (Ok b :: r) (map (fun p => Ok (fst p) :: snd p) (combine b1 r1) ++ map (fun p => Ok (fst p) :: snd p) (combine b2 r2))) /\
                              (In r r1 \/ In r r2 -> exists b, In (Ok b :: r) (map (fun p => Ok (fst p) :: snd p) (combine b1 r1) ++ map (fun p => Ok (fst p) :: snd p) (combine b2 r2)))).
      { assert (M1 : forall (bs : list block) (rs : list blocks), length bs = length rs -> forall b, In b bs -> exists r, In (Ok b :: r) (map (fun p => Ok (fst p) :: snd p) (combine bs rs))).
        { clear. induction bs as [|b bs IH]; intros [|r rs] L x Hx; try discriminate L; cbn in Hx; try contradiction; destruct Hx as [<-|Hx].
          - exists r. now left.
          - injection L as L. destruct (IH rs L x Hx) as (r' & I). exists r'. now right. }
        assert (M2 : forall (bs : list block) (rs : list blocks), length bs = length rs -> forall r, In r rs -> exists b, In (Ok b :: r) (map (fun p => Ok (fst p) :: snd p) (combine bs rs))).
        { clear. induction bs as [|b bs IH]; intros [|r rs] L x Hx; try discriminate L; cbn in Hx; try contradiction; destruct Hx as [<-|Hx].
          - exists b. now left.
          - injection L as L. destruct (IH rs L x Hx) as (r' & I). exists r'. now right. }
        intros b r. split; intros [I|I].
        - destruct (M1 _ _ L1 b I) as (r' & J). exists r'. apply in_or_app. now left.
        - destruct (M1 _ _ L2 b I) as (r' & J). exists r'. apply in_or_app. now right.
        - destruct (M2 _ _ L1 r I) as (r' & J). exists r'. apply in_or_app. now left.
        - destruct (M2 _ _ L2 r I) as (r' & J). exists r'. apply in_or_app. now right. }
      destruct (step_uses fuse m b1 b0 b2 m1 raw st acc q i W D Rn K) as (Es & x0 & n1 & n2 & S1 & H1 & U); [|exact Ea|exact Hm|].
      { intros b B. apply in_app_or in B. destruct (proj1 (Mem b []) B) as (r & I). exact (N _ b I (or_introl eq_refl)). }
      destruct (ran_inv _ _ _ _ Rn) as [S' _]. pose proof S' as (_ & _ & E3).
      cbn in R.
      apply sbind_ok in R as (k1 & y & Ry & R). apply sbind_ok in R as (k2 & z & Rz & R). apply sret_ok in R as [_ <-].
      destruct (respects_block b0 _ _ _ _ _ _ (same_trans _ _ _ (same_sym _ _ S1) S) H1 Ry) as [-> S2].
      pose proof (block_static _ _ _ _ Ry) as S3.
      destruct (IH r1 r0 r2 (add_step fuse acc st) m1 m' c q i k1 k2 z) as [Ec Uc]; auto.
      * now rewrite <- E3.
      * now rewrite <- E3.
      * cbn in L. lia.
      * intros it b I B. apply in_app_or in I. destruct (proj2 (Mem [] it) I) as (b' & J). exact (N _ b J (or_intror B)).
      * eapply same_trans; [apply same_sym, S'|]. eapply same_trans; [exact S|exact S3].
      * split; [exact Ec|]. rewrite Uc, U. unfold applications. now rewrite flat_map_app, on_app, app_assoc.
    + destruct Dx as (-> & pre & rest & E & F). apply sret_ok in H as [-> <-]. destruct K as (k & Ln & _).
      assert (it0 = []) as ->.
      { assert (k = 0)%nat as ->. { rewrite E in Ln. apply Forall_app in Ln as [_ Ln]. apply Forall_inv in Ln. now rewrite <- Ln. }
        apply Forall_app in Ln as [_ Ln]. apply Forall_inv in Ln. now destruct it0. }
      cbn in R. apply sret_ok in R as [_ <-]. split; [exact Ea|]. now rewrite app_nil_r.
Qed.
Lemma merged_uses fuse l1 it0 l2 m m' c q i m0' own : wf_inds (inds m) -> dget q (inds m) = Some i -> lockstep (l1 ++ it0 :: l2) ->
  (forall it b, In it (l1 ++ l2) -> In (Ok b) it -> ~ In q (operands b)) -> run_blocks it0 m = (m0', Ok own) ->
  merged_blocks fuse (l1 ++ it0 :: l2) m = (m', Ok c) -> even_targets c /\ on_index i (applications c) = on_index i (applications own).
Proof.
  intros W D K N R H. unfold merged_blocks in H. destruct (l1 ++ it0 :: l2) as [|f rest] eqn:E; [now destruct l1|]. rewrite <- E in *.
  assert (L : (length it0 <= S (length f))%nat).
  { destruct K as (k & Ln & _). rewrite Forall_forall in Ln. rewrite (Ln it0) by apply in_elt. rewrite (Ln f); [lia|]. rewrite E. now left. }
  exact (zip_loop_uses fuse _ l1 it0 l2 [] m m' c q i m m0' own W D K L N ltac:(constructor) (same_refl m) R H).
Qed.

(** * C64 *)
Lemma records_only d g ancs t dets c : (forall q k x, g q k = Ok x -> exists z, x = TR z) -> mapM (det_instr d g ancs t) dets = Ok c ->
  only (fun t => exists z, t = TR z) c.
Proof.
  intros G. revert c. induction dets as [|x dets IH]; intros c H; [injection H as <-; constructor|]. cbn [mapM] in H.
  apply bind_ok in H as (i & Hi & H). apply bind_ok in H as (r & Hr & H). injection H as <-. constructor; [|now apply IH].
  unfold det_instr in Hi. apply bind_ok in Hi as (recs & Hr' & Hi). apply bind_ok in Hi as (cs & _ & Hi). apply mk_ok in Hi as [-> _]. cbn [tg].
  destruct (mem (fst x) ancs); [|injection Hr' as <-; constructor]. apply mapM_Forall2 in Hr'. clear - G Hr'. induction Hr'; constructor; eauto.
Qed.
Lemma target_record m q k x : meas_target m q k = Ok x -> exists z, x = TR z.
Proof.
  unfold meas_target. intros H. apply bind_ok in H as (l & _ & H). destruct (_ || _); [discriminate|]. apply bind_ok in H as (a & _ & H). injection H as <-. eauto.
Qed.
Lemma anc_only m reset req d d' c : build_from_anc (meas_target m) reset req d = (d', Ok c) -> only (fun t => exists z, t = TR z) c.
Proof.
  intros H. apply DetP.build_from_anc_inv in H as [[_ (e & E)]|(ancs & nr & _ & _ & [[_ (e & E)]|(dets & c' & _ & M & _ & E)])]; try discriminate.
  injection E as ->. apply only_appends; [constructor|]. eapply records_only; [apply target_record|exact M].
Qed.
Lemma data_only m sup reset recon req d d' c : build_from_data (meas_target m) sup reset recon req d = (d', Ok c) -> only (fun t => exists z, t = TR z) c.
Proof.
  unfold build_from_data. destruct (strict_superset _ _); [discriminate|]. intros H.
  apply sbind_ok in H as (d1 & x1 & _ & H). apply sbind_ok in H as (d2 & x2 & _ & H). apply sbind_ok in H as (d3 & x3 & _ & H).
  apply sbind_ok in H as (d4 & x4 & _ & H). apply sbind_ok in H as (d5 & x5 & H5 & H). apply sbind_ok in H as (d6 & x6 & _ & H). injection H as <- <-.
  unfold sread in H5. injection H5 as <- H5. apply only_appends; [constructor|]. eapply records_only; [apply target_record|exact H5].
Qed.
Lemma observables_only lrs m os : all_observables lrs m = Ok os -> only (fun t => exists z, t = TR z) os.
Proof.
  unfold all_observables. intros H. apply bind_ok in H as (l & H & E). injection E as <-. apply mapM_Forall2 in H. unfold only.
  induction H as [|[k [l0 rb]] o lrs' os' H _ IH]; [constructor|]. cbn. apply Forall_app. split; [|exact IH]. cbn in H. apply mapM_Forall2 in H.
  clear - H. induction H as [|x y l l' H _ IH]; constructor; [|exact IH].
  apply bind_ok in H as (qs & _ & H). apply bind_ok in H as (ts & Ht & H). injection H as <-. cbn. apply mapM_Forall2 in Ht. clear - Ht.
  induction Ht; constructor; eauto using target_record.
Qed.
Lemma ann_even c : annotations c -> even_targets c.
Proof. apply Forall_impl. intros i A T. destruct (nm i); discriminate. Qed.
Lemma record_away c i : only (fun t => exists z, t = TR z) c -> on_index i (applications c) = [].
Proof. intros O. eapply only_away; [exact O|]. intros [z E]. discriminate. Qed.
Lemma enumerate_split {A} (l1 l2 : list A) x : forall n, enumerate_from n (l1 ++ x :: l2) = enumerate_from n l1 ++ ((n + length l1)%nat, x) :: enumerate_from (S (n + length l1)) l2.
Proof.
  induction l1 as [|y l1 IH]; intros n; cbn [app enumerate_from length]; [now rewrite Nat.add_0_r|]. rewrite IH. cbn [app].
  now replace (S n + length l1)%nat with (n + S (length l1))%nat by lia.
Qed.
Lemma enumerate_In {A} (l : list A) j y : forall n, In (j, y) (enumerate_from n l) -> (n <= j < n + length l)%nat /\ nth_error l (j - n) = Some y.
Proof.
  induction l as [|x l IH]; intros n H; [destruct H|]. cbn in H. destruct H as [H|H].
  - injection H as <- <-. rewrite Nat.sub_diag. cbn. split; [lia|reflexivity].
  - apply IH in H as [L H]. cbn. split; [lia|]. replace (j - n)%nat with (S (j - S n)) by lia. exact H.
Qed.
Lemma positions_split {A B} (F : nat * A -> B) (l : list A) k x : nth_error l k = Some x -> exists l1 l2, map F (enumerate l) = l1 ++ F (k, x) :: l2 /\
  forall y, In y (l1 ++ l2) -> exists k' x', nth_error l k' = Some x' /\ k' <> k /\ y = F (k', x').
Proof.
  intros H. apply nth_error_split in H as (p & s & -> & <-). unfold enumerate. rewrite enumerate_split, map_app. cbn [map].
  eexists _, _. split; [reflexivity|]. intros y Y. apply in_app_or in Y as [Y|Y]; apply in_map_iff in Y as ([j z] & <- & Y); apply enumerate_In in Y as [L N].
  - exists j, z. split; [|split; [lia|reflexivity]]. rewrite nth_error_app1 by lia. now rewrite Nat.sub_0_r in N.
  - exists j, z. split; [|split; [lia|reflexivity]]. rewrite nth_error_app2 by lia. destruct (j - length p)%nat as [|d] eqn:E; [lia|]. cbn.
    replace (j - S (0 + length p))%nat with d in N by lia. exact N.
Qed.
Lemma C64_round fuse it ls reset dets w w' c k l q i m2 own : wf_inds (inds (fst w)) -> dget q (inds (fst w)) = Some i ->
  lockstep (map (fun kl => it (fst kl) (snd kl) reset) (enumerate ls)) -> nth_error ls k = Some l ->
  (forall k' l' b, nth_error ls k' = Some l' -> k' <> k -> In (Ok b) (it k' l' reset) -> ~ In q (operands b)) ->
  run_blocks (it k l reset) (fst w) = (m2, Ok own) -> merge_qec_rounds fuse it ls reset dets w = (w', Ok c) ->
  on_index i (applications c) = on_index i (applications own).
Proof.
  intros W D K Nk Ot R H. destruct (positions_split (fun kl => it (fst kl) (snd kl) reset) ls k l Nk) as (l1 & l2 & E & O).
  rewrite E in K. unfold merge_qec_rounds in H. apply sbind_ok in H as (w1 & ok & H1 & H). unfold slift in H1. injection H1 as <- _.
  destruct (negb ok); [discriminate|]. apply sbind_ok in H as (w2 & c1 & H1 & H). apply onm_ok in H1 as (m1 & H1 & ->).
  apply sbind_ok in H as (w3 & d & H2 & H). apply ond_ok in H2 as (d3 & H2 & ->). apply sret_ok in H as [-> <-]. cbn [fst snd] in *.
  rewrite E in H1. apply (merged_uses fuse l1 _ l2 _ _ _ q i m2 own W D K) in H1; [|intros y b Y B; destruct (O y Y) as (k' & l' & N' & Ne & ->); eapply Ot; eauto|exact R].
  destruct H1 as [Ec U]. destruct (cat_uses fuse c1 d Ec (ann_even _ (build_anc_ann _ _ _ _ _ _ H2))) as [-> _].
  now rewrite on_app, U, (record_away d i (anc_only _ _ _ _ _ _ H2)), app_nil_r.
Qed.
Lemma C64_meas fuse it ls rots reset dets w w' c k l r q i m2 own : wf_inds (inds (fst w)) -> dget q (inds (fst w)) = Some i ->
  lockstep (map (fun klr => it (fst klr) (fst (snd klr)) (snd (snd klr))) (enumerate (combine ls rots))) ->
  nth_error ls k = Some l -> nth_error rots k = Some r ->
  (forall k' l' r' b, nth_error ls k' = Some l' -> nth_error rots k' = Some r' -> k' <> k -> In (Ok b) (it k' l' r') -> ~ In q (operands b)) ->
  run_blocks (it k l r) (fst w) = (m2, Ok own) -> merge_log_meas fuse it ls rots reset dets w = (w', Ok c) ->
  on_index i (applications c) = on_index i (applications own).
Proof.
  intros W D K Nk Nr Ot R H.
  assert (Cn : forall (ls : list layout) (rots : list bool) k x, nth_error (combine ls rots) k = Some x <-> nth_error ls k = Some (fst x) /\ nth_error rots k = Some (snd x)).
  { clear. induction ls as [|l ls IH]; intros [|r rots] [|k] [a b]; cbn; try (split; [discriminate|intros [H1 H2]; discriminate]).
    - split; [intros H; injection H as <- <-; auto|intros [H1 H2]; congruence].
    - apply IH. }
  destruct (positions_split (fun klr => it (fst klr) (fst (snd klr)) (snd (snd klr))) (combine ls rots) k (l, r)) as (l1 & l2 & E & O); [now apply Cn|].
  rewrite E in K. unfold merge_log_meas in H. destruct (negb _); [discriminate|].
  apply sbind_ok in H as (w1 & ok & H1 & H). unfold slift in H1. injection H1 as <- _.
  destruct (negb ok); [discriminate|]. apply sbind_ok in H as (w2 & c1 & H1 & H). apply onm_ok in H1 as (m1 & H1 & ->).
  apply sbind_ok in H as (w4 & [st su] & H3 & H). unfold slift in H3. injection H3 as <- _.
  apply sbind_ok in H as (w3 & d & H2 & H). apply ond_ok in H2 as (d3 & H2 & ->).
  apply sbind_ok in H as (w5 & os & H4 & H). apply onm_ok in H4 as (m5 & H4 & ->). apply sread_ok in H4 as [-> H4].
  apply sret_ok in H as [-> <-]. cbn [fst snd] in *.
  rewrite E in H1. apply (merged_uses fuse l1 _ l2 _ _ _ q i m2 own W D K) in H1.
  2: { intros y b Y B. destruct (O y Y) as (k' & [l' r'] & N' & Ne & ->). apply Cn in N' as [N1 N2]. eapply Ot; eauto. }
  2: exact R.
  destruct H1 as [Ec U]. destruct (cat_uses fuse c1 d Ec (ann_even _ (build_data_ann _ _ _ _ _ _ _ _ H2))) as [U1 E1].
  destruct (cat_uses true _ os E1 (ann_even _ (observables_ann _ _ _ H4))) as [U2 _]. cbn [cat] in U2.
  rewrite U2, U1, !on_app, U, (record_away d i (data_only _ _ _ _ _ _ _ _ H2)), (record_away os i (observables_only _ _ _ H4)). now rewrite !app_nil_r.
Qed.
