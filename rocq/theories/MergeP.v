(** Proofs about merge_circuits. *)
From Coq Require Import QArith Qcanon.
From Verif Require Import Base Lib StimM SetupM NoiseM SpecNoise DetM LayoutM BlockM ExpM SpecTrack SpecExp TrackP SpecMerge MergeM.
Open Scope Z_scope.

(** * Order of names *)
Lemma leb_cases a b : String.leb a b = true \/ String.leb b a = true.
Proof.
  unfold String.leb. rewrite (String.compare_antisym a b). destruct (String.compare b a); simpl; auto.
Qed.
Lemma compare_trans : forall a b c, String.compare a b <> Gt -> String.compare b c <> Gt -> String.compare a c <> Gt.
Proof.
  induction a as [|x a IH]; intros [|y b] [|z c]; simpl; try congruence.
  unfold Ascii.compare.
  destruct (N.compare_spec (Ascii.N_of_ascii x) (Ascii.N_of_ascii y)) as [E1|L1|L1];
  destruct (N.compare_spec (Ascii.N_of_ascii y) (Ascii.N_of_ascii z)) as [E2|L2|L2];
  destruct (N.compare_spec (Ascii.N_of_ascii x) (Ascii.N_of_ascii z)) as [E3|L3|L3]; try congruence; try lia; eauto.
Qed.
Lemma leb_trans a b c : String.leb a b = true -> String.leb b c = true -> String.leb a c = true.
Proof.
  unfold String.leb. intros H1 H2.
  assert (K : String.compare a c <> Gt).
  { apply (compare_trans a b c); [destruct (String.compare a b)|destruct (String.compare b c)]; congruence. }
  destruct (String.compare a c); congruence.
Qed.
Lemma leb_antisym a b : String.leb a b = true -> String.leb b a = true -> a = b.
Proof.
  unfold String.leb. rewrite (String.compare_antisym a b). intros H1 H2.
  symmetry. apply String.compare_eq_iff. destruct (String.compare b a); simpl in *; congruence.
Qed.
Lemma leb_refl a : String.leb a a = true.
Proof. destruct (leb_cases a a); assumption. Qed.

(** * The stable sort *)
Lemma insert_perm i l : Permutation (insert_instr i l) (i :: l).
Proof.
  induction l as [|j r IH]; simpl; [apply Permutation_refl|].
  destruct (name_leb i j); [apply Permutation_refl|]. rewrite IH. constructor.
Qed.
Lemma sort_perm l : Permutation (sort_instrs l) l.
Proof. induction l as [|i r IH]; simpl; [constructor|]. rewrite insert_perm. now constructor. Qed.

Definition ile (i j : instr) : Prop := name_leb i j = true.
Lemma ile_trans i j k : ile i j -> ile j k -> ile i k.
Proof. apply leb_trans. Qed.
Lemma insert_sorted i l : StronglySorted ile l -> StronglySorted ile (insert_instr i l).
Proof.
  induction l as [|j r IH]; intros S; simpl.
  - constructor; constructor.
  - inversion S as [|? ? S' F]; subst. destruct (name_leb i j) eqn:E.
    + constructor; [exact S|]. constructor; [exact E|].
      eapply Forall_impl; [|exact F]. intros k K. exact (ile_trans i j k E K).
    + constructor; [now apply IH|]. eapply Permutation_Forall; [apply Permutation_sym, insert_perm|].
      constructor; [|exact F]. unfold ile, name_leb in *. destruct (leb_cases (gname_str (nm i)) (gname_str (nm j))); congruence.
Qed.
Lemma sort_sorted l : StronglySorted ile (sort_instrs l).
Proof. induction l; simpl; [constructor|now apply insert_sorted]. Qed.
(* insertion of an element that is not above the others puts it first *)
Lemma insert_first i l : Forall (ile i) l -> insert_instr i l = i :: l.
Proof. intros F. destruct l as [|j r]; [reflexivity|]. simpl. inversion F; subst. unfold ile in *. now rewrite H1. Qed.
(* filtering commutes with the sort *)
Lemma insert_filter f i l : StronglySorted ile l ->
  filter f (insert_instr i l) = if f i then insert_instr i (filter f l) else filter f l.
Proof.
  induction l as [|j r IH]; intros S; simpl.
  - destruct (f i); reflexivity.
  - inversion S as [|? ? S' F]; subst. destruct (name_leb i j) eqn:E; simpl.
    + destruct (f i) eqn:Fi; [|reflexivity]. symmetry.
      assert (K : Forall (ile i) (filter f (j :: r))).
      { apply Forall_forall. intros k K. apply filter_In in K. destruct K as [[<-|K] _]; [exact E|].
        rewrite Forall_forall in F. exact (ile_trans i j k E (F k K)). }
      simpl in K. now rewrite insert_first.
    + rewrite IH by assumption. destruct (f i), (f j); simpl; rewrite ?E; reflexivity.
Qed.
Lemma sort_filter f l : filter f (sort_instrs l) = sort_instrs (filter f l).
Proof.
  induction l as [|i r IH]; simpl; [reflexivity|].
  rewrite insert_filter by apply sort_sorted. rewrite IH. destruct (f i); reflexivity.
Qed.
Lemma sort_fixed l : StronglySorted ile l -> sort_instrs l = l.
Proof.
  induction l as [|i r IH]; intros S; [reflexivity|]. inversion S; subst. simpl. rewrite IH by assumption. now apply insert_first.
Qed.

(** * Blocks *)
Lemma numbered_at c : forall j k, map snd (filter (fun ki => Nat.eqb (fst ki) (j + k)) (numbered j c)) = at_tick k c.
Proof.
  induction c as [|i r IH]; intros j k; [reflexivity|]. simpl. destruct (eqb_spec (nm i) TICK).
  - destruct k as [|k].
    + clear. assert (H : forall m, (j < m)%nat -> filter (fun ki => Nat.eqb (fst ki) (j + 0)) (numbered m r) = []).
      { induction r as [|x r IH]; intros m L; [reflexivity|]. simpl. destruct (eqb (nm x) TICK); [apply IH; lia|].
        simpl. destruct (Nat.eqb_spec m (j + 0)); [lia|]. now apply IH. }
      now rewrite H by lia.
    + rewrite <- (IH (S j) k). now rewrite Nat.add_succ_r.
  - destruct k as [|k]; simpl.
    + rewrite Nat.add_0_r, Nat.eqb_refl. simpl. f_equal. rewrite <- (IH j 0%nat). now rewrite Nat.add_0_r.
    + destruct (Nat.eqb_spec j (j + S k)); [lia|]. apply IH.
Qed.
Lemma block_number_at cs k : block_number cs k = flat_map (at_tick k) cs.
Proof.
  unfold block_number. induction cs as [|c cs IH]; simpl; [reflexivity|].
  rewrite filter_app, map_app, IH, <- (numbered_at c 0 k). reflexivity.
Qed.
Lemma at_tick_nt c k : Forall (fun i => nm i <> TICK) (at_tick k c).
Proof.
  revert k; induction c as [|i r IH]; intros k; simpl; [constructor|].
  destruct (eqb_spec (nm i) TICK); destruct k; try constructor; auto.
Qed.
Lemma meas_blocks_In c k : In k (meas_blocks c) <-> measures_at c k.
Proof.
  unfold meas_blocks. rewrite dedup_In, in_map_iff. unfold measures_at. rewrite <- (numbered_at c 0 k). split.
  - intros ((j & i) & <- & H). apply filter_In in H. destruct H as [H M]. simpl in *. exists i. split; [|exact M].
    apply in_map_iff. exists (j, i). split; [reflexivity|]. apply filter_In. split; [exact H|]. simpl. apply Nat.eqb_refl.
  - intros (i & H & M). apply in_map_iff in H. destruct H as ((j & i') & <- & H). apply filter_In in H. destruct H as [H E].
    simpl in *. apply Nat.eqb_eq in E. subst j. exists (k, i'). split; [reflexivity|]. apply filter_In. split; assumption.
Qed.

(* reading the blocks of a joined circuit *)
Lemma at_tick_app_nt c d k : Forall (fun i => nm i <> TICK) c ->
  at_tick k (c ++ d) = match k with O => c ++ at_tick O d | S _ => at_tick k d end.
Proof.
  induction c as [|i r IH]; intros F; simpl; [now destruct k|]. inversion F; subst.
  destruct (eqb_spec (nm i) TICK); [contradiction|]. destruct k; rewrite IH by assumption; reflexivity.
Qed.
Lemma at_tick_nil k c : Forall (fun i => nm i <> TICK) c -> at_tick k c = match k with O => c | S _ => [] end.
Proof. intros F. rewrite <- (app_nil_r c) at 1. rewrite at_tick_app_nt by exact F. destruct k; [apply app_nil_r|reflexivity]. Qed.
Lemma join_at bs : Forall (Forall (fun i => nm i <> TICK)) bs -> forall k, at_tick k (join_ticks bs) = nth k bs [].
Proof.
  induction 1 as [|b r F Fr IH]; intros k; [now destruct k|]. destruct r as [|b' r].
  - simpl join_ticks. rewrite at_tick_nil by exact F. now destruct k as [|[|k]].
  - change (join_ticks (b :: b' :: r)) with (b ++ tick ++ join_ticks (b' :: r)). rewrite at_tick_app_nt by exact F.
    destruct k as [|k]; [simpl; apply app_nil_r|]. simpl. apply (IH k).
Qed.
Lemma number_app g a b : number g (a ++ b) = (number g a + number g b)%nat.
Proof. unfold number. rewrite filter_app, app_length. reflexivity. Qed.
Lemma number_nt c : Forall (fun i => nm i <> TICK) c -> number TICK c = 0%nat.
Proof.
  unfold number. induction 1 as [|i r F _ IH]; [reflexivity|]. simpl. destruct (eqb_spec (nm i) TICK); [contradiction|exact IH].
Qed.
Lemma join_ticks_number bs : Forall (Forall (fun i => nm i <> TICK)) bs -> number TICK (join_ticks bs) = pred (length bs).
Proof.
  induction 1 as [|b r F Fr IH]; [reflexivity|]. destruct r as [|b' r].
  - simpl. now apply number_nt.
  - change (join_ticks (b :: b' :: r)) with (b ++ tick ++ join_ticks (b' :: r)). rewrite !number_app, IH, (number_nt b F). reflexivity.
Qed.

(** * Applications *)
Lemma pairs_of_app {A} (l1 l2 : list A) : Nat.even (length l1) = true -> pairs_of (l1 ++ l2) = pairs_of l1 ++ pairs_of l2.
Proof.
  revert l1 l2. fix IH 1. intros [|a [|b r]] l2; simpl; intros E; try reflexivity; try discriminate. now rewrite IH.
Qed.
Lemma uses_fuse i j : nm i = nm j -> ar i = ar j -> not_fusable (nm i) = false ->
  (is_two (nm j) = true -> Nat.even (length (tg j)) = true) ->
  uses (Instr (nm j) (tg j ++ tg i) (ar j)) = uses j ++ uses i.
Proof.
  intros E1 E2 Nf Ev. unfold uses. cbn [nm tg ar]. rewrite E1, E2, <- map_app. rewrite E1 in Nf. rewrite Nf.
  destruct (is_two (nm j)); [now rewrite pairs_of_app by auto|now rewrite map_app].
Qed.
Lemma append_uses c i : even_targets c -> (is_two (nm i) = true -> Nat.even (length (tg i)) = true) ->
  applications (append c i) = applications c ++ uses i /\ even_targets (append c i).
Proof.
  unfold applications, even_targets. intros F Ev. induction F as [|j r Fj F IH]; simpl.
  - split; [apply app_nil_r|]. constructor; [exact Ev|constructor].
  - destruct r as [|j' r].
    + destruct (eqb_spec (nm i) (nm j)) as [E1|]; simpl; [|split; [now rewrite !app_nil_r|repeat constructor; auto]].
      destruct (eqb_spec (ar i) (ar j)) as [E2|]; simpl; [|split; [now rewrite !app_nil_r|repeat constructor; auto]].
      destruct (not_fusable (nm i)) eqn:Nf; simpl; [split; [now rewrite !app_nil_r|repeat constructor; auto]|].
      rewrite app_nil_r, (uses_fuse i j) by assumption. split; [now rewrite app_nil_r|].
      constructor; [|constructor]. cbn [nm tg]. intros T. rewrite app_length, Nat.even_add, (Fj T), Ev by congruence. reflexivity.
    + destruct IH as [IH1 IH2]. split; [|constructor; assumption].
      etransitivity; [exact (f_equal (app (uses j)) IH1)|]. now rewrite !app_assoc.
Qed.
Lemma appends_uses l : forall c, even_targets c -> even_targets l ->
  applications (appends c l) = applications c ++ applications l /\ even_targets (appends c l).
Proof.
  unfold appends. induction l as [|i r IH]; intros c Fc Fl; simpl; [now rewrite app_nil_r|].
  inversion Fl as [|? ? Fi Fr]; subst. destruct (append_uses c i Fc Fi) as [H1 H2]. destruct (IH _ H2 Fr) as [H3 H4].
  split; [|exact H4]. rewrite H3, H1. unfold applications. simpl. now rewrite app_assoc.
Qed.
Lemma append_nt c i : Forall (fun i => nm i <> TICK) c -> nm i <> TICK -> Forall (fun i => nm i <> TICK) (append c i).
Proof.
  intros F Ni. induction F as [|j r Fj F IH]; simpl; [repeat constructor; exact Ni|]. destruct r.
  - destruct (_ && _); repeat constructor; auto.
  - constructor; assumption.
Qed.
Lemma appends_nt l : forall c, Forall (fun i => nm i <> TICK) c -> Forall (fun i => nm i <> TICK) l -> Forall (fun i => nm i <> TICK) (appends c l).
Proof. unfold appends. induction l as [|i r IH]; intros c Fc Fl; simpl; [exact Fc|]. inversion Fl; subst. apply IH; [now apply append_nt|assumption]. Qed.
Lemma parse_nt show b : Forall (fun i => nm i <> TICK) b -> Forall (fun i => nm i <> TICK) (parse_block show b).
Proof. intros F. apply appends_nt; [constructor|]. apply Forall_map. exact F. Qed.
Lemma reparse_uses show i : uses (reparse show i) = map (printed show) (uses i).
Proof. unfold uses, reparse, printed. cbn [nm tg ar]. rewrite map_map. reflexivity. Qed.
Lemma parse_uses show b : even_targets b -> applications (parse_block show b) = map (printed show) (applications b).
Proof.
  intros F. unfold parse_block.
  destruct (appends_uses (map (reparse show) b) []) as [H _]; [constructor|unfold even_targets; apply Forall_map; exact F|].
  rewrite H. simpl. unfold applications. clear. induction b as [|i r IH]; simpl; [reflexivity|]. now rewrite reparse_uses, IH, map_app.
Qed.
Lemma applications_perm a b : Permutation a b -> Permutation (applications a) (applications b).
Proof. intros P. unfold applications. now apply Permutation_flat_map. Qed.
Lemma applications_flat k cs : applications (flat_map (at_tick k) cs) = flat_map (fun c => applications (at_tick k c)) cs.
Proof. unfold applications. induction cs; simpl; [reflexivity|]. now rewrite flat_map_app, IHcs. Qed.
Lemma even_at c k : even_targets c -> even_targets (at_tick k c).
Proof.
  unfold even_targets. intros F. revert k. induction F; intros k; simpl; [constructor|].
  destruct (eqb (nm x) TICK); destruct k; auto. 
Qed.
Lemma even_flat k cs : Forall even_targets cs -> even_targets (flat_map (at_tick k) cs).
Proof. intros F. unfold even_targets. apply Forall_flat_map. eapply Forall_impl; [|exact F]. intros c. apply even_at. Qed.

Lemma flat_map_nil' {A B} (f : A -> list B) l : (forall x, In x l -> f x = []) -> flat_map f l = [].
Proof. induction l as [|x l IH]; intros K; simpl; [reflexivity|]. rewrite K by now left. apply IH. intros y Hy. apply K. now right. Qed.

(** * merge_circuits *)
Lemma dedup_single {A} `{Eqb A} (l : list A) x : dedup l = [x] <-> l <> [] /\ forall y, In y l -> y = x.
Proof.
  split.
  - intros E. split; [intros ->; discriminate|]. intros y Hy. rewrite <- dedup_In, E in Hy. destruct Hy as [<-|[]]; reflexivity.
  - intros [N K]. pose proof (dedup_NoDup l) as D. destruct (dedup l) as [|a [|b r]] eqn:E.
    + destruct l as [|y l]; [contradiction|]. assert (Hy : In y (dedup (y :: l))) by (apply dedup_In; now left). rewrite E in Hy. destruct Hy.
    + f_equal. apply K. apply dedup_In. rewrite E. now left.
    + exfalso. inversion D as [|? ? D1 _]; subst. apply D1. left.
      rewrite (K a), (K b); [reflexivity| |]; apply dedup_In; rewrite E; simpl; auto.
Qed.
Lemma many_iff (l : list nat) : NoDup l -> Nat.ltb 1 (length l) = true <-> exists a b, In a l /\ In b l /\ a <> b.
Proof.
  intros D. rewrite Nat.ltb_lt. split.
  - destruct l as [|a [|b r]]; simpl; try lia. intros _. exists a, b. inversion D as [|? ? D1 _]; subst. simpl in *. intuition congruence.
  - intros (a & b & Ha & Hb & N). destruct l as [|x [|y r]]; simpl in *; try lia; try contradiction.
Qed.
Lemma no_shift_test cs : no_shift cs -> existsb (fun c => existsb (fun i => eqb (nm i) SHIFT_COORDS) c) cs = false.
Proof.
  intros F. apply not_true_is_false. intros E. apply existsb_exists in E. destruct E as (c & Hc & E). apply existsb_exists in E.
  destruct E as (i & Hi & E). destruct (eqb_spec (nm i) SHIFT_COORDS); [|discriminate]. unfold no_shift in F. rewrite Forall_forall in F.
  specialize (F c Hc). rewrite Forall_forall in F. now apply (F i Hi).
Qed.

Lemma merge_inv show check cs c : merge_circuits show check cs = Ok c ->
  exists n, cs <> [] /\ (forall c', In c' cs -> number TICK c' = n) /\
    c = join_ticks (map (fun k => parse_block show (sort_instrs (flat_map (at_tick k) cs))) (seq 0 (S n))).
Proof.
  unfold merge_circuits. destruct (existsb (fun c => existsb _ c) cs); [discriminate|]. destruct (dedup (map ticks cs)) as [|n [|m r]] eqn:E; try discriminate.
  apply dedup_single in E. destruct E as [N K].
  destruct (check && _); [discriminate|]. destruct (check && _); [discriminate|].
  intros H. assert (E2 : forall a b : circuit, Ok a = Ok b -> b = a) by congruence. apply E2 in H. exists n. split; [intros ->; now apply N|]. split.
  - intros c' Hc. apply K. apply in_map_iff. now exists c'.
  - rewrite H. apply (f_equal join_ticks). apply map_ext. intros k. now rewrite block_number_at.
Qed.
Lemma merge_block show check cs c k : merge_circuits show check cs = Ok c ->
  at_tick k c = parse_block show (sort_instrs (flat_map (at_tick k) cs)).
Proof.
  intros H. destruct (merge_inv _ _ _ _ H) as (n & N & T & ->). rewrite join_at.
  - destruct (Nat.lt_ge_cases k (S n)) as [L|G].
    + rewrite (nth_indep _ [] (parse_block show (sort_instrs (flat_map (at_tick 0) cs)))) by (now rewrite map_length, seq_length).
      rewrite (map_nth (fun k => parse_block show (sort_instrs (flat_map (at_tick k) cs)))), seq_nth by exact L. reflexivity.
    + rewrite nth_overflow by (rewrite map_length, seq_length; exact G).
      assert (Z : flat_map (at_tick k) cs = []).
      { apply flat_map_nil'. intros c' Hc. specialize (T c' Hc). clear - T G. revert k n T G. induction c' as [|i r IH]; intros k n T G; [reflexivity|].
        simpl. unfold number in T. simpl in T. destruct (eqb (nm i) TICK) eqn:E.
        - simpl in T. destruct k as [|k]; [lia|]. apply (IH k (pred n)); [unfold number; lia|lia].
        - destruct k as [|k]; [lia|]. apply (IH (S k) n); [exact T|exact G]. }
      now rewrite Z.
  - apply Forall_map, Forall_forall. intros j _. apply parse_nt.
    eapply Permutation_Forall; [apply Permutation_sym, sort_perm|]. apply Forall_flat_map, Forall_forall. intros c' _. apply at_tick_nt.
Qed.
Lemma C42_lemma show check cs c : Forall even_targets cs -> merge_circuits show check cs = Ok c ->
  (forall c', In c' cs -> number TICK c = number TICK c') /\
  forall k, Permutation (applications (at_tick k c)) (map (printed show) (flat_map (fun c' => applications (at_tick k c')) cs)).
Proof.
  intros Ev H. split.
  - intros c' Hc. destruct (merge_inv _ _ _ _ H) as (n & N & T & ->). rewrite join_ticks_number.
    + rewrite map_length, seq_length, (T c' Hc). reflexivity.
    + apply Forall_map, Forall_forall. intros j _. apply parse_nt.
      eapply Permutation_Forall; [apply Permutation_sym, sort_perm|]. apply Forall_flat_map, Forall_forall. intros c0 _. apply at_tick_nt.
  - intros k. rewrite (merge_block _ _ _ _ k H). rewrite parse_uses.
    + apply Permutation_map. rewrite <- applications_flat. apply applications_perm, sort_perm.
    + eapply Permutation_Forall; [apply Permutation_sym, sort_perm|]. now apply even_flat.
Qed.
Lemma C42_raises_lemma show check cs e : no_shift cs ->
  merge_circuits show check cs = Err e <->
  e = ValueError /\ (cs = [] \/ (exists c c', In c cs /\ In c' cs /\ number TICK c <> number TICK c') \/
    check = true /\ exists c c' k k', In c cs /\ In c' cs /\ measures_at c k /\ measures_at c' k' /\ k <> k').
Proof.
  intros NS. unfold merge_circuits. rewrite (no_shift_test cs NS).
  assert (Same : (exists n, dedup (map ticks cs) = [n]) <-> ~ (cs = [] \/ exists c c', In c cs /\ In c' cs /\ number TICK c <> number TICK c')).
  { split.
    - intros (n & E) [->|(c & c' & Hc & Hc' & D)]; [discriminate|]. apply dedup_single in E. destruct E as [_ K]. apply D.
      transitivity n; [|symmetry]; apply K, in_map_iff; [now exists c|now exists c'].
    - intros N. destruct cs as [|c cs]; [exfalso; apply N; now left|]. exists (ticks c). apply dedup_single. split; [discriminate|].
      intros y Hy. apply in_map_iff in Hy. destruct Hy as (c' & <- & Hc). destruct (Nat.eq_dec (ticks c') (ticks c)) as [|D]; [assumption|].
      exfalso. apply N. right. exists c', c. repeat split; [exact Hc|now left|exact D]. }
  assert (Far : forall ms, ms = map meas_blocks cs ->
     existsb (fun m => Nat.ltb 1 (length m)) ms = true \/ Nat.ltb 1 (length (dedup (concat ms))) = true <->
     exists c c' k k', In c cs /\ In c' cs /\ measures_at c k /\ measures_at c' k' /\ k <> k').
  { intros ms ->. rewrite existsb_exists. rewrite many_iff by apply dedup_NoDup.
    assert (Cc : forall k, In k (dedup (concat (map meas_blocks cs))) <-> exists c, In c cs /\ measures_at c k).
    { intros k. rewrite dedup_In, <- flat_map_concat_map, in_flat_map. split; intros (c & Hc & M); exists c; (split; [exact Hc|]); now apply meas_blocks_In. }
    split.
    - intros [(m & Hm & L)|(a & b & Ha & Hb & D)].
      + apply in_map_iff in Hm. destruct Hm as (c & <- & Hc). apply many_iff in L; [|apply dedup_NoDup]. destruct L as (a & b & Ha & Hb & D).
        exists c, c, a, b. rewrite <- !meas_blocks_In. auto.
      + apply Cc in Ha. apply Cc in Hb. destruct Ha as (c & Hc & Ma), Hb as (c' & Hc' & Mb). exists c, c', a, b. auto.
    - intros (c & c' & k & k' & Hc & Hc' & M & M' & D). right. exists k, k'. split; [apply Cc; eauto|split; [apply Cc; eauto|exact D]]. }
  specialize (Far _ eq_refl).
  destruct (dedup (map ticks cs)) as [|n [|m r]] eqn:E.
  - assert (B : cs = [] \/ exists c c', In c cs /\ In c' cs /\ number TICK c <> number TICK c').
    { left. destruct cs as [|c cs]; [reflexivity|]. exfalso. assert (Hy : In (ticks c) (dedup (map ticks (c :: cs)))) by (apply dedup_In; now left). now rewrite E in Hy. }
    split; [intros H; injection H as <-; tauto|]. intros [-> _]. reflexivity.
  - assert (NB : ~ (cs = [] \/ exists c c', In c cs /\ In c' cs /\ number TICK c <> number TICK c')) by (apply Same; now exists n).
    destruct check; simpl.
    + destruct (existsb _ _); [split; [intros H; injection H as <-; tauto|intros [-> _]; reflexivity]|].
      destruct (Nat.ltb 1 _); [split; [intros H; injection H as <-; tauto|intros [-> _]; reflexivity]|].
      split; [discriminate|]. intros (_ & [B|[B|[_ B]]]); try tauto. apply Far in B. destruct B; discriminate.
    + split; [discriminate|]. intros (_ & [B|[B|[B _]]]); try tauto. discriminate.
  - assert (B : cs = [] \/ exists c c', In c cs /\ In c' cs /\ number TICK c <> number TICK c').
    { destruct cs as [|c cs]; [now left|]. right. pose proof (dedup_NoDup (map ticks (c :: cs))) as D. rewrite E in D.
      inversion D as [|? ? D1 _]; subst. assert (Hn : In n (map ticks (c :: cs))) by (apply dedup_In; rewrite E; now left).
      assert (Hm : In m (map ticks (c :: cs))) by (apply dedup_In; rewrite E; simpl; auto).
      apply in_map_iff in Hn. apply in_map_iff in Hm. destruct Hn as (a & <- & Ha), Hm as (b & <- & Hb). exists a, b. repeat split; try assumption.
      intros Eq. apply D1. left. symmetry. exact Eq. }
    split; [intros H; injection H as <-; tauto|]. intros [-> _]. reflexivity.
Qed.

(** * Order on one qubit *)
Lemma SS_app {A} (R : A -> A -> Prop) l1 l2 :
  StronglySorted R (l1 ++ l2) <-> StronglySorted R l1 /\ StronglySorted R l2 /\ forall a b, In a l1 -> In b l2 -> R a b.
Proof.
  induction l1 as [|x l1 IH]; simpl.
  - split; [intros S; repeat split; [constructor|exact S|intros ? ? []]|tauto].
  - split.
    + intros S. inversion S as [|? ? S' F]; subst. apply IH in S'. destruct S' as (S1 & S2 & C). apply Forall_app in F. destruct F as [F1 F2].
      repeat split; [now constructor|exact S2|]. intros a b [<-|Ha] Hb; [rewrite Forall_forall in F2; auto|auto].
    + intros (S1 & S2 & C). inversion S1 as [|? ? S1' F]; subst. constructor; [apply IH; repeat split; auto|].
      apply Forall_app. split; [exact F|]. apply Forall_forall. auto.
Qed.
Definition touching (q : Z) (i : instr) : bool := match on_index q (uses i) with [] => false | _ => true end.
Lemma on_index_app q a b : on_index q (a ++ b) = on_index q a ++ on_index q b.
Proof. apply filter_app. Qed.
Lemma on_touching q l : on_index q (applications l) = on_index q (applications (filter (touching q) l)).
Proof.
  unfold applications. induction l as [|i r IH]; simpl; [reflexivity|]. rewrite on_index_app, IH. unfold touching.
  destruct (on_index q (uses i)) eqn:E; simpl; [reflexivity|]. rewrite on_index_app, E. reflexivity.
Qed.
Lemma on_index_name q i a : In a (on_index q (uses i)) -> name_of a = nm i.
Proof. intros H. apply filter_In in H. destruct H as [H _]. apply in_map_iff in H. destruct H as (t & <- & _). reflexivity. Qed.
Lemma on_sorted q l : Forall (fun i => touching q i = true) l ->
  StronglySorted alphabetical (on_index q (applications l)) <-> StronglySorted ile l.
Proof.
  unfold applications. induction 1 as [|i r T F IH]; simpl.
  - split; constructor.
  - rewrite on_index_app, SS_app, IH. split.
    + intros (_ & S & C). constructor; [exact S|]. apply Forall_forall. intros j Hj.
      unfold touching in T. destruct (on_index q (uses i)) as [|a ra] eqn:Ea; [discriminate|].
      assert (Tj : touching q j = true) by (rewrite Forall_forall in F; auto). unfold touching in Tj.
      destruct (on_index q (uses j)) as [|b rb] eqn:Eb; [discriminate|].
      assert (K : alphabetical a b).
      { apply C; [now left|]. apply filter_In. assert (Hb : In b (on_index q (uses j))) by (rewrite Eb; now left).
        apply filter_In in Hb. destruct Hb as [Hb M]. split; [|exact M]. apply in_flat_map. now exists j. }
      unfold alphabetical in K. rewrite (on_index_name q i a), (on_index_name q j b) in K; [exact K|rewrite Eb; now left|rewrite Ea; now left].
    + intros S. inversion S as [|? ? S' Fi]; subst. repeat split; [|exact S'|].
      * assert (K : forall l0, (forall a, In a l0 -> name_of a = nm i) -> StronglySorted alphabetical l0).
        { clear. induction l0 as [|a l0 IH]; intros K; [constructor|]. constructor; [apply IH; intros b Hb; apply K; now right|].
          apply Forall_forall. intros b Hb. unfold alphabetical. rewrite (K a), (K b); [apply leb_refl|now right|now left]. }
        apply K. intros a. apply on_index_name.
      * intros a b Ha Hb. apply on_index_name in Ha. apply filter_In in Hb. destruct Hb as [Hb M]. apply in_flat_map in Hb. destruct Hb as (j & Hj & Hb).
        unfold alphabetical. rewrite Ha, (on_index_name q j b); [|apply filter_In; now split]. rewrite Forall_forall in Fi. exact (Fi j Hj).
Qed.
Lemma on_printed show q l : on_index q (map (printed show) l) = map (printed show) (on_index q l).
Proof.
  unfold on_index. induction l as [|[[g t] x] l IH]; simpl; [reflexivity|]. destruct (mem (TQ q) t); simpl; now rewrite IH.
Qed.
Lemma sorted_printed show l : StronglySorted alphabetical (map (printed show) l) <-> StronglySorted alphabetical l.
Proof.
  induction l as [|a l IH]; simpl; [split; constructor|]. split; intros S; inversion S as [|? ? S' F]; subst; (constructor; [now apply IH|]).
  - rewrite Forall_map in F. eapply Forall_impl; [|exact F]. intros b. destruct a as [[? ?] ?], b as [[? ?] ?]. intros K; exact K.
  - rewrite Forall_map. eapply Forall_impl; [|exact F]. intros b. destruct a as [[? ?] ?], b as [[? ?] ?]. intros K; exact K.
Qed.
Lemma flat_map_only {A B} (f : A -> list B) l1 x l2 : (forall y, In y (l1 ++ l2) -> f y = []) -> flat_map f (l1 ++ x :: l2) = f x.
Proof.
  intros K. rewrite flat_map_app. simpl. rewrite (flat_map_nil' f l1), (flat_map_nil' f l2).
  - simpl. apply app_nil_r.
  - intros y Hy. apply K, in_or_app. now right.
  - intros y Hy. apply K, in_or_app. now left.
Qed.
Lemma C43_block show check l1 c0 l2 c q k : Forall even_targets (l1 ++ c0 :: l2) ->
  merge_circuits show check (l1 ++ c0 :: l2) = Ok c ->
  (forall c', In c' (l1 ++ l2) -> on_index q (applications (at_tick k c')) = []) ->
  on_index q (applications (at_tick k c)) =
    map (printed show) (on_index q (applications (sort_instrs (filter (touching q) (at_tick k c0))))).
Proof.
  intros Ev H D. rewrite (merge_block _ _ _ _ k H), parse_uses.
  - rewrite on_printed, on_touching, sort_filter. f_equal. f_equal. f_equal. apply (f_equal sort_instrs).
    assert (Ff : forall l, filter (touching q) (flat_map (at_tick k) l) = flat_map (fun c => filter (touching q) (at_tick k c)) l).
    { induction l; simpl; [reflexivity|]. now rewrite filter_app, IHl. }
    rewrite Ff. apply (flat_map_only (fun c => filter (touching q) (at_tick k c)) l1 c0 l2). intros y Hy. specialize (D y Hy). rewrite on_touching in D.
    destruct (filter (touching q) (at_tick k y)) as [|i r] eqn:E; [reflexivity|]. exfalso.
    assert (T : touching q i = true). { assert (Hi : In i (filter (touching q) (at_tick k y))) by (rewrite E; now left). apply filter_In in Hi. tauto. }
    unfold applications in D. simpl in D. rewrite on_index_app in D. unfold touching in T. destruct (on_index q (uses i)); discriminate.
  - eapply Permutation_Forall; [apply Permutation_sym, sort_perm|]. now apply even_flat.
Qed.
Lemma C43_iff show check l1 c0 l2 c q k : Forall even_targets (l1 ++ c0 :: l2) ->
  merge_circuits show check (l1 ++ c0 :: l2) = Ok c ->
  (forall c', In c' (l1 ++ l2) -> on_index q (applications (at_tick k c')) = []) ->
  on_index q (applications (at_tick k c)) = map (printed show) (on_index q (applications (at_tick k c0))) <->
  StronglySorted alphabetical (on_index q (applications (at_tick k c0))).
Proof.
  intros Ev H D. rewrite (C43_block _ _ _ _ _ _ q k Ev H D).
  assert (Ft : Forall (fun i => touching q i = true) (filter (touching q) (at_tick k c0))).
  { apply Forall_forall. intros i Hi. apply filter_In in Hi. tauto. }
  rewrite (on_touching q (at_tick k c0)). rewrite (on_sorted q _ Ft). split.
  - intros E. apply (on_sorted q _ Ft). apply (sorted_printed show). rewrite <- E. apply sorted_printed. apply on_sorted; [|apply sort_sorted].
    eapply Permutation_Forall; [apply Permutation_sym, sort_perm|exact Ft].
  - intros S. now rewrite sort_fixed.
Qed.

(** * The record *)
Lemma flat_map_ext_in {A B} (f g : A -> list B) l : (forall x, In x l -> f x = g x) -> flat_map f l = flat_map g l.
Proof. induction l as [|x l IH]; intros K; simpl; [reflexivity|]. rewrite K by now left. f_equal. apply IH. intros y Hy. apply K. now right. Qed.
Lemma measured_app' a b : measured (a ++ b) = measured a ++ measured b.
Proof. apply flat_map_app. Qed.
Lemma measured_append' c i : measured (append c i) = measured c ++ instr_meas i.
Proof.
  unfold measured. induction c as [|j r IH]; simpl; [apply app_nil_r|]. destruct r as [|j' r].
  - destruct (eqb_spec (nm i) (nm j)) as [E|]; simpl; [|now rewrite !app_nil_r]. destruct (eqb (ar i) (ar j)); simpl; [|now rewrite !app_nil_r].
    destruct (not_fusable (nm i)); simpl; rewrite ?app_nil_r; [reflexivity|]. unfold instr_meas. cbn [nm tg]. rewrite E. now destruct (is_meas (nm j)).
  - etransitivity; [exact (f_equal (app (instr_meas j)) IH)|]. apply app_assoc.
Qed.
Lemma measured_appends' l : forall c, measured (appends c l) = measured c ++ measured l.
Proof.
  unfold appends. induction l as [|i r IH]; intros c; simpl; [now rewrite app_nil_r|]. rewrite IH, measured_append'. symmetry. apply app_assoc.
Qed.
Lemma measured_parse show b : measured (parse_block show b) = measured b.
Proof. unfold parse_block. rewrite measured_appends'. simpl. unfold measured. induction b as [|i r IH]; simpl; [reflexivity|]. now rewrite IH. Qed.
Lemma measured_filter l : measured l = measured (filter (fun i => is_meas (nm i)) l).
Proof. unfold measured. induction l as [|i r IH]; simpl; [reflexivity|]. unfold instr_meas at 1. destruct (is_meas (nm i)) eqn:E; simpl; rewrite IH; [|reflexivity]. unfold instr_meas at 2. now rewrite E. Qed.
Lemma measured_one_block c k0 : (forall k, k <> k0 -> measured (at_tick k c) = []) -> measured c = measured (at_tick k0 c).
Proof.
  revert k0. induction c as [|i r IH]; intros k0 K; [reflexivity|]. simpl. unfold measured at 1. simpl. fold (measured r).
  destruct (eqb_spec (nm i) TICK) as [E|N].
  - unfold instr_meas. rewrite E. simpl. destruct k0 as [|k0].
    + assert (Z : forall k, measured (at_tick k r) = []).
      { intros k. specialize (K (S k)). simpl in K. rewrite E in K. simpl in K. apply K. discriminate. }
      rewrite (IH 0%nat); [apply Z|]. intros k _. apply Z.
    + apply IH. intros k D. specialize (K (S k)). simpl in K. rewrite E in K. simpl in K. apply K. congruence.
  - destruct k0 as [|k0].
    + unfold measured at 2. simpl. fold (measured (at_tick 0 r)). f_equal. apply IH. intros k D. specialize (K k D). simpl in K.
      destruct (eqb_spec (nm i) TICK); [contradiction|]. destruct k; [contradiction|exact K].
    + assert (Z : instr_meas i ++ measured (at_tick 0 r) = []).
      { specialize (K 0%nat). simpl in K. destruct (eqb_spec (nm i) TICK); [contradiction|]. apply K. discriminate. }
      apply app_eq_nil in Z. destruct Z as [Z1 Z2]. rewrite Z1. simpl. apply IH. intros k D. destruct k as [|k]; [exact Z2|].
      specialize (K (S k) D). simpl in K. destruct (eqb_spec (nm i) TICK); [contradiction|exact K].
Qed.
Lemma at_tick_In c k i : In i (at_tick k c) -> In i c.
Proof.
  revert k. induction c as [|j r IH]; intros k; simpl; [tauto|]. destruct (eqb (nm j) TICK); destruct k; simpl; try tauto; intros H; eauto.
  destruct H; eauto.
Qed.
Lemma C63_lemma show cs c g : no_shift cs -> merge_circuits show true cs = Ok c ->
  (forall c' i, In c' cs -> In i c' -> is_meas (nm i) = true -> nm i = g) ->
  measured c = flat_map measured cs.
Proof.
  intros NS H G.
  assert (One : forall c1 c2 k k', In c1 cs -> In c2 cs -> measures_at c1 k -> measures_at c2 k' -> k = k').
  { intros c1 c2 k k' H1 H2 M1 M2. destruct (Nat.eq_dec k k') as [|D]; [assumption|]. exfalso.
    assert (K : merge_circuits show true cs = Err ValueError).
    { apply C42_raises_lemma; [exact NS|]. split; [reflexivity|]. right. right. split; [reflexivity|]. exists c1, c2, k, k'. auto. }
    congruence. }
  assert (Bl : forall k, measured (at_tick k c) = flat_map (fun c' => measured (at_tick k c')) cs).
  { intros k. rewrite (merge_block _ _ _ _ k H), measured_parse, measured_filter, sort_filter, sort_fixed.
    - rewrite <- measured_filter. unfold measured. clear. induction cs as [|c' r IH]; simpl; [reflexivity|]. now rewrite flat_map_app, IH.
    - assert (F : Forall (fun i => nm i = g) (filter (fun i => is_meas (nm i)) (flat_map (at_tick k) cs))).
      { apply Forall_forall. intros i Hi. apply filter_In in Hi. destruct Hi as [Hi M]. apply in_flat_map in Hi. destruct Hi as (c' & Hc & Hi).
        apply (G c'); [exact Hc|now apply at_tick_In in Hi|exact M]. }
      clear - F. induction F as [|i r E F IH]; constructor; [exact IH|]. eapply Forall_impl; [|exact F]. intros j Ej. unfold ile, name_leb. rewrite E, Ej. apply leb_refl. }
  assert (Nm : forall c' k, ~ measures_at c' k -> measured (at_tick k c') = []).
  { intros c' k N. apply flat_map_nil'. intros i Hi. unfold instr_meas. destruct (is_meas (nm i)) eqn:M; [|reflexivity]. exfalso. apply N. now exists i. }
  assert (Dec : (exists c' k, In c' cs /\ measures_at c' k) \/ forall c' k, In c' cs -> measured (at_tick k c') = []).
  { clear - Nm. induction cs as [|c0 cs IH]; [right; intros ? ? []|].
    destruct (meas_blocks c0) as [|k r] eqn:E.
    - destruct IH as [(c' & k & Hc & M)|IH]; [left; exists c', k; split; [now right|exact M]|]. right. intros c' k [<-|Hc]; [|auto].
      apply Nm. rewrite <- meas_blocks_In, E. auto.
    - left. exists c0, k. split; [now left|]. apply meas_blocks_In. rewrite E. now left. }
  destruct Dec as [(c1 & k0 & H1 & M1)|Z].
  - rewrite (measured_one_block c k0), Bl.
    + apply flat_map_ext_in. intros c' Hc. symmetry. apply measured_one_block. intros k D. apply Nm. intros M. apply D. now apply (One c' c1).
    + intros k D. rewrite Bl. apply flat_map_nil'. intros c' Hc. apply Nm. intros M. apply D. now apply (One c' c1).
  - rewrite (measured_one_block c 0), Bl.
    + apply flat_map_ext_in. intros c' Hc. symmetry. apply measured_one_block. intros k D. now apply Z.
    + intros k D. rewrite Bl. apply flat_map_nil'. intros c' Hc. now apply Z.
Qed.
