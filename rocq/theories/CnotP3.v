(** The gates of circuits merged by merge_circuits; the initialization of two layouts. *)
From Coq Require Import QArith Qcanon.
From Verif Require Import Base Lib StimM SetupM NoiseM SpecNoise NoiseP DetM LayoutM BlockM ExpM SpecTrack SpecExp TrackP LiftP ExpP ExpP4 ExpP5 ExpP9 ExpP13
  MergeM SpecMerge MergeP MergeP2 MergeP3 MergeP4 MergeP5 MergeP6 MergeP7 CnotP CnotP2.
Open Scope Z_scope.

Lemma gates_ticks c : gates c = flat_map (fun k => gates (at_tick k c)) (seq 0 (S (number TICK c))).
Proof.
  induction c as [|i r IH]; [reflexivity|]. unfold number in *. cbn [filter]. change (i :: r) with ([i] ++ r) at 1. rewrite LiftP.gates_app.
  destruct (eqb_spec (nm i) TICK) as [E|N].
  - assert (Z : gates [i] = []) by (destruct i as [g t a]; cbn in E; subst; reflexivity). rewrite Z. cbn [length app]. rewrite IH.
    change (seq 0 (S (S ?n))) with (0%nat :: seq 1 (S n)). set (n := length _). cbn [flat_map]. cbn [at_tick]. rewrite (proj2 (eqb_eq _ _) E). cbn [gates ideal flat_map app].
    rewrite <- seq_shift, MergeP2.flat_map_map. apply flat_map_ext. intros k. reflexivity.
  - cbn [seq flat_map] in *. rewrite IH. cbn [at_tick]. destruct (eqb_spec (nm i) TICK) as [|_]; [contradiction|].
    change (i :: at_tick 0 r) with ([i] ++ at_tick 0 r). rewrite LiftP.gates_app, <- app_assoc. f_equal. f_equal.
    apply flat_map_ext_in. intros k Hk. apply in_seq in Hk. destruct k; [lia|]. reflexivity.
Qed.
Lemma at_tick_incl k c : incl (at_tick k c) c.
Proof.
  revert k. induction c as [|i r IH]; intros k x; [intros []|]. cbn [at_tick]. destruct (eqb (nm i) TICK).
  - destruct k; [intros []|]. intros H. right. eapply IH; eauto.
  - destruct k; [intros [<-|H]; [now left|right; eapply IH; eauto]|]. intros H. right. eapply IH; eauto.
Qed.
Lemma at_okc N T k c : okc N T c -> okc N T (at_tick k c).
Proof. unfold okc. rewrite !Forall_forall. intros O i Hi. apply O. eapply at_tick_incl; eauto. Qed.
Lemma at_even k c : even_targets c -> even_targets (at_tick k c).
Proof. unfold even_targets. rewrite !Forall_forall. intros O i Hi. apply O. eapply at_tick_incl; eauto. Qed.
Lemma perm_one {A} (l l' : list A) : Permutation l l' -> (length l' <= 1)%nat -> l = l'.
Proof.
  intros P L. destruct l' as [|x [|]]; [now apply Permutation_sym, Permutation_nil in P|now apply Permutation_sym, Permutation_length_1_inv in P|cbn in L; lia].
Qed.
Lemma perm_filter {A} f (l l' : list A) : Permutation l l' -> Permutation (filter f l) (filter f l').
Proof. induction 1; cbn; [constructor|destruct (f x); auto|destruct (f x), (f y); auto using perm_swap|eauto using Permutation_trans]. Qed.
Lemma gapp_printed show a : gapp (printed show a) = gapp a.
Proof. destruct a as [[g t] x]. reflexivity. Qed.
Section Pair.
  Context (show : arg -> arg) (N : gname -> Prop) (T : target -> Prop).
  Hypothesis HT : forall t, T t -> tq t.
  Lemma okc_t c : okc N T c -> tqs c.
  Proof. intros O. eapply Forall_impl; [|exact O]. intros i [_ F]. eapply Forall_impl; [|exact F]. exact HT. Qed.
  Lemma parse_ok l : okc N T l -> even_targets l -> okc N T (parse_block show (sort_instrs l)) /\ even_targets (parse_block show (sort_instrs l)).
  Proof.
    intros O E. unfold parse_block. assert (P : Permutation (sort_instrs l) l) by apply sort_perm. assert (Q : Permutation l (sort_instrs l)) by now apply Permutation_sym.
    assert (O' : okc N T (map (reparse show) (sort_instrs l))) by (apply Forall_map; eapply Permutation_Forall; [exact Q|]; exact O).
    assert (E' : even_targets (map (reparse show) (sort_instrs l))) by (apply Forall_map; eapply Permutation_Forall; [exact Q|]; exact E).
    split; [apply okc_appends; [constructor|exact O']|]. pose proof (cat_uses true [] _ ltac:(constructor) E') as [_ X]. exact X.
  Qed.
  Lemma merge_at a b c k : okc N T a -> okc N T b -> even_targets a -> even_targets b -> merge_circuits show true [a; b] = Ok c ->
    okc N T (at_tick k c) /\ Permutation (gates (at_tick k c)) (gates (at_tick k a) ++ gates (at_tick k b)).
  Proof.
    intros Oa Ob Ea Eb H. assert (O2 : okc N T (flat_map (at_tick k) [a; b])) by (cbn [flat_map]; rewrite app_nil_r; apply okc_app; now apply at_okc).
    assert (E2 : even_targets (flat_map (at_tick k) [a; b])) by (cbn [flat_map]; rewrite app_nil_r; apply even_app; split; now apply at_even).
    destruct (parse_ok _ O2 E2) as [O E]. rewrite <- (merge_block _ _ _ _ k H) in O, E. split; [exact O|].
    rewrite (gates_uses (at_tick k c)), (gates_uses (at_tick k a)), (gates_uses (at_tick k b)) by eauto using at_even, at_okc, okc_t.
    destruct (C42_lemma show true [a; b] c) as [_ P]; [now repeat constructor|exact H|]. rewrite (P k). cbn [flat_map]. rewrite app_nil_r, MergeP2.flat_map_map, <- flat_map_app.
    erewrite flat_map_ext; [reflexivity|]. intros x. apply gapp_printed.
  Qed.
  Lemma merge_teq a b c : okc N T a -> okc N T b -> even_targets a -> even_targets b ->
    (forall k i, (length (filter (meets i) (gates (at_tick k a) ++ gates (at_tick k b))) <= 1)%nat) ->
    (forall i, filter (meets i) (gates a) = [] \/ filter (meets i) (gates b) = []) ->
    merge_circuits show true [a; b] = Ok c -> teq (gates a ++ gates b) (gates c).
  Proof.
    intros Oa Ob Ea Eb One Dis H i. destruct (C42_lemma show true [a; b] c) as [Nm _]; [now repeat constructor|exact H|].
    assert (Na := Nm a (or_introl eq_refl)). assert (Nb := Nm b (or_intror (or_introl eq_refl))).
    rewrite filter_app. rewrite (gates_ticks a), (gates_ticks b), (gates_ticks c), <- Na, <- Nb, !filter_flat_map.
    assert (X : forall k, filter (meets i) (gates (at_tick k c)) = filter (meets i) (gates (at_tick k a)) ++ filter (meets i) (gates (at_tick k b))).
    { intros k. rewrite <- filter_app. apply perm_one; [|apply One]. apply perm_filter. now apply merge_at. }
    rewrite (flat_map_ext _ _ X). specialize (Dis i). rewrite (gates_ticks a), (gates_ticks b), <- Na, <- Nb, !filter_flat_map in Dis.
    set (ks := seq 0 _) in *. destruct Dis as [Z|Z]; rewrite Z.
    - cbn [app]. apply flat_map_ext_in. intros k Hk. assert (Zk : filter (meets i) (gates (at_tick k a)) = []); [|now rewrite Zk].
      apply filter_nil_iff. intros x Hx. destruct (meets i x) eqn:M; [|reflexivity]. exfalso. assert (In x []); [|contradiction]. rewrite <- Z. apply in_flat_map. exists k. split; [exact Hk|]. apply filter_In; auto.
    - rewrite app_nil_r. apply flat_map_ext_in. intros k Hk. assert (Zk : filter (meets i) (gates (at_tick k b)) = []); [|now rewrite Zk, app_nil_r].
      apply filter_nil_iff. intros x Hx. destruct (meets i x) eqn:M; [|reflexivity]. exfalso. assert (In x []); [|contradiction]. rewrite <- Z. apply in_flat_map. exists k. split; [exact Hk|]. apply filter_In; auto.
  Qed.
  Lemma merge_okc a b c : N TICK -> okc N T a -> okc N T b -> even_targets a -> even_targets b -> merge_circuits show true [a; b] = Ok c -> okc N T c.
  Proof.
    intros NT Oa Ob Ea Eb H. destruct (merge_inv _ _ _ _ H) as (n & _ & _ & ->). set (ks := seq 0 (S n)). clearbody ks.
    assert (K : forall bs, Forall (okc N T) bs -> okc N T (join_ticks bs)).
    { induction 1 as [|x bs Hx Hb IH]; [constructor|]. cbn [join_ticks]. destruct bs as [|y bs]; [exact Hx|]. apply okc_app; [exact Hx|]. apply okc_app; [|exact IH].
      repeat constructor. exact NT. }
    apply K. apply Forall_map, Forall_forall. intros k _. apply parse_ok.
    - cbn [flat_map]. rewrite app_nil_r. apply okc_app; now apply at_okc.
    - cbn [flat_map]. rewrite app_nil_r. apply even_app. split; now apply at_even.
  Qed.
End Pair.

(** * Blocks separated by TICKs *)
Inductive spaced : blocks -> Prop :=
| sp_nil : spaced []
| sp_cons b r : ~ In CTick b -> (forall q, (length (filter (meets q) (lg_block b)) <= 1)%nat) -> spaced r -> spaced (Ok b :: tick_block :: r).
Lemma spaced_one bl : spaced bl -> forall m m' c k i, wf_inds (inds m) -> ok_blocks bl -> run_blocks bl m = (m', Ok c) ->
  (length (filter (meets i) (gates (at_tick k c))) <= 1)%nat.
Proof.
  induction 1 as [|b r NT One Sp IH]; intros m m' c k i W O H; cbn [run_blocks] in H; [apply sret_ok in H as [-> <-]; cbn; lia|].
  inversion O as [|? ? O1 O2]; subst. inversion O2 as [|? ? _ O3]; subst.
  apply sbind_ok in H as (m0 & b' & H0 & H). unfold slift in H0. injection H0 as <- <-.
  apply sbind_ok in H as (m1 & x & H1 & H). apply sbind_ok in H as (m2 & y & H2 & H). apply sret_ok in H as [-> <-].
  unfold tick_block in H2. apply sbind_ok in H2 as (m3 & b' & H3 & H2). unfold slift in H3. injection H3 as <- <-.
  apply sbind_ok in H2 as (m4 & t & H4 & H2). apply sbind_ok in H2 as (m5 & z & H5 & H2). apply sret_ok in H2 as [-> <-].
  assert (X : m4 = m1 /\ t = tick) by (cbn in H4; injection H4 as <- <-; auto). destruct X as [-> ->].
  pose proof (block_plain _ _ _ _ H1 NT) as Pl. assert (Nt : Forall (fun j => nm j <> TICK) x).
  { apply Forall_forall. intros j Hj E. apply Pl. apply in_map_iff. exists j. auto. }
  rewrite at_tick_app_nt by exact Nt. pose proof (block_static _ _ _ _ H1) as (_ & _ & Si). destruct k as [|k].
  - change (at_tick 0 (tick ++ z)) with (@nil instr). rewrite app_nil_r. pose proof (block_gates _ _ _ _ H1 O1) as [_ F].
    destruct (existsb (fun q => eqb (dget q (inds m)) (Some i)) (dkeys (inds m))) eqn:Ex.
    + apply existsb_exists in Ex as (q & _ & Ex). destruct (eqb_spec (dget q (inds m)) (Some i)) as [Dq|]; [|discriminate].
      assert (F2 : Forall2 (gate_rel (inds m)) (filter (meets q) (lg_block b)) (filter (meets i) (gates x))).
      { apply filter_rel; [|exact F]. intros g h R. eapply rel_meets; eauto. }
      apply Forall2_len in F2. rewrite <- F2. apply One.
    + rewrite (no_meet_rel (inds m) (lg_block b) (gates x) i W); [cbn; lia| |exact F]. intros q Dq. rewrite <- not_true_iff_false in Ex. apply Ex. apply existsb_exists. exists q.
      split; [exact (dget_Some_key _ _ _ Dq)|]. rewrite Dq. apply eqb_refl.
  - change (at_tick (S k) (tick ++ z)) with (at_tick k z). eapply IH; [|exact O3|exact H5]. now rewrite <- Si.
Qed.
Lemma one_map g l (q : string) : NoDup l -> (length (filter (meets q) (map (@G1 string g) l)) <= 1)%nat.
Proof.
  induction 1 as [|x l Nx Nd IH]; [cbn; lia|]. cbn [map filter meets]. destruct (eqb_spec q x) as [->|]; [|exact IH].
  assert (Z : filter (meets x) (map (@G1 string g) l) = []); [|rewrite Z; cbn; lia]. apply filter_nil_iff. intros y Hy. apply in_map_iff in Hy as (z & <- & Hz). cbn.
  apply eqb_neq. intros ->. contradiction.
Qed.
Lemma init_spaced ord l di rot data : (forall k x, Permutation (ord k x) x) -> get_role l "data" = Ok data -> NoDup data -> ExpP4.ran (init_blocks ord l di rot) -> spaced (init_blocks ord l di rot).
Proof.
  intros Hord Ed Nd R. unfold init_blocks in *. destruct (get_role l "anc") as [anc|e] eqn:Ea; [|cbn in R; now apply ran_err in R]. rewrite Ed. cbn [bind generator]. unfold init_start. cbn [app].
  assert (E0 : forall (l : list string), lg_block [Call OR l] = map (G1 GR) l) by (intros; cbn; apply app_nil_r).
  constructor; [intros [X|[]]; discriminate X| |constructor].
  - intros q. rewrite E0. apply one_map. eapply Permutation_NoDup; [apply Permutation_sym, Hord|]. apply dedup_NoDup.
  - intros X. destruct (excited di); cbn in X; repeat destruct X as [X|X]; try discriminate X; destruct X.
  - intros q. assert (Z : lg_block ((match excited di with [] => [] | _ => [Call OX (ord 1%nat (excited di))] end) ++ [Call OIDLE (ord 2%nat (diff (dedup (data ++ anc)) (excited di)))]) =
                          map (G1 GX) (match excited di with [] => [] | _ => ord 1%nat (excited di) end)).
    { destruct (excited di); [reflexivity|]. cbn. now rewrite app_nil_r. }
    rewrite Z. apply one_map. destruct (excited di) as [|e0 es] eqn:Ee; [constructor|]. rewrite <- Ee. eapply Permutation_NoDup; [apply Permutation_sym, Hord|]. unfold excited. apply dedup_NoDup.
  - destruct rot; [|constructor]. constructor; [intros [X|[X|[]]]; discriminate X| |constructor]. intros q. cbn. rewrite app_nil_r. now apply one_map.
Qed.
