(** Decision procedures for the statements about faults. *)
From Coq Require Import QArith Qcanon.
From Verif Require Import Base StimM NoiseM SpecNoise SpecTrack SpecExp SpecFault.
Open Scope Z_scope.

Definition checksb (name : gname) (good : circuit -> instr -> bool) (c : circuit) : list bool :=
  map (fun n => match nth_error c n with Some i => if eqb (nm i) name then good (firstn n c) i else true | None => true end) (seq 0 (length c)).
Definition undetectedb (c : circuit) (fs : list fault) : bool :=
  forallb (fun b => b) (checksb DETECTOR (fun pre i => negb (check_flipped c fs pre i)) c).
Definition logicalb (c : circuit) (fs : list fault) : bool :=
  negb (forallb (fun b => b) (checksb OBSERVABLE_INCLUDE (fun pre i => negb (check_flipped c fs pre i)) c)).
Lemma undetectedb_ok c fs : undetectedb c fs = true -> undetected c fs.
Proof.
  intros H pre i post E N. unfold undetectedb, checksb in H. rewrite forallb_forall in H.
  specialize (H (negb (check_flipped c fs pre i))). apply negb_true_iff, H. apply in_map_iff. exists (length pre). split.
  - assert (En : nth_error c (length pre) = Some i) by (rewrite E, nth_error_app2, Nat.sub_diag by lia; reflexivity).
    assert (Ef : firstn (length pre) c = pre) by (rewrite E, firstn_app, Nat.sub_diag, firstn_all; cbn; apply app_nil_r).
    rewrite En, Ef, N. reflexivity.
  - apply in_seq. rewrite E, app_length. cbn. lia.
Qed.
Lemma logicalb_ok c fs : logicalb c fs = true -> logical_error c fs.
Proof.
  intros H. unfold logicalb, checksb in H. apply negb_true_iff in H. apply not_true_iff_false in H. rewrite forallb_forall in H.
  assert (G : forall L : list nat, ~ (forall b, In b (map (fun n => match nth_error c n with
     | Some i => if eqb (nm i) OBSERVABLE_INCLUDE then negb (check_flipped c fs (firstn n c) i) else true | None => true end) L) -> b = true) -> logical_error c fs).
  { induction L as [|n L IH]; intros H'; [exfalso; apply H'; intros b []|]. cbn [map] in H'.
    destruct (nth_error c n) as [i|] eqn:En; [|apply IH; intros K; apply H'; intros b [<-|Hb]; auto].
    destruct (eqb (nm i) OBSERVABLE_INCLUDE) eqn:N; [|apply IH; intros K; apply H'; intros b [<-|Hb]; auto].
    destruct (check_flipped c fs (firstn n c) i) eqn:Cf; [|apply IH; intros K; apply H'; intros b [<-|Hb]; auto].
    apply nth_error_split in En as (pre & post & E & Ln). exists pre, i, post. split; [exact E|].
    split; [destruct (nm i); (reflexivity || discriminate N)|]. rewrite <- Cf. f_equal. rewrite E, <- Ln, firstn_app, Nat.sub_diag, firstn_all. cbn. now rewrite app_nil_r. }
  apply (G _ H).
Qed.
Definition just_coupledb (l : list (gate Z)) (a b : Z) : bool :=
  match find (fun h => touches a h || touches b h) (rev l) with
  | Some (G2 _ x y) => (x =? a) && (y =? b) || (x =? b) && (y =? a)
  | _ => false
  end.
Lemma find_split {A} (f : A -> bool) L x : find f L = Some x -> exists p s, L = p ++ x :: s /\ Forall (fun y => f y = false) p.
Proof.
  induction L as [|y L IH]; intros E; [discriminate|]. cbn in E. destruct (f y) eqn:F; [injection E as ->; exists [], L; auto|].
  destruct (IH E) as (p & s & -> & H). exists (y :: p), s. auto.
Qed.
Lemma just_coupledb_ok l a b : just_coupledb l a b = true -> just_coupled l a b.
Proof.
  intros H. unfold just_coupledb in H. destruct (find _ (rev l)) as [g|] eqn:E; [|discriminate]. apply find_split in E as (p & s & E & F).
  exists (rev s), g, (rev p). split; [rewrite <- (rev_involutive l), E, rev_app_distr; cbn [rev]; now rewrite <- app_assoc|]. split.
  - destruct g as [|n x y]; [discriminate|]. exists n. apply orb_true_iff in H as [H|H]; apply andb_true_iff in H as [H1 H2]; apply Z.eqb_eq in H1, H2; subst; auto.
  - apply Forall_rev. eapply Forall_impl; [|exact F]. intros h Hh. now apply orb_false_iff in Hh.
Qed.
Lemma just_coupledb_complete l a b : just_coupled l a b -> just_coupledb l a b = true.
Proof.
  intros (p & g & s & -> & (n & Hg) & F). unfold just_coupledb. rewrite rev_app_distr. cbn [rev]. rewrite <- app_assoc. cbn [app].
  assert (F' : Forall (fun h => touches a h || touches b h = false) (rev s)).
  { apply Forall_rev. eapply Forall_impl; [|exact F]. intros h [H1 H2]. now rewrite H1, H2. }
  clear F. induction F' as [|h r Hh _ IH]; [|cbn [find app]; now rewrite Hh].
  cbn [find app]. destruct Hg as [-> | ->]; cbn [touches]; rewrite ?eqb_refl, ?orb_true_r; cbn [orb]; rewrite !Z.eqb_refl; cbn; auto using orb_true_r.
Qed.
Definition possibleb (c : circuit) (f : fault) : bool :=
  match f with Double n a _ _ b _ _ => negb (a =? b) && just_coupledb (gates (firstn n c)) a b | _ => true end.
Lemma possibleb_ok c fs : forallb (possibleb c) fs = true -> Forall (possible c) fs.
Proof.
  intros H. apply Forall_forall. intros f Hf. rewrite forallb_forall in H. specialize (H f Hf). destruct f; cbn in *; try exact I.
  apply andb_true_iff in H as [H1 H2]. apply negb_true_iff, Z.eqb_neq in H1. split; [exact H1|]. now apply just_coupledb_ok.
Qed.
Definition is_tqb (q : Z) (t : target) : bool := match t with TQ x => x =? q | _ => false end.
Definition causedb (c : circuit) (f : fault) : bool :=
  match f with
  | Single n q x z => match nth_error c n with Some i => produces (nm i) x z && is_noise (nm i) && negb (is_two (nm i)) && existsb (is_tqb q) (tg i) | None => false end
  | Double n a _ _ b _ _ => match nth_error c n with
      | Some i => is_noise (nm i) && is_two (nm i) && existsb (fun p => match p with [x; y] => is_tqb a x && is_tqb b y | _ => false end) (pairs_of (tg i))
      | None => false end
  | Readout m => existsb (fun n => match nth_error c n with
      | Some i => is_meas (nm i) && negb (match ar i with [] => true | _ => false end) &&
          existsb (fun k => Nat.eqb m (num_meas (gates (firstn n c)) + k)) (seq 0 (length (tg i)))
      | None => false end) (seq 0 (length c))
  end.
Lemma is_tqb_ok q t : is_tqb q t = true -> t = TQ q.
Proof. destruct t; cbn; try discriminate. intros H. apply Z.eqb_eq in H. now subst. Qed.
Lemma causedb_ok c fs : forallb (causedb c) fs = true -> Forall (caused c) fs.
Proof.
  intros H. apply Forall_forall. intros f Hf. rewrite forallb_forall in H. specialize (H f Hf). destruct f as [n q x z|n a xa za b xb zb|m]; cbn [causedb] in H.
  - destruct (nth_error c n) as [i|] eqn:E; [|discriminate]. apply andb_true_iff in H as [H H3]. apply andb_true_iff in H as [H H2]. apply andb_true_iff in H as [H0 H1]. apply negb_true_iff in H2.
    apply existsb_exists in H3 as (t & Ht & Hq). apply is_tqb_ok in Hq. subst t. now apply (by_channel c n i).
  - destruct (nth_error c n) as [i|] eqn:E; [|discriminate]. apply andb_true_iff in H as [H H3]. apply andb_true_iff in H as [H1 H2].
    apply existsb_exists in H3 as (t & Ht & Hq). destruct t as [|x [|y [|]]]; try discriminate. apply andb_true_iff in Hq as [Hx Hy]. apply is_tqb_ok in Hx, Hy. subst. now apply (by_channel2 c n i).
  - apply existsb_exists in H as (n & _ & H). destruct (nth_error c n) as [i|] eqn:E; [|discriminate]. apply andb_true_iff in H as [H H3]. apply andb_true_iff in H as [H1 H2].
    apply existsb_exists in H3 as (k & Hk & Hm). apply Nat.eqb_eq in Hm. subst m. apply in_seq in Hk. apply (by_readout c n i); auto; [|lia]. intros E'. rewrite E' in H2. discriminate H2.
Qed.
