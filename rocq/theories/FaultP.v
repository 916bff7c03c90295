(** Faults and the tracker: the outcomes that a Pauli error flips are the ones whose
    operators, propagated back to the error, anticommute with it. *)
From Coq Require Import QArith Qcanon.
From Verif Require Import Base Lib StimM NoiseM SpecNoise LayoutM SpecGen GeomP BlockM SpecTrack SpecExp SpecFault TrackP.
Open Scope Z_scope.

Lemma xorl_ext' {A} (f g : A -> bool) L : (forall x, In x L -> f x = g x) -> xorl (map f L) = xorl (map g L).
Proof. intros E. f_equal. now apply map_ext_in. Qed.
Lemma xorl_zero {A} (f : A -> bool) L : (forall x, In x L -> f x = false) -> xorl (map f L) = false.
Proof. intros E. apply xorl_false. intros b Hb. apply in_map_iff in Hb as (x & <- & Hx). now apply E. Qed.
Lemma xorl_two {A} (f g : A -> bool) L : xorl (map (fun x => xorb (f x) (g x)) L) = xorb (xorl (map f L)) (xorl (map g L)).
Proof.
  induction L as [|a L IH]; [reflexivity|]. cbn [map]. rewrite !xorl_cons, IH. destruct (f a), (g a), (xorl (map f L)), (xorl (map g L)); reflexivity.
Qed.
Lemma odd_xorl {A} (f : A -> bool) L : Nat.odd (length (filter f L)) = xorl (map f L).
Proof.
  induction L as [|a L IH]; [reflexivity|]. cbn [filter map]. rewrite xorl_cons, <- IH. destruct (f a); cbn [length]; [|now rewrite xorb_false_l].
  rewrite Nat.odd_succ, <- Nat.negb_odd. now destruct (Nat.odd _).
Qed.

Section Dual.
  Context {Q : Type} `{Eqb Q}.
  Implicit Types (E P W : pauli Q).
  (* the product of the operators on qubit q anticommutes *)
  Definition clash E W (q : Q) : bool := xorb (px E q && pz W q) (pz E q && px W q).
  Definition clashes (U : list Q) E W : bool := xorl (map (clash E W) U).

  Lemma xor_diff (U : list Q) f g q : NoDup U -> In q U -> (forall x, x <> q -> f x = g x) ->
    xorb (xorl (map f U)) (xorl (map g U)) = xorb (f q) (g q).
  Proof.
    intros N I D. rewrite <- xorl_two. rewrite (xor_unique U _ q N I); [reflexivity|]. intros y _ Ny. rewrite D by exact Ny. apply xorb_nilpotent.
  Qed.
  Lemma xor_diff2 (U : list Q) f g a b : NoDup U -> In a U -> In b U -> a <> b -> (forall x, x <> a -> x <> b -> f x = g x) ->
    xorb (xorl (map f U)) (xorl (map g U)) = xorb (xorb (f a) (g a)) (xorb (f b) (g b)).
  Proof.
    intros N Ia Ib Ne D. set (h := fun x => if eqb a x then f a else g x).
    assert (D1 : xorb (xorl (map f U)) (xorl (map h U)) = xorb (f b) (h b)).
    { apply xor_diff; auto. intros x Hx. unfold h. destruct (eqb_spec a x) as [->|Na]; [reflexivity|]. apply D; congruence. }
    assert (D2 : xorb (xorl (map h U)) (xorl (map g U)) = xorb (h a) (g a)).
    { apply xor_diff; auto. intros x Hx. unfold h. destruct (eqb_spec a x) as [->|Na]; [congruence|reflexivity]. }
    unfold h in D1 at 2. unfold h in D2 at 2. rewrite eqb_refl in D2. rewrite (proj2 (eqb_neq a b)) in D1 by exact Ne.
    rewrite <- D1, <- D2. destruct (xorl (map f U)), (xorl (map h U)), (xorl (map g U)); reflexivity.
  Qed.

  Definition uses (U : list Q) (g : gate Q) : Prop :=
    match g with G1 _ q => In q U | G2 _ a b => In a U /\ In b U /\ a <> b end.
  Lemma dual_step U g s E P W : NoDup U -> uses U g ->
    match g with G1 n q => back1 n q s P | G2 n a b => back2 n a b P end = Some W ->
    xorb (clashes U E W) (clashes U (moved g E) P) = measures_gate g && (s && seen g E).
  Proof.
    intros N Hu B. unfold clashes. destruct g as [n q|n a b]; cbn [uses] in Hu.
    - rewrite (xor_diff U _ _ q N Hu).
      + unfold back1 in B. unfold clash, moved, seen, measures_gate.
        destruct n; try discriminate B; cbn [is_meas] in *;
          repeat match type of B with (if ?b then _ else _) = _ => destruct b eqn:?; [discriminate B|] end;
          injection B as <-; unfold put2; cbn [px pz]; rewrite ?put_same;
          repeat match goal with H : ?x = false |- _ => match type of x with bool => try rewrite H in * end end;
          destruct (px E q), (pz E q), (px P q), (pz P q), s; cbn in *; congruence.
      + intros x Hx. unfold clash. unfold back1 in B. unfold moved.
        destruct n; try discriminate B;
          repeat match type of B with (if ?b then _ else _) = _ => destruct b eqn:?; [discriminate B|] end;
          injection B as <-; unfold put2; cbn [px pz]; rewrite ?put_other by congruence; reflexivity.
    - destruct Hu as (Ia & Ib & Ne). rewrite (xor_diff2 U _ _ a b N Ia Ib Ne).
      + unfold back2 in B. unfold clash, moved. cbn [measures_gate andb].
        destruct n; try discriminate B; injection B as <-; unfold put2; cbn [px pz]; rewrite ?put_same; rewrite ?(put_other _ b _ a), ?(put_other _ a _ b) by congruence; rewrite ?put_same;
          destruct (px E a), (pz E a), (px E b), (pz E b), (px P a), (pz P a), (px P b), (pz P b); reflexivity.
      + intros x Hx Hy. unfold clash. unfold back2 in B. unfold moved.
        destruct n; try discriminate B; injection B as <-; unfold put2; cbn [px pz]; rewrite ?put_other by congruence; reflexivity.
  Qed.

  (* the parity of the selected outcomes that are flipped *)
  Fixpoint flip_parity (l : list (gate Q)) (sel : nat -> bool) E : bool :=
    match l with
    | [] => false
    | g :: r => xorb (measures_gate g && (sel (S (num_meas r)) && seen g E)) (flip_parity r sel (moved g E))
    end.
  Fixpoint moves (l : list (gate Q)) E : pauli Q := match l with [] => E | g :: r => moves r (moved g E) end.
  Lemma dual U l sel : NoDup U -> Forall (uses U) l -> forall E P W, back l sel P = Some W ->
    xorb (clashes U E W) (clashes U (moves l E) P) = flip_parity l sel E.
  Proof.
    intros N F. induction F as [|g l Hg F IH]; intros E P W B; cbn [back] in B.
    - injection B as <-. cbn. apply xorb_nilpotent.
    - destruct (back l sel P) as [R|] eqn:B'; [|discriminate]. cbn [moves flip_parity].
      rewrite <- (IH (moved g E) P R B'). rewrite <- (dual_step U g (sel (S (num_meas l))) E R W N Hg); [|destruct g; exact B].
      destruct (clashes U E W), (clashes U (moved g E) R), (clashes U (moves l (moved g E)) P); reflexivity.
  Qed.
  Lemma clashes_id U E : clashes U E identity_op = false.
  Proof. unfold clashes. apply xorl_zero. intros x _. unfold clash. cbn. now rewrite !andb_false_r. Qed.
  Lemma dual_id U l sel E W : NoDup U -> Forall (uses U) l -> back l sel identity_op = Some W -> flip_parity l sel E = clashes U E W.
  Proof. intros N F B. rewrite <- (dual U l sel N F E _ W B), clashes_id. apply xorb_false_r. Qed.

  (* the list of flips *)
  Lemma flips_len (l : list (gate Q)) : forall E, length (flips l E) = num_meas l.
  Proof.
    induction l as [|g l IH]; intros E; [reflexivity|]. cbn [flips]. rewrite app_length, IH. unfold num_meas. cbn [filter].
    destruct (measures_gate g); reflexivity.
  Qed.
  Lemma flip_parity_sum (l : list (gate Q)) sel : forall E, flip_parity l sel E =
    xorl (map (fun k => sel k && nth (num_meas l - k) (flips l E) false) (seq 1 (num_meas l))).
  Proof.
    induction l as [|g l IH]; intros E; [reflexivity|]. cbn [flip_parity flips]. rewrite IH. clear IH.
    assert (En : num_meas (g :: l) = if measures_gate g then S (num_meas l) else num_meas l) by (unfold num_meas; cbn [filter]; now destruct (measures_gate g)).
    rewrite En. destruct (measures_gate g); cbn [andb app]; [|now rewrite xorb_false_l].
    rewrite seq_S, map_app, xorl_app. cbn [map]. rewrite xorl_cons. change (xorl []) with false. rewrite xorb_false_r. cbn [Nat.add].
    rewrite Nat.sub_diag. cbn [nth]. rewrite xorb_comm. f_equal. apply xorl_ext'. intros k Hk. apply in_seq in Hk.
    replace (S (num_meas l) - k)%nat with (S (num_meas l - k)) by lia. reflexivity.
  Qed.

  (* gates elsewhere *)
  Lemma back_elsewhere l sel P W q : Forall (fun g => touches q g = false) l -> back l sel P = Some W -> px W q = px P q /\ pz W q = pz P q.
  Proof.
    intros F. revert W. induction F as [|g l Hg F IH]; intros W B; cbn [back] in B; [injection B as <-; auto|].
    destruct (back l sel P) as [R|]; [|discriminate]. destruct (IH R eq_refl) as [<- <-]. clear IH.
    destruct g as [n x|n x y]; cbn [touches] in Hg.
    - apply eqb_neq in Hg. unfold back1 in B.
      destruct n; try discriminate B;
        repeat match type of B with (if ?b then _ else _) = _ => destruct b eqn:?; [discriminate B|] end;
        injection B as <-; unfold put2; cbn [px pz]; rewrite ?put_other by congruence; auto.
    - apply orb_false_iff in Hg as [H1 H2]. apply eqb_neq in H1, H2. unfold back2 in B.
      destruct n; try discriminate B; injection B as <-; unfold put2; cbn [px pz]; rewrite ?put_other by congruence; auto.
  Qed.
End Dual.
