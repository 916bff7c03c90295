(** Linear algebra behind C05-C08. *)
From Coq Require Import QArith Qcanon.
From Verif Require Import Base Lib StimM MatM MatP DetM SpecDet DetP DetCountP.
Open Scope Z_scope.

Definition rowg (g : gen) (a : string) : list bool := match dget a g with Some r => r | None => [] end.
Lemma gen_entry_rowg g a j : gen_entry g a j = nth j (rowg g a) false.
Proof. unfold gen_entry, rowg. destruct (dget a g); auto. now destruct j. Qed.
Lemma mapM_rowg ls (g : gen) rows : mapM (fun a => dget_err a g) ls = Ok rows -> rows = map (rowg g) ls.
Proof.
  intros H. apply mapM_rows in H. induction H as [|a r ls rows H _ IH]; simpl; [reflexivity|].
  unfold rowg at 1. now rewrite H, IH.
Qed.
Lemma as_function' {B} (e : B) (ls : list string) : forall (y : list B), NoDup ls -> length y = length ls -> exists v, map v ls = y.
Proof.
  induction ls as [|a ls IH]; intros [|b y]; simpl; try discriminate; [exists (fun _ => e); auto|].
  intros Hn [= E]. inversion Hn as [|? ? H1 H2]; subst. destruct (IH y H2 E) as [v Hv].
  exists (fun x => if eqb x a then b else v x). rewrite eqb_refl. f_equal. rewrite <- Hv. apply map_ext_in.
  intros x Hx. destruct (eqb_spec x a) as [->|]; [contradiction|reflexivity].
Qed.

Lemma choose {B} (e : B) (P : string -> B -> Prop) l : (forall k, In k l -> exists w, P k w) ->
  exists w, forall k, In k l -> P k (w k).
Proof.
  induction l as [|k l IH]; intros E; [exists (fun _ => e); intros k []|].
  destruct IH as [w Hw]. { intros k' Hk'. apply E. now right. }
  destruct (E k) as [wk Hwk]; [now left|].
  exists (fun x => if eqb x k then wk else w x). intros k' Hk'.
  destruct (eqb_spec k' k) as [->|]; auto. destruct Hk'; [congruence|auto].
Qed.

(** * Parity of a selected row *)
Lemma enumerate_from_combine {A} (l : list A) n : enumerate_from n l = combine (seq n (length l)) l.
Proof. revert n; induction l as [|x l IH]; intros n; simpl; [reflexivity|]. now rewrite IH. Qed.
Definition nz (x : Qc) : bool := negb (feqb0 QF x).
Lemma select_parity (o : string -> Z -> bool) k (f : string -> Qc) ls :
  xorl (map (fun t => o (fst t) (snd t)) (select ls (nonzero (map f ls)) k)) =
  xorl (map (fun a => nz (f a) && o a k) ls).
Proof.
  unfold nonzero, select, enumerate.
  assert (G : forall l p, xorl (map (fun t => o (fst t) (snd t)) (map (fun i => (nth i (p ++ l) "", k))
      (map fst (filter (fun kx => nz (snd kx)) (enumerate_from (length p) (map f l)))))) =
      xorl (map (fun a => nz (f a) && o a k) l)).
  { induction l as [|a l IH]; intros p; simpl; [reflexivity|].
    replace (p ++ a :: l) with ((p ++ [a]) ++ l) by (rewrite <- app_assoc; reflexivity).
    specialize (IH (p ++ [a])). rewrite app_length in IH. simpl in IH. rewrite Nat.add_1_r in IH.
    destruct (nz (f a)) eqn:E; simpl; rewrite IH.
    2: { match goal with |- ?x = _ => now destruct x end. }
    - f_equal. rewrite <- app_assoc. simpl. rewrite app_nth2 by lia. rewrite Nat.sub_diag. reflexivity. }
  apply (G ls []).
Qed.

(** * Scalar products as sums *)
Lemma dot_GF2_sum : forall r w n, length r = n -> length w = n ->
  dot GF2 r w = xorl (map (fun j => nth j r false && nth j w false) (seq 0 n)).
Proof.
  induction r as [|x r IH]; intros [|y w] [|n]; simpl; try discriminate; auto.
  intros [= E1] [= E2]. rewrite (IH w n) by auto. f_equal. rewrite <- seq_shift, map_map. reflexivity.
Qed.
Lemma qsum_add {A} (f g : A -> Qc) l : qsum (map (fun x => f x + g x)%Qc l) = (qsum (map f l) + qsum (map g l))%Qc.
Proof. induction l as [|x l IH]; simpl; [ring|]. rewrite IH. ring. Qed.
Lemma qsum_mul {A} (f : A -> Qc) c l : qsum (map (fun x => c * f x)%Qc l) = (c * qsum (map f l))%Qc.
Proof. induction l as [|x l IH]; simpl; [ring|]. rewrite IH. ring. Qed.
Lemma qsum_zero {A} (f : A -> Qc) l : (forall x, In x l -> f x = Q2Qc 0) -> qsum (map f l) = Q2Qc 0.
Proof. induction l as [|x l IH]; simpl; intros H; [reflexivity|]. rewrite H, IH by auto. ring. Qed.
Lemma qsum_ext {A} (f g : A -> Qc) l : (forall x, In x l -> f x = g x) -> qsum (map f l) = qsum (map g l).
Proof. intros H. now rewrite (map_ext_in f g l H). Qed.
Lemma qsum_swap {A B} (f : A -> B -> Qc) l r :
  qsum (map (fun x => qsum (map (f x) r)) l) = qsum (map (fun y => qsum (map (fun x => f x y) l)) r).
Proof.
  induction l as [|x l IH]; simpl.
  - symmetry. now apply qsum_zero.
  - rewrite IH, <- qsum_add. reflexivity.
Qed.
Lemma qsum_single {A} `{Eqb A} (x : A) f l : NoDup l -> In x l ->
  qsum (map (fun y => if eqb y x then f y else Q2Qc 0) l) = f x.
Proof.
  induction l as [|y l IH]; simpl; [tauto|]. inversion 1 as [|? ? Hn Hd]; subst. intros [->|Hi].
  - rewrite eqb_refl. rewrite qsum_zero; [ring|].
    intros z Hz. destruct (eqb_spec z x) as [->|]; [contradiction|reflexivity].
  - destruct (eqb_spec y x) as [->|]; [contradiction|]. rewrite IH by auto. ring.
Qed.
Lemma dot_QF_sum : forall r x n, length r = n -> length x = n ->
  dot QF (map q_of_bool r) x = qsum (map (fun j => q_of_bool (nth j r false) * nth j x (Q2Qc 0))%Qc (seq 0 n)).
Proof.
  induction r as [|b r IH]; intros [|y x] [|n]; simpl; try discriminate; auto.
  intros [= E1] [= E2]. rewrite (IH x n) by auto. f_equal. rewrite <- seq_shift, map_map. reflexivity.
Qed.

(** * Generators as linear maps *)
Definition gval (g : gen) (w : list bool) (a : string) : bool := dot GF2 (rowg g a) w.
Definition rows_ok (ls : list string) (g : gen) : Prop := forall a, In a ls -> length (rowg g a) = length ls.
Lemma rows_ok_curr d : wf_det d -> rows_ok (labels d) (curr_gen d).
Proof.
  intros Hw a Ha. unfold rowg. destruct (dget a (curr_gen d)) eqn:E; [eapply wf_crow; eauto|].
  apply dget_None in E. exfalso. apply E. eapply Permutation_in; [symmetry; apply Hw|auto].
Qed.
Lemma rows_ok_prev d : wf_det d -> rows_ok (labels d) (prev_gen d).
Proof.
  intros Hw a Ha. unfold rowg. destruct (dget a (prev_gen d)) eqn:E; [eapply wf_prow; eauto|].
  apply dget_None in E. exfalso. apply E. eapply Permutation_in; [symmetry; apply Hw|auto].
Qed.
Lemma gval_sum ls g w a : rows_ok ls g -> In a ls -> length w = length ls ->
  gval g w a = xorl (map (fun j => gen_entry g a j && nth j w false) (seq 0 (length ls))).
Proof.
  intros Hr Ha Hl. unfold gval. rewrite (dot_GF2_sum _ _ (length ls)); auto.
  apply xorl_ext. intros j _. now rewrite gen_entry_rowg.
Qed.
Lemma invertible_gval ls g : rows_ok ls g ->
  invertible ls g <-> (forall w, length w = length ls -> (forall a, In a ls -> gval g w a = false) -> w = repeat false (length ls)).
Proof.
  intros Hr. split.
  - intros Hi w Hl Hw. apply nth_ext with (d := false) (d' := false); [now rewrite repeat_length|].
    intros j Hj. rewrite nth_repeat. apply (Hi (fun j => nth j w false)); [|lia].
    intros a Ha. rewrite <- gval_sum; auto.
  - intros Hk w Hw j Hj.
    assert (E : map w (seq 0 (length ls)) = repeat false (length ls)).
    { apply Hk; [now rewrite map_length, seq_length|]. intros a Ha. rewrite (gval_sum ls); auto; [|now rewrite map_length, seq_length].
      etransitivity; [|exact (Hw a Ha)]. apply xorl_ext. intros i Hi. apply in_seq in Hi. f_equal.
      rewrite (nth_indep _ false (w 0%nat)) by (rewrite map_length, seq_length; lia).
      rewrite map_nth, seq_nth by lia. reflexivity. }
    apply (f_equal (fun l => nth j l false)) in E. rewrite nth_repeat in E. rewrite <- E.
    rewrite (nth_indep _ false (w 0%nat)) by (rewrite map_length, seq_length; lia).
    rewrite map_nth, seq_nth by lia. reflexivity.
Qed.
Lemma kernel_free_rows ls ancs g : Permutation ancs ls -> rows_ok ls g -> invertible ls g ->
  kernel_free (map (rowg g) ancs) /\ square (map (rowg g) ancs).
Proof.
  intros Hp Hr Hi. assert (Hl := Permutation_length Hp). split.
  - unfold kernel_free. rewrite map_length, Hl. intros y Hy Hz.
    apply (proj1 (invertible_gval ls g Hr) Hi); auto. intros a Ha. apply Hz. apply in_map.
    eapply Permutation_in; [symmetry; exact Hp|auto].
  - unfold square. rewrite map_length, Hl. apply Forall_forall. intros r Hin. apply in_map_iff in Hin as (a & <- & Ha).
    apply Hr. eapply Permutation_in; eauto.
Qed.

(** * Characterisation of the contributions *)
Section Meas.
  Variables (ls : list string) (curr prev basis : gen).
  Hypotheses (Hn : NoDup ls) (Hp : Permutation (dkeys curr) ls)
             (Rc : rows_ok ls curr) (Rp : rows_ok ls prev) (Rb : rows_ok ls basis).
  (* the columns of the inverse of the basis *)
  Definition is_inv (col : string -> list Qc) : Prop :=
    forall k, In k ls -> length (col k) = length ls /\
      forall a, In a ls -> dot QF (map q_of_bool (rowg basis a)) (col k) = q_of_bool (eqb a k).
  Definition crow (col : string -> list Qc) (g : gen) (a : string) : list Qc :=
    map (fun k => dot QF (map q_of_bool (rowg g a)) (col k)) (dkeys curr).
  Definition contributions (col : string -> list Qc) (rc rp : bool) (n : Z) (a : string) : list (string * Z) :=
    let c := nonzero (crow col curr a) in
    let p := nonzero (crow col prev a) in
    select (dkeys curr) c (-1) ++ (if 2 <=? n then select (dkeys curr) p (-2) else []) ++
    (if negb rc && (2 <=? n) then select (dkeys curr) c (-2) else []) ++
    (if negb rp && (3 <=? n) then select (dkeys curr) p (-3) else []).

  Lemma index_label (ancs : list string) i a : NoDup ancs -> nth_error ancs i = Some a ->
    forall j b, nth_error ancs j = Some b -> Nat.eqb i j = eqb a b.
  Proof.
    intros N E j b E'. destruct (Nat.eqb_spec i j) as [->|Hij].
    - symmetry. rewrite E in E'. injection E' as <-. apply eqb_refl.
    - symmetry. apply eqb_neq. intros <-. apply Hij. eapply NoDup_nth_error; eauto; [apply nth_error_Some|]; congruence.
  Qed.

  Lemma get_anc_meas_char nr rc rp dets : get_anc_meas curr prev basis nr rc rp = Ok dets ->
    exists col, is_inv col /\
      Forall2 (fun a x => exists n, dget a nr = Some n /\ x = (a, contributions col rc rp n a)) (dkeys curr) dets.
  Proof.
    unfold get_anc_meas. intros H. apply bind_ok in H as [C [E1 H]]. apply bind_ok in H as [B [E2 H]].
    apply bind_ok in H as [P [E3 H]]. apply bind_ok in H as [X [E4 H]].
    apply mapM_rowg in E1, E2, E3. subst C B P.
    destruct (inverse_cols QF _) as [X'|] eqn:EX; simpl in E4; [|discriminate]. injection E4 as ->.
    assert (Hl := Permutation_length Hp).
    assert (Hnk : NoDup (dkeys curr)) by (eapply Permutation_NoDup; [symmetry; exact Hp|auto]).
    assert (SQ : square (qmat (map (rowg basis) (dkeys curr)))).
    { apply qmat_square. unfold square. rewrite map_length, Hl. apply Forall_forall. intros r Hin.
      apply in_map_iff in Hin as (a & <- & Ha). apply Rb. eapply Permutation_in; eauto. }
    destruct (inverse_cols_spec QF QF_laws _ _ SQ EX) as (L1 & L2 & L3).
    unfold qmat in L1, L2, L3. rewrite !map_length in *.
    destruct (as_function' [] (dkeys curr) X Hnk) as [col Hcol]; [congruence|].
    exists col. split.
    - intros k Hk. apply (Permutation_in _ (Permutation_sym Hp)) in Hk.
      apply In_nth_error in Hk as [j Hj].
      assert (Lj : (j < length (dkeys curr))%nat) by (apply nth_error_Some; congruence).
      assert (Ej : nth j X [] = col k).
      { rewrite <- Hcol. erewrite nth_error_nth; [reflexivity|]. now apply map_nth_error. }
      split.
      + rewrite <- Ej, <- Hl. rewrite Forall_forall in L2. apply L2. apply nth_In. congruence.
      + intros a Ha. apply (Permutation_in _ (Permutation_sym Hp)) in Ha. apply In_nth_error in Ha as [i Hi].
        assert (Li : (i < length (dkeys curr))%nat) by (apply nth_error_Some; congruence).
        specialize (L3 i j Li Lj). rewrite Ej in L3.
        erewrite nth_error_nth in L3 by (apply map_nth_error; apply map_nth_error; exact Hi).
        rewrite L3, (index_label _ _ _ Hnk Hi _ _ Hj). now destruct (eqb a k).
    - subst X. unfold change_basis in H. rewrite !map_map in H.
      assert (Ec : forall g, map (fun x => map (dot QF (map q_of_bool (rowg g x))) (map col (dkeys curr))) (dkeys curr)
                 = map (crow col g) (dkeys curr)).
      { intros g. apply map_ext. intros a. unfold crow. now rewrite map_map. }
      rewrite !Ec, map_combine in H.
      unfold contributions.
      assert (ZZ : forall f : string * (list Qc * list Qc) -> res (string * list (string * Z)), forall l dets,
        mapM f (combine l (map (fun x => (crow col curr x, crow col prev x)) l)) = Ok dets ->
        Forall2 (fun a x => f (a, (crow col curr a, crow col prev a)) = Ok x) l dets).
      { clear. intros f l. induction l as [|a l IH]; simpl; intros dets H.
        - injection H as <-. constructor.
        - apply bind_ok in H as [z [Hz H]]. apply bind_ok in H as [zs [Hzs H]]. injection H as <-. constructor; auto. }
      apply ZZ in H. eapply Forall2_impl'; [|exact H]. intros a x Hx. simpl in Hx.
      apply bind_ok in Hx as [n [Hx1 Hx]]. injection Hx as <-.
      exists n. split; [|reflexivity].
      unfold dget_err in Hx1. destruct (dget a nr); simpl in Hx1; congruence.
  Qed.

  (* parity of one of the four groups of contributions *)
  Definition pr (col : string -> list Qc) (g : gen) (a : string) (f : string -> bool) : bool :=
    xorl (map (fun k => nz (dot QF (map q_of_bool (rowg g a)) (col k)) && f k) ls).
  Lemma select_pr col g a (o : string -> Z -> bool) k :
    xorl (map (fun t => o (fst t) (snd t)) (select (dkeys curr) (nonzero (crow col g a)) k)) = pr col g a (fun q => o q k).
  Proof. unfold crow, pr. rewrite select_parity. apply xorl_perm, Permutation_map, Hp. Qed.
  Lemma contributions_parity col rc rp n a (o : string -> Z -> bool) :
    xorl (map (fun t => o (fst t) (snd t)) (contributions col rc rp n a)) =
    xorb (pr col curr a (fun q => o q (-1)))
      (xorb (if 2 <=? n then pr col prev a (fun q => o q (-2)) else false)
      (xorb (if negb rc && (2 <=? n) then pr col curr a (fun q => o q (-2)) else false)
            (if negb rp && (3 <=? n) then pr col prev a (fun q => o q (-3)) else false))).
  Proof.
    unfold contributions. rewrite !map_app, !xorl_app, select_pr.
    destruct (2 <=? n); simpl; rewrite ?select_pr; destruct (negb rc); simpl; rewrite ?select_pr;
      destruct (negb rp); simpl; try reflexivity; destruct (3 <=? n); rewrite ?select_pr; reflexivity.
  Qed.

  (* the contributions of the basis itself *)
  Lemma pr_basis col a f : is_inv col -> In a ls -> pr col basis a f = f a.
  Proof.
    intros Hi Ha. unfold pr.
    rewrite (xorl_ext _ (fun k => eqb k a && f k)).
    - now apply xorl_single.
    - intros k Hk. destruct (Hi k Hk) as [_ Hd]. rewrite Hd by auto. rewrite eqb_sym.
      destruct (eqb k a); reflexivity.
  Qed.
  Lemma pr_ext col g a f f' : (forall k, In k ls -> f k = f' k) -> pr col g a f = pr col g a f'.
  Proof. intros H. apply xorl_ext. intros k Hk. now rewrite H. Qed.
  Lemma pr_xor col g a f f' : pr col g a (fun k => xorb (f k) (f' k)) = xorb (pr col g a f) (pr col g a f').
  Proof.
    unfold pr. rewrite <- xorl_map_xor. apply xorl_ext. intros k _.
    destruct (nz _), (f k), (f' k); reflexivity.
  Qed.
  Lemma pr_false col g a : pr col g a (fun _ => false) = false.
  Proof. apply xorl_false. intros k _. now destruct (nz _). Qed.

  (* the columns of the inverse modulo 2 *)
  Definition is_par (col : string -> list Qc) (w : string -> list bool) : Prop :=
    forall k, In k ls -> length (w k) = length ls /\
      (forall a, In a ls -> gval basis (w k) a = eqb a k) /\
      (forall c, exists d z, Z.odd d = true /\ (Z2Qc d * dot QF (map q_of_bool c) (col k))%Qc = Z2Qc z /\
                             Z.odd z = dot GF2 c (w k)).
  Lemma parity_inverse col : invertible ls basis -> is_inv col -> exists w, is_par col w.
  Proof.
    intros Hb Hi.
    assert (E : forall k, In k ls -> exists w, length w = length ls /\
      (forall a, In a ls -> gval basis w a = eqb a k) /\
      (forall c, exists d z, Z.odd d = true /\ (Z2Qc d * dot QF (map q_of_bool c) (col k))%Qc = Z2Qc z /\
                             Z.odd z = dot GF2 c w)).
    { intros k Hk. destruct (Hi k Hk) as [Hl Hd].
      destruct (kernel_free_rows ls ls basis) as [KF SQ]; auto.
      destruct (rational_parity (map (rowg basis) ls) (map (fun a => eqb a k) ls) (col k)) as (d & y & D1 & D2 & D3 & D4 & D5);
        rewrite ?map_length; auto.
      - intros i Hlt. destruct (nth_error ls i) as [a|] eqn:Ea; [|apply nth_error_None in Ea; lia].
        rewrite (nth_error_nth _ i [] (map_nth_error (rowg basis) i ls Ea)).
        rewrite (nth_error_nth _ i false (map_nth_error (fun a => eqb a k) i ls Ea)).
        apply Hd. eapply nth_error_In; eauto.
      - exists (map Z.odd y). rewrite map_length in D3. split; [now rewrite map_length|]. split.
        + intros a Ha. apply In_nth_error in Ha as [i Hi'].
          assert (Li : (i < length (map (rowg basis) ls))%nat) by (rewrite map_length; apply nth_error_Some; congruence).
          specialize (D5 i Li).
          rewrite (nth_error_nth _ i [] (map_nth_error (rowg basis) i ls Hi')) in D5.
          rewrite (nth_error_nth _ i false (map_nth_error (fun a => eqb a k) i ls Hi')) in D5. exact D5.
        + intros c. exists d, (zdot c y). split; auto. split; auto. apply zdot_odd. }
    apply (choose []) in E as [w Hw]. exists w. exact Hw.
  Qed.

  (* with no even entry the real inverse selects the same outcomes as GF(2) *)
  Lemma clean_entry col g N a k : is_inv col -> rows_ok ls g -> change_of_basis ls basis g N -> In a ls -> In k ls ->
    dot QF (map q_of_bool (rowg g a)) (col k) = N a k.
  Proof.
    intros Hi Rg Hc Ha Hk. destruct (Hi k Hk) as [Hl Hd].
    rewrite (dot_QF_sum _ _ (length ls)); auto.
    rewrite (qsum_ext _ (fun j => qsum (map (fun l => N a l * (q_of_bool (gen_entry basis l j) * nth j (col k) (Q2Qc 0)))%Qc ls))).
    - rewrite qsum_swap.
      rewrite (qsum_ext _ (fun l => if eqb l k then N a l else Q2Qc 0)).
      + now apply (qsum_single k (N a)).
      + intros l Hl'. rewrite qsum_mul.
        rewrite (qsum_ext _ (fun j => q_of_bool (nth j (rowg basis l) false) * nth j (col k) (Q2Qc 0))%Qc)
          by (intros j _; now rewrite gen_entry_rowg).
        rewrite <- dot_QF_sum; auto. rewrite Hd by auto. destruct (eqb l k); simpl; ring.
    - intros j Hj. apply in_seq in Hj. rewrite <- gen_entry_rowg, <- (Hc a j) by (auto; lia).
      rewrite Qcmult_comm, <- qsum_mul. apply qsum_ext. intros l _. ring.
  Qed.
  Lemma nz_parity x d z : Z.odd d = true -> (Z2Qc d * x)%Qc = Z2Qc z ->
    x = Q2Qc 0 \/ Z.odd (Qnum (this x)) = true -> nz x = Z.odd z.
  Proof.
    intros Hd E [->|Ho].
    - assert (z = 0). { apply Z2Qc_inj. rewrite <- E. change (Z2Qc 0) with (Q2Qc 0). ring. } subst. reflexivity.
    - assert (Nx : nz x = true).
      { unfold nz, feqb0, QF. destruct (Qc_eq_dec x (Q2Qc 0)) as [->|]; [discriminate|reflexivity]. }
      rewrite Nx. symmetry. pose proof (clear_one x) as C.
      assert (Ez : (d * Qnum (this x) = z * Z.pos (Qden (this x)))%Z).
      { apply Z2Qc_inj. rewrite !Z2Qc_mul, <- C, <- E. ring. }
      apply (f_equal Z.odd) in Ez. rewrite !Z.odd_mul, Hd, Ho in Ez. simpl in Ez. symmetry in Ez.
      now apply andb_true_iff in Ez.
  Qed.
  (* an odd entry is never lost *)
  Lemma odd_nz x d z : (Z2Qc d * x)%Qc = Z2Qc z -> Z.odd z = true -> nz x = true.
  Proof.
    intros E Ho. unfold nz, feqb0, QF. destruct (Qc_eq_dec x (Q2Qc 0)) as [->|]; [|reflexivity].
    assert (z = 0). { apply Z2Qc_inj. rewrite <- E. change (Z2Qc 0) with (Q2Qc 0). ring. } subst. discriminate.
  Qed.
  Lemma pr_clean col w g N a f : is_inv col -> is_par col w -> rows_ok ls g -> change_of_basis ls basis g N -> no_even ls N ->
    In a ls -> pr col g a f = xorl (map (fun k => gval g (w k) a && f k) ls).
  Proof.
    intros Hi Hw Rg Hc He Ha. apply xorl_ext. intros k Hk. f_equal.
    destruct (Hw k Hk) as (_ & _ & Hz). destruct (Hz (rowg g a)) as (d & z & D1 & D2 & D3).
    rewrite (nz_parity _ d z); auto. rewrite (clean_entry col g N); auto.
  Qed.
End Meas.

(** * Linear maps on stabilizer values *)
Definition eqon (ls : list string) (v v' : string -> bool) : Prop := forall a, In a ls -> v a = v' a.
Record linear (ls : list string) (f : (string -> bool) -> string -> bool) : Prop := {
  l_xor : forall v v' a, In a ls -> f (fun x => xorb (v x) (v' x)) a = xorb (f v a) (f v' a);
  l_ext : forall v v', eqon ls v v' -> eqon ls (f v) (f v') }.
Definition delta (k : string) : string -> bool := fun a => eqb a k.
Lemma linear_zero ls f v : linear ls f -> eqon ls v (fun _ => false) -> eqon ls (f v) (fun _ => false).
Proof.
  intros Hf H a Ha.
  assert (E : f v a = f (fun x => xorb (v x) (v x)) a).
  { apply (l_ext _ _ Hf); auto. intros x Hx. rewrite (H x Hx). reflexivity. }
  rewrite E, (l_xor _ _ Hf) by auto. apply xorb_nilpotent.
Qed.
Lemma linear_sum ls f v a : NoDup ls -> linear ls f -> In a ls ->
  f v a = xorl (map (fun k => f (delta k) a && v k) ls).
Proof.
  intros Hn Hf Ha.
  assert (G : forall l, NoDup l -> f (fun x => mem x l && v x) a = xorl (map (fun k => f (delta k) a && v k) l)).
  { induction l as [|k l IH]; intros Hl; simpl.
    - now apply (linear_zero ls).
    - inversion Hl as [|? ? N1 N2]; subst. rewrite <- IH by auto.
      assert (E : f (fun x => (eqb x k || mem x l) && v x) a =
                  f (fun x => xorb (eqb x k && v k) (mem x l && v x)) a).
      { apply (l_ext _ _ Hf); auto. intros x _. destruct (eqb_spec x k) as [->|]; simpl.
        - apply mem_not_In in N1. rewrite N1. now destruct (v k).
        - now destruct (mem x l && v x). }
      rewrite E, (l_xor _ _ Hf) by auto. f_equal. destruct (v k).
      + rewrite andb_true_r. apply (l_ext _ _ Hf); auto. intros x _. unfold delta. now rewrite andb_true_r.
      + rewrite andb_false_r. apply (linear_zero ls); auto. intros x _. now rewrite andb_false_r. }
  rewrite <- (G ls Hn). apply (l_ext _ _ Hf); auto. intros x Hx. apply mem_In in Hx. now rewrite Hx.
Qed.
Lemma linear_comp ls f g : linear ls f -> linear ls g -> linear ls (fun v => f (g v)).
Proof.
  intros Hf Hg. split.
  - intros v v' a Ha. rewrite <- (l_xor _ _ Hf) by auto. apply (l_ext _ _ Hf); auto. intros x Hx. now apply (l_xor _ _ Hg).
  - intros v v' H. apply (l_ext _ _ Hf), (l_ext _ _ Hg), H.
Qed.
Lemma linear_id ls : linear ls (fun v => v).
Proof. split; auto. Qed.

(* the calls whose stabilizer map only involves the ancillas of the object *)
Definition gate_ok (ls : list string) (o : dop) : Prop :=
  match o with DUpd u => incl (u_old u) ls | DUpdD nd => dict_known ls nd | _ => True end.
Lemma gate_linear ls o : gate_ok ls o -> linear ls (gate_map o).
Proof.
  destruct o as [|l|l|u|nd|g r q|g s r rc q]; simpl; intros Ho; try apply linear_id.
  - split.
    + intros v v' a _. unfold gate_map. rewrite <- xorl_map_xor. apply xorl_ext. intros b _. now destruct (entry u a b), (v b), (v' b).
    + intros v v' H a _. unfold gate_map. apply xorl_ext. intros b Hb. now rewrite H by auto.
  - split.
    + intros v v' a _. unfold gate_map. destruct (dget a nd) as [l|]; auto. apply (xorl_map_xor v v').
    + intros v v' H a Ha. unfold gate_map. destruct (dget a nd) as [l|] eqn:E; auto. apply xorl_ext. intros b Hb.
      apply H. apply dget_In in E. destruct (Ho _ _ E) as [_ Hi]. apply Hi. now apply nodup_In in Hb.
Qed.
Lemma gap_linear ls gap : Forall (gate_ok ls) gap -> linear ls (gap_map gap).
Proof.
  unfold gap_map. intros H.
  assert (G : forall f, linear ls f -> linear ls (fun v => fold_left (fun v o => gate_map o v) gap (f v))).
  { induction H as [|o gap Ho _ IH]; intros f Hf; simpl; auto.
    apply (IH (fun v => gate_map o (f v))). apply (linear_comp ls (gate_map o) f); auto. now apply gate_linear. }
  apply (G (fun v => v)), linear_id.
Qed.

Lemma update_from_dict_ok nd d d' : update_from_dict nd d = (d', Ok tt) -> dict_known (labels d) nd.
Proof.
  unfold update_from_dict. destruct (strict_superset _ _); [discriminate|].
  destruct (forallb _ nd) eqn:E; simpl; [|discriminate]. intros _ a l Hi.
  rewrite forallb_forall in E. specialize (E _ Hi). simpl in E. apply andb_true_iff in E as [E1 E2].
  split; [now apply mem_In|]. intros x Hx. rewrite forallb_forall in E2. now apply mem_In, E2.
Qed.
(* an update changes the values of the current generators by the stabilizer map *)
Lemma gval_xorl ls g w a (S : list string) (e : string -> bool) g' : rows_ok ls g -> rows_ok ls g' -> In a ls -> length w = length ls ->
  incl S ls -> (forall j, gen_entry g' a j = xorl (map (fun b => e b && gen_entry g b j) S)) ->
  gval g' w a = xorl (map (fun b => e b && gval g w b) S).
Proof.
  intros Rg Rg' Ha Hw HS H. rewrite (gval_sum ls) by auto.
  rewrite (xorl_ext _ (fun j => xorl (map (fun b => (e b && gen_entry g b j) && nth j w false) S))).
  - rewrite xorl_swap. apply xorl_ext. intros b Hb. rewrite (gval_sum ls) by auto. rewrite <- xorl_and.
    apply xorl_ext. intros j _. now rewrite andb_assoc.
  - intros j _. rewrite H, andb_comm, <- xorl_and. apply xorl_ext. intros b _. apply andb_comm.
Qed.
Lemma update_gval o d d' c w : wf_det d -> is_update o = true -> call o d = (d', Ok c) -> length w = length (labels d) ->
  gate_ok (labels d) o /\ prev_gen d' = prev_gen d /\
  eqon (labels d) (gval (curr_gen d') w) (gate_map o (gval (curr_gen d) w)).
Proof.
  intros Hw Hu H Hl. destruct (keeps_call _ _ _ _ H Hw) as [Hw' [S1 _]].
  assert (Rc := rows_ok_curr d Hw). assert (Rc' := rows_ok_curr d' Hw'). rewrite S1 in Rc'.
  destruct o as [|l|l|u|nd|g r q|g s r rc q]; simpl in Hu, H; try discriminate; apply quiet_ok in H as [H ->].
  - destruct (update_entry _ _ _ Hw H) as (P & _ & _ & _ & E).
    assert (I : incl (u_old u) (labels d)).
    { destruct (update_char _ _ _ _ Hw H) as [[_ (e & X & _)]|[_ (rows & U & _)]]; [discriminate|].
      intros x Hx. eapply Permutation_in; [apply U|auto]. }
    split; [exact I|]. split; [exact P|]. intros a Ha. simpl.
    apply (gval_xorl (labels d)); auto.
  - pose proof (update_from_dict_ok _ _ _ H) as K. split; [exact K|].
    destruct (C11_ok_lemma _ _ _ Hw K H) as (P & _ & _ & _ & E). split; [exact P|]. intros a Ha. simpl.
    specialize (fun j => E a j Ha).
    destruct (dget a nd) as [l|] eqn:El.
    + rewrite (gval_xorl (labels d) (curr_gen d) w a (nodup string_dec l) (fun _ => true) (curr_gen d')); auto.
      intros x Hx. apply nodup_In in Hx. apply dget_In in El. destruct (K _ _ El) as [_ Hi]. auto.
    + rewrite (gval_sum (labels d)), (gval_sum (labels d)) by auto. apply xorl_ext. intros j _. now rewrite E.
Qed.
Lemma act_gens l d d' : activate l d = (d', Ok tt) -> prev_gen d' = prev_gen d /\ curr_gen d' = curr_gen d.
Proof.
  unfold activate. destruct (strict_superset _ _); [discriminate|]. intros H.
  apply activate_iter in H as (_ & _ & _ & H1 & H2 & _). auto.
Qed.
Lemma gap_link gap : forall d d' cs, wf_det d -> Forall (fun o => gap_op o = true) gap -> dhist d gap d' cs ->
  Forall (gate_ok (labels d)) gap /\ prev_gen d' = prev_gen d /\
  forall w, length w = length (labels d) ->
    eqon (labels d) (gval (curr_gen d') w) (gap_map gap (gval (curr_gen d) w)).
Proof.
  induction gap as [|o gap IH]; intros d d' cs Hw Hg H; inversion H as [|? ? d1 ? ? ? ? H1 H2]; subst.
  - split; [constructor|]. split; auto. intros w _ a _. reflexivity.
  - inversion Hg as [|? ? Hg1 Hg2]; subst. destruct (keeps_call _ _ _ _ H1 Hw) as [Hw1 [S1 _]].
    destruct (IH _ _ _ Hw1 Hg2 H2) as (G1 & G2 & G3). rewrite S1 in *.
    destruct (is_update o) eqn:Eu.
    + assert (Hok : gate_ok (labels d) o) by (eapply (update_gval o d d1 c (repeat false (length (labels d)))); eauto using repeat_length).
      split; [constructor; auto|]. split.
      * rewrite G2. eapply (update_gval o d d1 c (repeat false (length (labels d)))); eauto using repeat_length.
      * intros w Hl a Ha. rewrite G3 by auto. unfold gap_map; simpl.
        apply (l_ext _ _ (gap_linear _ _ G1)); auto. eapply update_gval; eauto.
    + destruct o; simpl in *; try discriminate. apply quiet_ok in H1 as [H1 ->].
      destruct (act_gens _ _ _ H1) as [A1 A2]. split; [constructor; simpl; auto|]. split; [congruence|].
      intros w Hl a Ha. rewrite G3 by auto. unfold gap_map; simpl. now rewrite A2.
Qed.

(** * Deterministic detectors *)
Definition keeps_rel (ls : list string) (G : (string -> bool) -> string -> bool) (prev curr : gen) : Prop :=
  forall w, length w = length ls -> eqon ls (gval curr w) (G (gval prev w)).
Lemma invertible_curr ls G prev curr : linear ls G -> involution ls G -> rows_ok ls prev -> rows_ok ls curr ->
  keeps_rel ls G prev curr -> invertible ls prev -> invertible ls curr.
Proof.
  intros Hl Hi Rp Rc Hk Hp. apply (invertible_gval ls curr Rc). intros w Hw Hz.
  apply (proj1 (invertible_gval ls prev Rp) Hp); auto. intros a Ha.
  rewrite <- (Hi (gval prev w) a Ha).
  transitivity (G (fun _ => false) a).
  - apply (l_ext _ _ Hl); auto. intros b Hb. rewrite <- (Hk w Hw b Hb). auto.
  - now apply (linear_zero ls).
Qed.
(* post-gate: basis = curr *)
Lemma pr_prev ls G prev curr col N a f : NoDup ls -> linear ls G -> involution ls G ->
  rows_ok ls prev -> rows_ok ls curr ->
  keeps_rel ls G prev curr -> invertible ls curr -> is_inv ls curr col ->
  change_of_basis ls curr prev N -> no_even ls N -> In a ls -> pr ls col prev a f = G f a.
Proof.
  intros Hn Hl Hi Rp Rc Hk Hc Hinv Hch He Ha.
  destruct (parity_inverse ls curr Rc col Hc Hinv) as [w Hw].
  rewrite (pr_clean ls curr Hn Rc col w prev N); auto.
  rewrite (linear_sum ls G f a) by auto. apply xorl_ext. intros k Hkk. f_equal.
  destruct (Hw k Hkk) as (L & D & _).
  rewrite <- (Hi (gval prev (w k)) a Ha). apply (l_ext _ _ Hl); auto.
  intros b Hb. rewrite <- (Hk _ L b Hb). now apply D.
Qed.
(* pre-gate: basis = prev *)
Lemma pr_curr ls G prev curr col N a f : NoDup ls -> linear ls G ->
  rows_ok ls prev -> rows_ok ls curr ->
  keeps_rel ls G prev curr -> invertible ls prev -> is_inv ls prev col ->
  change_of_basis ls prev curr N -> no_even ls N -> In a ls -> pr ls col curr a f = G f a.
Proof.
  intros Hn Hl Rp Rc Hk Hc Hinv Hch He Ha.
  destruct (parity_inverse ls prev Rp col Hc Hinv) as [w Hw].
  rewrite (pr_clean ls prev Hn Rp col w curr N); auto.
  rewrite (linear_sum ls G f a) by auto. apply xorl_ext. intros k Hkk. f_equal.
  destruct (Hw k Hkk) as (L & D & _).
  rewrite (Hk _ L a Ha). apply (l_ext _ _ Hl); auto.
Qed.

Lemma mapM_outcomes g outcome o l recs : reads g outcome o -> mapM (fun x : string * Z => g (fst x) (snd x)) l = Ok recs ->
  xorl (map outcome recs) = xorl (map (fun t => o (fst t) (snd t)) l).
Proof.
  intros Hr H. apply mapM_Forall2 in H. induction H as [|x t l recs H _ IH]; simpl; [reflexivity|].
  rewrite IH. f_equal. eapply Hr; eauto.
Qed.
Lemma Forall2_trans {A B C} (P : A -> B -> Prop) (Q : B -> C -> Prop) (R : A -> C -> Prop) l m r :
  (forall a b c, In a l -> P a b -> Q b c -> R a c) -> Forall2 P l m -> Forall2 Q m r -> Forall2 R l r.
Proof.
  intros H HP. revert r. induction HP as [|a b l m Hab _ IH]; intros r HQ; inversion HQ; subst; constructor.
  - eapply H; eauto. now left.
  - apply IH; auto. intros; eapply H; eauto. now right.
Qed.

Section Deterministic.
  Variables (d1 d2 : detectors) (gap : list dop) (cs : list circuit).
  Hypotheses (Hw1 : wf_det d1) (Hsame : prev_gen d1 = curr_gen d1) (Hinv : invertible (labels d1) (curr_gen d1))
             (Hgap : Forall (fun o => gap_op o = true) gap) (Hh : dhist d1 gap d2 cs)
             (Hvol : involution (labels d1) (gap_map gap)).
  Let ls := labels d1.
  Let G := gap_map gap.

  Lemma det_facts : wf_det d2 /\ labels d2 = ls /\ dfr d2 = dfr d1 /\ linear ls G /\ rows_ok ls (prev_gen d2) /\ rows_ok ls (curr_gen d2) /\
    keeps_rel ls G (prev_gen d2) (curr_gen d2) /\ invertible ls (prev_gen d2) /\ invertible ls (curr_gen d2).
  Proof.
    destruct (dhist_wf _ _ _ _ Hh Hw1) as [Hw2 (S1 & S2 & _)].
    destruct (gap_link _ _ _ _ Hw1 Hgap Hh) as (G1 & G2 & G3).
    assert (HL : linear ls G) by now apply gap_linear.
    assert (R1 : rows_ok ls (prev_gen d2)) by (unfold ls; rewrite <- S1; now apply rows_ok_prev).
    assert (R2 : rows_ok ls (curr_gen d2)) by (unfold ls; rewrite <- S1; now apply rows_ok_curr).
    assert (K : keeps_rel ls G (prev_gen d2) (curr_gen d2)).
    { intros w Hl. rewrite G2, Hsame. now apply G3. }
    assert (I1 : invertible ls (prev_gen d2)) by (rewrite G2, Hsame; exact Hinv).
    assert (I2 : invertible ls (curr_gen d2)) by exact (invertible_curr ls G (prev_gen d2) (curr_gen d2) HL Hvol R1 R2 K I1).
    exact (conj Hw2 (conj S1 (conj S2 (conj HL (conj R1 (conj R2 (conj K (conj I1 I2)))))))).
  Qed.

  Lemma C05_lemma g reset req d3 c outcome o v1 v2 :
    dfr d1 <> GateIndep -> clean d2 ->
    build_from_anc g reset req d2 = (d3, Ok c) -> reads g outcome o ->
    (forall a, In a ls -> v1 a = G v2 a) ->
    Forall2 (fun a i => forall n, dget a (num_rounds d3) = Some n -> noiseless reset n ls o v1 v2 ->
      (2 <= n -> parity outcome i = false) /\
      (n = 1 -> (forall b, In b ls -> v2 b = false) -> parity outcome i = false)) (dkeys (curr_gen d2)) c.
  Proof.
    intros Hf (N & Hch & He) Hb Hr Hv.
    destruct det_facts as (Hw2 & S1 & S2 & HL & R1 & R2 & K & I1 & I2).
    assert (Hn : NoDup ls) by apply Hw1.
    assert (Hp : Permutation (dkeys (curr_gen d2)) ls) by (rewrite <- S1; apply Hw2).
    assert (NZ := linear_zero ls G).
    apply build_from_anc_inv in Hb as [[_ [e Hb]]|(ancs & nr & E1 & E2 & Hb)]; [discriminate|].
    destruct Hb as [[_ [e Hb]]|(dets & c' & H1 & H2 & -> & H3)]; [discriminate|]. injection H3 as ->.
    apply det_instrs in H2 as [-> F]. cbn [num_rounds set_gens set_rounds].
    rewrite S1 in *.
    (* the two frames give the same facts up to exchanging the roles *)
    assert (M : exists col,
      Forall2 (fun a x => exists n, dget a nr = Some n /\ x = (a, contributions (curr_gen d2) (prev_gen d2) col reset reset n a)) (dkeys (curr_gen d2)) dets /\
      ((forall a f, In a ls -> pr ls col (curr_gen d2) a f = f a) /\ (forall a f, In a ls -> pr ls col (prev_gen d2) a f = G f a) \/
       (forall a f, In a ls -> pr ls col (curr_gen d2) a f = G f a) /\ (forall a f, In a ls -> pr ls col (prev_gen d2) a f = f a))).
    { rewrite S2 in H1. unfold frame_gens in Hch. rewrite S2 in Hch. destruct (dfr d1) eqn:Ef; [| |congruence]; simpl in Hch.
      - destruct (get_anc_meas_char ls _ _ _ Hn Hp R1 _ _ _ _ H1) as (col & Hi & Hd).
        exists col. split; auto. right. split.
        + intros a f Ha. exact (pr_curr ls G (prev_gen d2) (curr_gen d2) col N a f Hn HL R1 R2 K I1 Hi Hch He Ha).
        + intros a f Ha. eapply pr_basis; eauto.
      - destruct (get_anc_meas_char ls _ _ _ Hn Hp R2 _ _ _ _ H1) as (col & Hi & Hd).
        exists col. split; auto. left. split.
        + intros a f Ha. eapply pr_basis; eauto.
        + intros a f Ha. exact (pr_prev ls G (prev_gen d2) (curr_gen d2) col N a f Hn HL Hvol R1 R2 K I2 Hi Hch He Ha). }
    destruct M as (col & Hd & M).
    eapply Forall2_trans; [|exact Hd|exact F].
    intros a x i Hin (n & En & ->) [_ Ht] n' En' Hno. simpl in Ht. rewrite En in En'. injection En' as <-.
    assert (Ha : In a ls) by (eapply Permutation_in; eauto).
    unfold parity. destruct (mem a ancs) eqn:Em; [|rewrite Ht; split; reflexivity].
    rewrite (mapM_outcomes _ _ _ _ _ Hr Ht), remove_pairs_parity, (contributions_parity ls) by auto.
    assert (Gx : forall f f', (forall b, In b ls -> f b = f' b) -> G f a = G f' a) by (intros f f' Hff; apply (l_ext _ _ HL); auto).
    assert (Gv : forall f, G (G f) a = f a) by (intros f; now apply Hvol).
    split.
    - intros H2. assert (L2 : (2 <=? n) = true) by (apply Z.leb_le; lia). rewrite L2, !andb_true_r.
      destruct reset; simpl.
      + (* reset *)
        assert (O1 : forall b, In b ls -> o b (-1) = v1 b) by (intros b Hb'; apply (Hno b Hb')).
        assert (O2 : forall b, In b ls -> o b (-2) = v2 b) by (intros b Hb'; apply (Hno b Hb'); auto).
        destruct M as [[M1 M2]|[M1 M2]]; rewrite M1, M2 by auto.
        * rewrite O1, Hv by auto. rewrite (Gx (fun q => o q (-2)) v2) by auto. now destruct (G v2 a).
        * rewrite O2 by auto. rewrite (Gx (fun q => o q (-1)) (G v2)) by (intros b Hb'; rewrite O1 by auto; auto). rewrite Gv. now destruct (v2 a).
      + (* no reset *)
        set (t := 3 <=? n) in *.
        set (m3 := fun b => if t then o b (-3) else false).
        assert (O1 : forall b, In b ls -> v1 b = xorb (o b (-1)) (o b (-2))).
        { intros b Hb'. destruct (Hno b Hb') as [A _]. rewrite L2 in A. rewrite A. now destruct (v1 b), (o b (-2)). }
        assert (O2 : forall b, In b ls -> v2 b = xorb (o b (-2)) (m3 b)).
        { intros b Hb'. destruct (Hno b Hb') as [_ A]. specialize (A H2). unfold m3. rewrite A. unfold t.
          now destruct (v2 b), (if 3 <=? n then o b (-3) else false). }
        assert (P3 : forall g', (forall f, pr ls col g' a f = f a) \/ (forall f, pr ls col g' a f = G f a) ->
                (if t then pr ls col g' a (fun q => o q (-3)) else false) = pr ls col g' a m3).
        { intros g' _. unfold m3. destruct t; [reflexivity|]. symmetry. apply pr_false. }
        destruct M as [[M1 M2]|[M1 M2]]; rewrite P3 by auto; rewrite !M1, !M2 by auto.
        * assert (Q : G v2 a = xorb (G (fun b => o b (-2)) a) (G m3 a)).
          { rewrite <- (l_xor _ _ HL) by auto. apply Gx. auto. }
          pose proof (O1 a Ha) as O1a. rewrite Hv in O1a by auto. rewrite Q in O1a.
          destruct (o a (-1)), (o a (-2)), (G (fun q => o q (-2)) a), (G m3 a); simpl in *; congruence.
        * assert (Q : G v1 a = xorb (G (fun b => o b (-1)) a) (G (fun b => o b (-2)) a)).
          { rewrite <- (l_xor _ _ HL) by auto. apply Gx. auto. }
          assert (Q' : G v1 a = v2 a). { rewrite (Gx v1 (G v2)) by auto. apply Gv. }
          pose proof (O2 a Ha) as O2a. rewrite <- Q', Q in O2a.
          destruct (G (fun b => o b (-1)) a), (G (fun b => o b (-2)) a), (o a (-2)), (m3 a); simpl in *; congruence.
    - intros -> Hz. cbn [Z.leb Z.compare Pos.compare Pos.compare_cont]. rewrite !andb_false_r. simpl.
      assert (O1 : forall b, In b ls -> o b (-1) = false).
      { intros b Hb'. specialize (Hno b Hb'). assert (v1 b = false).
        { rewrite Hv by auto. apply NZ; auto. }
        destruct reset; destruct Hno as [A _]; simpl in A; rewrite A, H; reflexivity. }
      destruct M as [[M1 _]|[M1 _]]; rewrite M1 by auto.
      + now rewrite O1.
      + rewrite (NZ _ HL); auto.
  Qed.
End Deterministic.
