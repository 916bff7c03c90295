(** Proofs for Props_Time.v (C83): what the noise model contributes. *)
From Coq Require Import QArith Qcanon.
From Verif Require Import Base StimM SetupM MatM NoiseM LayoutM DetM BlockM Lib NoiseP.
Open Scope Z_scope.

(* the measurements of a qubit relative to the end of the record, last one first *)
Definition past (m : model) (q : string) : option (list Z) :=
  option_map (fun l => map (fun a => a - num m) (rev l)) (dget q (order m)).
Definition Mrel (j : nat) (m m' : model) : Prop :=
  same_static m m' /\ forall q, option_map (firstn j) (past m q) = option_map (firstn j) (past m' q).

Lemma firstn_less {A} i j (l l' : list A) : (i <= j)%nat -> firstn j l = firstn j l' -> firstn i l = firstn i l'.
Proof. intros L E. rewrite <- (Nat.min_l i j L), <- !firstn_firstn. now rewrite E. Qed.
Lemma nth_firstn {A} i j (l : list A) : (i < j)%nat -> nth_error (firstn j l) i = nth_error l i.
Proof. revert i l. induction j as [|j IH]; intros i [|x l] H; try lia; destruct i; simpl; auto. apply IH. lia. Qed.

Lemma past_add q m m' : add_meas q m = (m', Ok tt) ->
  num m' = num m + 1 /\
  forall x, past m' x = if eqb q x then option_map (fun l => -1 :: map (fun a => a - 1) l) (past m x) else option_map (map (fun a => a - 1)) (past m x).
Proof.
  unfold add_meas. destruct (negb _); [discriminate|]. destruct (dget q (order m)) as [l|] eqn:E; [|discriminate].
  intros [= <-]. split; [reflexivity|]. intros x. unfold past; simpl. rewrite dget_dset.
  destruct (eqb_spec q x) as [<-|].
  - rewrite E. simpl. f_equal. rewrite rev_app_distr; simpl. f_equal; [lia|]. rewrite map_map. apply map_ext. intros a; lia.
  - destruct (dget x (order m)); simpl; [|reflexivity]. f_equal. rewrite map_map. apply map_ext. intros a; lia.
Qed.
Lemma past_none m q : past m q = None <-> dget q (order m) = None.
Proof. unfold past. destruct (dget q (order m)); simpl; split; congruence. Qed.

(** * Programs of the model do not see the older measurements *)
Definition msim {A} (x : ST model A) : Prop := forall j m m', Mrel j m m' ->
  snd (x m) = snd (x m') /\ Mrel j (fst (x m)) (fst (x m')).
Lemma msim_ret {A} (a : A) : msim (sret a). Proof. intros j m m' H. auto. Qed.
Lemma msim_fail {A} e : msim (sfail (A := A) e). Proof. intros j m m' H. auto. Qed.
Lemma msim_lift {A} (x : res A) : msim (slift x). Proof. intros j m m' H. auto. Qed.
Definition static_fun {A} (f : model -> A) : Prop := forall m m', same_static m m' -> f m = f m'.
Lemma msim_read {A} (f : model -> res A) : static_fun f -> msim (sread f).
Proof. intros F j m m' H. simpl. split; [apply F, H|exact H]. Qed.
Lemma msim_bind {A B} (x : ST model A) (f : A -> ST model B) : msim x -> (forall a, msim (f a)) -> msim (sbind x f).
Proof.
  intros Hx Hf j m m' H. unfold sbind. destruct (Hx j m m' H) as [E R].
  destruct (x m) as [m1 [a|e]], (x m') as [m1' [a'|e']]; simpl in *; try discriminate.
  - injection E as <-. apply Hf. exact R.
  - injection E as <-. auto.
Qed.
Lemma msim_fold {A B} (f : B -> A -> ST model B) l : (forall b a, msim (f b a)) -> forall b, msim (sfold f l b).
Proof. intros H. induction l as [|a l IH]; intros b; simpl; [apply msim_ret|]. apply msim_bind; auto. Qed.
Lemma msim_add q : msim (add_meas q).
Proof.
  intros j m m' [St H]. assert (D : dmem q (inds m) = dmem q (inds m')) by (destruct St as (_ & _ & ->); reflexivity).
  destruct (add_meas q m) as [m1 r] eqn:E, (add_meas q m') as [m1' r'] eqn:E'.
  assert (T : forall (z : model * res unit), snd z = Ok tt \/ exists e, snd z = Err e) by (intros [? [[]|]]; simpl; eauto).
  assert (N : past m q = None <-> past m' q = None).
  { specialize (H q). destruct (past m q), (past m' q); simpl in H; split; congruence. }
  rewrite !past_none in N.
  assert (R : r = r').
  { unfold add_meas in E, E'. rewrite <- D in E'. destruct (negb (dmem q (inds m))); [congruence|].
    destruct (dget q (order m)), (dget q (order m')); try (injection E as <- <-; injection E' as <- <-; reflexivity).
    - destruct N as [_ N]. specialize (N eq_refl). discriminate.
    - destruct N as [N _]. specialize (N eq_refl). discriminate. }
  subst r'. split; [reflexivity|]. simpl.
  destruct r as [[]|e].
  - destruct (past_add _ _ _ E) as [_ P], (past_add _ _ _ E') as [_ P'].
    split.
    + apply add_meas_ok in E, E'. destruct St as (A & B & C).
      assert (S1 := E). assert (S2 := E').
      destruct S1 as (A1 & B1 & C1), S2 as (A2 & B2 & C2). unfold same_static. intuition congruence.
    + intros x. rewrite P, P'. specialize (H x). destruct (eqb q x), (past m x), (past m' x); simpl in *; try congruence.
      * f_equal. injection H as H. destruct j; [reflexivity|]. cbn [firstn]. f_equal. rewrite !firstn_map. f_equal. apply (firstn_less j (S j)); [lia|exact H].
      * f_equal. injection H as H. rewrite !firstn_map. now f_equal.
  - assert (m1 = m /\ m1' = m') as [-> ->].
    { unfold add_meas in E, E'. split.
      - destruct (negb _); [congruence|]. destruct (dget q (order m)); [discriminate|congruence].
      - destruct (negb (dmem q (inds m'))); [congruence|]. destruct (dget q (order m')); [discriminate|congruence]. }
    split; assumption.
Qed.
Local Ltac stat := intros [k1 s1 i1 o1 n1] [k2 s2 i2 o2 n2] (E1 & E2 & E3); simpl in E1, E2, E3; subst k2 s2 i2; reflexivity.
Lemma sf_inds qs : static_fun (fun m => get_inds m qs). Proof. stat. Qed.
Lemma sf_chans e p l : static_fun (fun m => chans (chan1 m e p) l []). Proof. stat. Qed.
Lemma sf_instr g q i : static_fun (fun m => meas_instr m g q i). Proof. stat. Qed.
Local Ltac mwalk := repeat first
  [apply msim_bind; [|intro]|apply msim_ret|apply msim_fail|apply msim_lift|apply msim_add|apply msim_fold; intros ? ?
  |apply msim_read; stat].
Lemma msim_measure1 e g qs : msim (measure1 e g qs).
Proof. unfold measure1. mwalk. Qed.
Lemma msim_measure0 g qs : msim (measure0 g qs).
Proof. unfold measure0. mwalk. Qed.
Lemma msim_measured s n g qs : msim (measure_decoh s n g qs).
Proof. unfold measure_decoh. destruct s; mwalk. destruct qs; mwalk. Qed.
Lemma msim_apply o qs : msim (apply o qs).
Proof.
  intros j m m' H. assert (K : kind m' = kind m) by apply H. unfold apply. rewrite K.
  destruct (kind m), o; try (apply msim_measure1; exact H); try (apply msim_measure0; exact H); try (apply msim_measured; exact H);
    simpl; (split; [|exact H]); destruct H as [H _]; revert m m' H K; stat.
Qed.
Lemma msim_block b : msim (run_block b).
Proof. induction b as [|c b IH]; simpl; [apply msim_ret|]. apply msim_bind; [destruct c; simpl; [apply msim_apply|apply msim_ret]|intro]. mwalk. apply IH. Qed.
Lemma msim_blocks l : msim (run_blocks l).
Proof. induction l as [|b l IH]; simpl; [apply msim_ret|]. mwalk; [apply msim_block|apply IH]. Qed.

(* the last three measurements *)
Lemma target_past m q z : z < 0 -> meas_target m q z =
  match past m q with
  | None => Err KeyError
  | Some l => match nth_error l (Z.to_nat (- z - 1)) with Some a => Ok (TR a) | None => Err ValueError end
  end.
Proof.
  intros Hz. unfold meas_target, past, dget_err. destruct (dget q (order m)) as [l|]; [|reflexivity]. cbn [of_opt bind option_map].
  set (n := length l). replace (Z.of_nat n <? z) with false by (symmetry; apply Z.ltb_ge; lia). cbn [orb].
  rewrite nth_error_map. destruct (z <? - Z.of_nat n) eqn:E.
  - apply Z.ltb_lt in E. assert (nth_error (rev l) (Z.to_nat (- z - 1)) = None) as ->; [|reflexivity].
    apply nth_error_None. rewrite rev_length. fold n. lia.
  - apply Z.ltb_ge in E. unfold py_nth. fold n. replace (z <? 0) with true by (symmetry; apply Z.ltb_lt; lia).
    replace (z + Z.of_nat n <? 0) with false by (symmetry; apply Z.ltb_ge; lia).
    replace (Z.of_nat n <=? z + Z.of_nat n) with false by (symmetry; apply Z.leb_gt; lia). cbn [orb].
    assert (X : nth_error (rev l) (Z.to_nat (- z - 1)) = nth_error l (Z.to_nat (z + Z.of_nat n))).
    { rewrite <- (rev_involutive l) at 2. set (i := Z.to_nat (- z - 1)). set (r := rev l).
      assert (Lr : length r = n) by apply rev_length.
      assert (Hi : (i < length r)%nat) by (unfold i; lia).
      rewrite (nth_error_nth' r 0 Hi). symmetry.
      assert (Hi' : (Z.to_nat (z + Z.of_nat n) < length (rev r))%nat) by (rewrite rev_length; lia).
      rewrite (nth_error_nth' (rev r) 0 Hi'). rewrite rev_nth by (rewrite rev_length in Hi'; exact Hi').
      f_equal. f_equal. unfold i. lia. }
    rewrite X. destruct (nth_error l _) eqn:G; [reflexivity|]. apply nth_error_None in G. fold n in G. exfalso. lia.
Qed.
Lemma target_rel m m' q z : Mrel 3 m m' -> -3 <= z <= -1 -> meas_target m q z = meas_target m' q z.
Proof.
  intros [_ H] Hz. rewrite !target_past by lia. specialize (H q).
  destruct (past m q) as [l|], (past m' q) as [l'|]; simpl in H; try congruence. injection H as H.
  rewrite <- (nth_firstn _ 3 l), <- (nth_firstn _ 3 l') by lia. simpl firstn. simpl in H. now rewrite H.
Qed.

(** * The measurements of a block *)
Definition call_labs (c : call) : list string := match c with Call o qs => if measuring o then qs else [] | CTick => [] end.
Definition blocks_labs (l : blocks) : list string := flat_map (fun b => match b with Ok b => flat_map call_labs b | Err _ => [] end) l.
Lemma add_all_app a : forall b m, add_all (a ++ b) m = sbind (add_all a) (fun _ => add_all b) m.
Proof.
  induction a as [|q a IH]; intros b m; [reflexivity|]. cbn [app add_all]. unfold sbind at 1 2 3. destruct (add_meas q m) as [m1 [[]|]]; [|reflexivity].
  rewrite IH. reflexivity.
Qed.
Lemma block_adds b : forall m m' c, run_block b m = (m', Ok c) -> add_all (flat_map call_labs b) m = (m', Ok tt).
Proof.
  induction b as [|x b IH]; intros m m' c H; simpl in H; [apply sret_ok in H as [-> _]; reflexivity|].
  apply sbind_ok in H as (m1 & c1 & H1 & H). apply sbind_ok in H as (m2 & c2 & H2 & H). apply sret_ok in H as [-> _].
  cbn [flat_map]. rewrite add_all_app. assert (E : add_all (call_labs x) m = (m1, Ok tt)).
  { destruct x as [o qs|]; simpl in *.
    - apply apply_char in H1 as [H1 _]. destruct (measuring o); [exact H1|subst; reflexivity].
    - apply sret_ok in H1 as [-> _]. reflexivity. }
  unfold sbind. rewrite E. eapply IH; eauto.
Qed.
Lemma blocks_adds l : forall m m' c, run_blocks l m = (m', Ok c) -> add_all (blocks_labs l) m = (m', Ok tt).
Proof.
  induction l as [|b l IH]; intros m m' c H; simpl in H; [apply sret_ok in H as [-> _]; reflexivity|].
  apply sbind_ok in H as (m0 & b' & H0 & H). injection H0 as <- ->.
  apply sbind_ok in H as (m1 & c1 & H1 & H). apply sbind_ok in H as (m2 & c2 & H2 & H). apply sret_ok in H as [-> _].
  unfold blocks_labs. cbn [flat_map]. rewrite add_all_app. unfold sbind. rewrite (block_adds _ _ _ _ H1). eapply IH; eauto.
Qed.
(* relative positions of q in a list of measurements, last one first *)
Fixpoint news (M : list string) (q : string) : list Z :=
  match M with
  | [] => []
  | x :: r => news r q ++ (if eqb x q then [-1 - Z.of_nat (length r)] else [])
  end.
Definition grow (M : list string) (q : string) (l : list Z) : list Z := news M q ++ map (fun a => a - Z.of_nat (length M)) l.
Lemma past_adds M : forall m m', add_all M m = (m', Ok tt) -> forall q, past m' q = option_map (grow M q) (past m q).
Proof.
  induction M as [|x M IH]; intros m m' H q; simpl in H.
  - apply sret_ok in H as [-> _]. unfold grow; simpl. destruct (past m q) as [l|]; simpl; [|reflexivity]. f_equal. rewrite <- (map_id l) at 1. apply map_ext. intros; lia.
  - apply sbind_ok in H as (m1 & [] & H1 & H). rewrite (IH _ _ H). apply past_add in H1 as [_ H1]. rewrite H1.
    unfold grow. cbn [news length]. destruct (eqb x q), (past m q) as [l|]; simpl; try reflexivity; f_equal.
    + rewrite <- app_assoc. f_equal. cbn [app]. f_equal. rewrite map_map. apply map_ext. intros; lia.
    + rewrite app_nil_r. f_equal. rewrite map_map. apply map_ext. intros; lia.
Qed.
(* after t rounds *)
Fixpoint grown (M : list string) (q : string) (t : nat) : list Z :=
  match t with O => [] | S t => grow M q (grown M q t) end.
Lemma grown_step M q t : firstn t (grown M q t) = firstn t (grown M q (S t)).
Proof.
  destruct (news M q) as [|x n] eqn:E.
  - assert (Z : forall t, grown M q t = []) by (induction t0 as [|t0 IH]; [reflexivity|]; simpl; unfold grow; now rewrite E, IH). now rewrite !Z.
  - induction t as [|t IH]; [reflexivity|]. cbn [grown] in *. unfold grow at 1 2. rewrite E. cbn [app firstn]. f_equal.
    rewrite !firstn_app. f_equal. rewrite !firstn_map. f_equal. apply (firstn_less _ t); [lia|exact IH].
Qed.
Lemma grown_far M q t k : firstn t (grown M q t) = firstn t (grown M q (t + k)).
Proof.
  induction k as [|k IH]; [now rewrite Nat.add_0_r|]. rewrite IH, Nat.add_succ_r. apply (firstn_less t (t + k)); [lia|apply grown_step].
Qed.
