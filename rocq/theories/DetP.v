(** Proofs about Detectors: well-formed states, counters, remove_pairs,
    update_from_dict, the gate-independent frame. The linear algebra is in DetLinP.v. *)
From Coq Require Import QArith Qcanon.
From Verif Require Import Base Lib StimM MatM MatP DetM SpecDet.
Open Scope Z_scope.

(** * Parity *)
Lemma xorl_app a b : xorl (a ++ b) = xorb (xorl a) (xorl b).
Proof. induction a as [|x a IH]; simpl; [now destruct (xorl b)|]. rewrite IH. now rewrite xorb_assoc. Qed.
Lemma xorl_map_xor {A} (f g : A -> bool) l :
  xorl (map (fun x => xorb (f x) (g x)) l) = xorb (xorl (map f l)) (xorl (map g l)).
Proof. induction l as [|x l IH]; simpl; [reflexivity|]. rewrite IH.
  destruct (f x), (g x), (xorl (map f l)), (xorl (map g l)); reflexivity. Qed.
Lemma xorl_false {A} (f : A -> bool) l : (forall x, In x l -> f x = false) -> xorl (map f l) = false.
Proof. induction l as [|x l IH]; simpl; intros H; [reflexivity|]. rewrite H by auto. rewrite IH; auto. Qed.
Lemma xorl_ext {A} (f g : A -> bool) l : (forall x, In x l -> f x = g x) -> xorl (map f l) = xorl (map g l).
Proof. intros H. now rewrite (map_ext_in f g l H). Qed.
Lemma xorl_perm a b : Permutation a b -> xorl a = xorl b.
Proof. induction 1; simpl; try congruence. now destruct x, y, (xorl l). Qed.
Lemma xorl_single {A} `{Eqb A} (x : A) f l : NoDup l -> In x l -> xorl (map (fun y => eqb y x && f y) l) = f x.
Proof.
  induction l as [|y l IH]; simpl; [tauto|]. inversion 1 as [|? ? Hn Hd]; subst. intros [->|Hi].
  - rewrite eqb_refl. rewrite xorl_false; [now destruct (f x)|].
    intros z Hz. destruct (eqb_spec z x) as [->|]; [contradiction|reflexivity].
  - destruct (eqb_spec y x) as [->|]; [contradiction|]. simpl. rewrite IH by auto. now destruct (f x).
Qed.
Lemma xorl_swap {A B} (f : A -> B -> bool) l r :
  xorl (map (fun x => xorl (map (f x) r)) l) = xorl (map (fun y => xorl (map (fun x => f x y) l)) r).
Proof.
  induction l as [|x l IH]; simpl.
  - symmetry. now apply xorl_false.
  - rewrite IH, <- xorl_map_xor. now apply xorl_ext.
Qed.
Lemma xorl_and {A} (f : A -> bool) b l : xorl (map (fun x => b && f x) l) = b && xorl (map f l).
Proof. induction l as [|x l IH]; simpl; [now destruct b|]. rewrite IH. now destruct b, (f x), (xorl (map f l)). Qed.

(* C03 *)
Lemma count_In {A} `{Eqb A} (x : A) l : (0 < count x l)%nat <-> In x l.
Proof.
  induction l as [|y l IH]; simpl; [lia|]. destruct (eqb_spec x y) as [->|N]; [intuition lia|].
  rewrite Nat.add_0_l, IH. intuition congruence.
Qed.
Lemma parity_count {A} `{Eqb A} (f : A -> bool) l s : NoDup s -> incl l s ->
  xorl (map f l) = xorl (map (fun x => Nat.odd (count x l) && f x) s).
Proof.
  intros Hs. induction l as [|y l IH]; intros Hi; simpl.
  - symmetry. now apply xorl_false.
  - rewrite IH by (intros z Hz; apply Hi; now right).
    rewrite <- (xorl_single y f s Hs) at 1 by (apply Hi; now left).
    rewrite <- xorl_map_xor. apply xorl_ext. intros x _.
    destruct (eqb_spec x y); simpl; [|now destruct (Nat.odd (count x l)), (f x)].
    rewrite Nat.odd_succ, <- Nat.negb_odd. now destruct (f x), (Nat.odd (count x l)).
Qed.
Lemma count_filter {A} `{Eqb A} (x : A) p l : count x (filter p l) = if p x then count x l else 0%nat.
Proof.
  induction l as [|y l IH]; simpl; [now destruct (p x)|].
  destruct (p y) eqn:E; simpl; rewrite IH; destruct (eqb_spec x y) as [->|N]; try reflexivity.
  - now rewrite E.
  - now rewrite E.
Qed.
Lemma has_support {A} `{Eqb A} (l : list A) : exists s, NoDup s /\ incl l s.
Proof.
  induction l as [|x l (s & Hs & Hi)]; [exists []; split; [constructor|intros ? []]|].
  destruct (mem x s) eqn:E.
  - exists s; split; auto. intros y [<-|Hy]; auto. now apply mem_In.
  - exists (x :: s); split; [constructor; auto; now apply mem_not_In|].
    intros y [<-|Hy]; simpl; auto.
Qed.
Lemma remove_pairs_parity {A} `{Eqb A} (f : A -> bool) l :
  xorl (map f (remove_pairs l)) = xorl (map f l).
Proof.
  destruct (has_support l) as (s & Hs & Hi).
  rewrite (parity_count f l s), (parity_count f (remove_pairs l) s); auto.
  2: { intros x Hx. apply Hi. unfold remove_pairs in Hx. now apply filter_In in Hx. }
  apply xorl_ext. intros x _. unfold remove_pairs. rewrite count_filter.
  destruct (Nat.odd (count x l)) eqn:E; [now rewrite E|reflexivity].
Qed.
Lemma remove_pairs_count {A} `{Eqb A} (x : A) l :
  count x (remove_pairs l) = if Nat.odd (count x l) then count x l else 0%nat.
Proof. unfold remove_pairs. apply (count_filter x (fun y => Nat.odd (count y l))). Qed.

(** * Well-formed states *)
Lemma dkeys_combine {V} (ls : list string) (r : list V) : length ls = length r -> dkeys (combine ls r) = ls.
Proof. revert r; induction ls as [|a ls IH]; intros [|x r]; simpl; try discriminate; auto. intros [= E]. now rewrite IH. Qed.
Lemma dget_combine {V} (ls : list string) (r : list V) a i : NoDup ls -> nth_error ls i = Some a ->
  dget a (combine ls r) = nth_error r i.
Proof.
  revert r i; induction ls as [|b ls IH]; intros [|x r] [|i]; simpl; try discriminate; auto.
  - intros _ [= ->]. now rewrite eqb_refl.
  - intros Hn E. inversion Hn as [|? ? H1 H2]; subst.
    destruct (eqb_spec a b) as [->|]; [apply nth_error_In in E; contradiction|]. now apply IH.
Qed.
Lemma dedup_acc_nodup {A} `{Eqb A} (l seen : list A) : NoDup l -> (forall x, In x l -> ~ In x seen) -> dedup_acc seen l = l.
Proof.
  revert seen; induction l as [|x l IH]; simpl; intros seen Hn Hs; [reflexivity|].
  inversion Hn as [|? ? H1 H2]; subst.
  destruct (mem x seen) eqn:E; [apply mem_In in E; exfalso; eapply Hs; eauto|].
  f_equal. apply IH; auto. intros y Hy [<-|H3]; [contradiction|]. eapply Hs; eauto.
Qed.
Lemma dedup_nodup {A} `{Eqb A} (l : list A) : NoDup l -> dedup l = l.
Proof. intros H1. apply dedup_acc_nodup; auto. Qed.

Lemma identity_keys ls : dkeys (identity ls) = ls.
Proof. unfold identity. apply dkeys_combine. now rewrite map_length, seq_length. Qed.
Lemma dget_identity ls a i : NoDup ls -> nth_error ls i = Some a -> dget a (identity ls) = Some (unitv GF2 (length ls) i).
Proof.
  intros Hn E. unfold identity. rewrite (dget_combine ls _ a i Hn E).
  assert (i < length ls)%nat by (apply nth_error_Some; congruence).
  erewrite map_nth_error; [reflexivity|].
  rewrite <- (Nat.add_0_l i) at 2. rewrite nth_error_nth' with (d := 0%nat); [|now rewrite seq_length].
  now rewrite seq_nth.
Qed.

Lemma det_new_wf d : NoDup (labels d) -> wf_det (det_new d).
Proof.
  intros Hn. constructor; simpl; auto; try (rewrite ?identity_keys; auto; fail).
  - intros a r E. pose proof (dget_Some_key _ _ _ E) as Hk. rewrite identity_keys in Hk.
    apply In_nth_error in Hk as [i Hi]. rewrite (dget_identity _ _ i Hn Hi) in E. injection E as <-. apply unitv_length.
  - intros a r E. pose proof (dget_Some_key _ _ _ E) as Hk. rewrite identity_keys in Hk.
    apply In_nth_error in Hk as [i Hi]. rewrite (dget_identity _ _ i Hn Hi) in E. injection E as <-. apply unitv_length.
  - rewrite dedup_nodup by auto. unfold dkeys. rewrite map_map. apply map_id.
  - rewrite dedup_nodup by auto. unfold dkeys. rewrite map_map. apply map_id.
Qed.
Lemma det_init_ok ls f cs d : det_init ls f cs = Ok d ->
  NoDup ls /\ exists d0, d = det_new d0 /\ labels d0 = ls.
Proof.
  unfold det_init. intros H. apply bind_ok in H as [fr [_ H]].
  destruct (nodupb ls) eqn:E; simpl in H; [|discriminate].
  destruct (set_eq _ _); simpl in H; [|discriminate].
  destruct (eqb _ 1%nat); simpl in H; [|discriminate]. injection H as <-.
  split; [now apply nodupb_spec|]. eauto.
Qed.
Lemma det_init_wf ls f cs d : det_init ls f cs = Ok d -> wf_det d /\ labels d = ls.
Proof.
  intros H. apply det_init_ok in H as [Hn [d0 [-> E]]]. split; [apply det_new_wf; congruence|exact E].
Qed.

(* what every call keeps *)
Definition same (d d' : detectors) : Prop :=
  labels d' = labels d /\ dfr d' = dfr d /\ dcoords d' = dcoords d.
Lemma same_refl d : same d d. Proof. unfold same; auto. Qed.
Lemma same_trans a b c : same a b -> same b c -> same a c.
Proof. unfold same; intuition congruence. Qed.
Definition keeps {A} (x : ST detectors A) : Prop :=
  forall d d' r, x d = (d', r) -> wf_det d -> wf_det d' /\ same d d'.
Lemma keeps_sbind {A B} (x : ST detectors A) (f : A -> ST detectors B) :
  keeps x -> (forall a, keeps (f a)) -> keeps (sbind x f).
Proof.
  intros Hx Hf d d' r. unfold sbind. destruct (x d) as [d1 [a|e]] eqn:E; intros H Hw.
  - destruct (Hx _ _ _ E Hw) as [H1 H2]. destruct (Hf _ _ _ _ H H1) as [H3 H4]. split; auto. eapply same_trans; eauto.
  - injection H as <- <-. eapply Hx; eauto.
Qed.
Lemma keeps_sread {A} (f : detectors -> res A) : keeps (sread f).
Proof. intros d d' r [= <- <-] H; split; auto using same_refl. Qed.
Lemma keeps_slift {A} (x : res A) : keeps (slift x).
Proof. intros d d' r [= <- <-] H; split; auto using same_refl. Qed.
Lemma keeps_sret {A} (x : A) : keeps (sret x).
Proof. intros d d' r [= <- <-] H; split; auto using same_refl. Qed.
Lemma keeps_sfail {A} e : keeps (sfail (A := A) e).
Proof. intros d d' r [= <- <-] H; split; auto using same_refl. Qed.
Lemma keeps_siter {A} (f : A -> ST detectors unit) l : (forall a, keeps (f a)) -> keeps (siter f l).
Proof. intros H. induction l as [|x l IH]; simpl; [apply keeps_sret|]. apply keeps_sbind; auto. Qed.

Lemma dkeys_dset_in {K V} `{Eqb K} (a : K) (v : V) g : In a (dkeys g) -> dkeys (dset a v g) = dkeys g.
Proof. intros Hi. rewrite dkeys_dset. apply dmem_In in Hi. now rewrite Hi. Qed.
Lemma set_nth_length {A} k (b : A) l : length (set_nth k b l) = length l.
Proof. revert k; induction l as [|x l IH]; intros [|k]; simpl; auto. Qed.
Lemma gset_keys a k b g : dkeys (gset a k b g) = dkeys g.
Proof. unfold gset. destruct (dget a g) eqn:E; [|reflexivity]. apply dkeys_dset_in. eapply dget_Some_key; eauto. Qed.
Definition rows_len (n : nat) (g : gen) : Prop := forall a r, dget a g = Some r -> length r = n.
Lemma gset_rows n a k b g : rows_len n g -> rows_len n (gset a k b g).
Proof.
  intros H x r. unfold gset. destruct (dget a g) eqn:E; [|apply H]. rewrite dget_dset.
  destruct (eqb_spec a x); [|apply H]. intros [= <-]. rewrite set_nth_length. eapply H; eauto.
Qed.
Lemma clear_anc_keys ls a g : dkeys (clear_anc ls a g) = dkeys g.
Proof.
  unfold clear_anc. generalize ls at 3. intros l. revert g. induction l as [|o l IH]; intros g; simpl; [reflexivity|].
  rewrite IH. destruct (index a ls), (index o ls); try reflexivity. destruct (eqb o a); now rewrite !gset_keys.
Qed.
Lemma clear_anc_rows n ls a g : rows_len n g -> rows_len n (clear_anc ls a g).
Proof.
  unfold clear_anc. generalize ls at 3. intros l. revert g. induction l as [|o l IH]; intros g H; simpl; [exact H|].
  apply IH. destruct (index a ls), (index o ls); auto. destruct (eqb o a); auto using gset_rows.
Qed.

Lemma keeps_activate l : keeps (activate l).
Proof.
  intros d d' r. unfold activate. destruct (strict_superset l _).
  - intros [= <- <-] H; split; auto using same_refl.
  - revert d d' r. apply keeps_siter. intros a d d' r. unfold activate_one.
    destruct (dget a (active d)) as [[]|] eqn:E; intros [= <- <-] H; split; auto using same_refl.
    + assert (Ha : In a (labels d)) by (rewrite <- (wf_active _ H); eapply dget_Some_key; eauto).
      destruct H. constructor; simpl; auto; rewrite dkeys_dset_in; auto; congruence.
    + unfold same; auto.
Qed.
Lemma keeps_deactivate_one a : keeps (deactivate_one a).
Proof.
  intros d d' r. unfold deactivate_one.
  destruct (dget a (active d)) as [[]|] eqn:E; intros [= <- <-] H; split; auto using same_refl.
  - assert (Ha : In a (labels d)) by (rewrite <- (wf_active _ H); eapply dget_Some_key; eauto).
    destruct H. constructor; simpl; auto; rewrite ?clear_anc_keys; auto.
    + apply clear_anc_rows; auto.
    + apply clear_anc_rows; auto.
    + rewrite dkeys_dset_in; auto; congruence.
  - unfold same; auto.
Qed.
Lemma keeps_deactivate l : keeps (deactivate l).
Proof.
  intros d d' r. unfold deactivate. destruct (strict_superset l _).
  - intros [= <- <-] H; split; auto using same_refl.
  - revert d d' r. apply keeps_siter. exact keeps_deactivate_one.
Qed.

Lemma vxor_length a b : length (vxor a b) = Nat.min (length a) (length b).
Proof. revert b; induction a as [|x a IH]; intros [|y b]; simpl; auto. Qed.
Lemma row_times_aux n row rows acc : Forall (fun r => length r = n) rows -> length acc = n ->
  length (fold_left (fun acc br => if fst br : bool then vxor acc (snd br) else acc) (combine row rows) acc) = n.
Proof.
  revert row acc; induction rows as [|r rows IH]; intros [|b row] acc; simpl; auto.
  inversion 1 as [|? ? H1 H2]; subst. intros Ha. apply IH; auto. destruct b; auto. rewrite vxor_length. lia.
Qed.
Lemma row_times_length n row rows : Forall (fun r => length r = n) rows -> length (row_times n row rows) = n.
Proof. intros H. apply row_times_aux; auto. apply repeat_length. Qed.
Lemma set_eq_spec {A} `{Eqb A} (a b : list A) : set_eq a b = true <-> (forall x, In x a <-> In x b).
Proof.
  unfold set_eq. rewrite andb_true_iff, !subset_spec. unfold incl. firstorder.
Qed.
Lemma mapM_rows ls (g : gen) rows : mapM (fun a => dget_err a g) ls = Ok rows ->
  Forall2 (fun a r => dget a g = Some r) ls rows.
Proof.
  intros H. apply mapM_Forall2 in H. eapply Forall2_impl'; [|exact H]. intros a r. simpl.
  unfold dget_err. destruct (dget a g); simpl; congruence.
Qed.

(* what a successful update has checked *)
Record upd_ok (d : detectors) (u : unitary) (rows : list (list bool)) : Prop := {
  uo_old : Permutation (u_old u) (labels d);
  uo_new : Permutation (u_new u) (labels d);
  uo_nold : NoDup (u_old u); uo_nnew : NoDup (u_new u);
  uo_len : length (u_mat u) = length (u_new u);
  uo_row : Forall (fun r => length r = length (u_old u)) (u_mat u);
  uo_sing : singular GF2 (u_mat u) = false;
  uo_rows : Forall2 (fun a r => dget a (curr_gen d) = Some r) (u_old u) rows }.
Lemma update_char u d d' r : wf_det d -> update u d = (d', r) ->
  (d' = d /\ exists e, r = Err e /\ (e = ValueError \/ e = Unmodelled)) \/
  (r = Ok tt /\ exists rows, upd_ok d u rows /\
     d' = set_gens (prev_gen d) (combine (u_new u) (map (fun row => row_times (length (labels d)) row rows) (u_mat u))) d).
Proof.
  intros Hw. unfold update.
  destruct (set_eq (u_old u) (u_new u)) eqn:E1; simpl; [|intros [= <- <-]; left; eauto].
  destruct (set_eq (u_new u) (labels d)) eqn:E2; simpl; [|intros [= <- <-]; left; eauto].
  destruct (nodupb (u_new u)) eqn:E3; simpl; [|intros [= <- <-]; left; eauto].
  destruct (nodupb (u_old u)) eqn:E4; simpl; [|intros [= <- <-]; left; eauto].
  destruct (eqb (length (u_mat u)) (length (u_new u))) eqn:E5; simpl; [|intros [= <- <-]; left; eauto].
  destruct (forallb _ (u_mat u)) eqn:E6; simpl; [|intros [= <- <-]; left; eauto].
  destruct (singular GF2 (u_mat u)) eqn:E7; simpl; [intros [= <- <-]; left; eauto|].
  rewrite set_eq_spec in E1, E2. apply nodupb_spec in E3, E4. apply eqb_true in E5.
  assert (P2 : Permutation (u_new u) (labels d)) by (apply NoDup_Permutation; auto; apply Hw).
  assert (P1 : Permutation (u_old u) (labels d)).
  { apply NoDup_Permutation; auto; [apply Hw|]. intros x. now rewrite E1, E2. }
  destruct (mapM _ (u_old u)) as [rows|e] eqn:E8.
  - apply mapM_rows in E8. intros [= <- <-]. right. split; [reflexivity|]. exists rows. split; [|reflexivity].
    constructor; auto. apply Forall_forall. intros x Hx. rewrite forallb_forall in E6. now apply E6, eqb_true in Hx.
  - exfalso. assert (H : incl (u_old u) (dkeys (curr_gen d))).
    { intros x Hx. eapply Permutation_in; [symmetry; apply Hw|]. now apply E2, E1. }
    clear -E8 H. revert E8. induction (u_old u) as [|x l IH]; simpl; [discriminate|].
    unfold dget_err at 1. destruct (dget x (curr_gen d)) eqn:E.
    + simpl. destruct (mapM _ l) eqn:E'; [discriminate|]. simpl in *. intros [= ->]. apply IH; auto.
      intros y Hy. apply H. now right.
    + apply dget_None in E. exfalso. apply E, H. now left.
Qed.
Lemma keeps_update u : keeps (update u).
Proof.
  intros d d' r H Hw. destruct (update_char _ _ _ _ Hw H) as [[-> _]|[_ (rows & U & ->)]]; [split; auto using same_refl|].
  split; [|unfold same; auto].
  assert (E : dkeys (combine (u_new u) (map (fun row => row_times (length (labels d)) row rows) (u_mat u))) = u_new u).
  { apply dkeys_combine. rewrite map_length. symmetry; apply U. }
  assert (Hr : Forall (fun r => length r = length (labels d)) rows).
  { pose proof (uo_rows _ _ _ U) as F. clear -F Hw. induction F; constructor; auto. eapply wf_crow; eauto. }
  destruct Hw. constructor; simpl; auto.
  - rewrite E. apply U.
  - intros a r' Ha. pose proof (dget_In _ _ _ Ha) as Hi. apply in_combine_r, in_map_iff in Hi as (row & <- & _).
    now apply row_times_length.
Qed.
Lemma keeps_update_from_dict nd : keeps (update_from_dict nd).
Proof.
  intros d d' r. unfold update_from_dict. destruct (strict_superset _ _).
  { intros [= <- <-] H; split; auto using same_refl. }
  destruct (negb _).
  { intros [= <- <-] H; split; auto using same_refl. }
  apply keeps_update.
Qed.

Lemma next_rounds_keys d nr : next_rounds d = Ok nr -> dkeys nr = dkeys (active d).
Proof.
  intros H. apply mapM_Forall2 in H. unfold dkeys. induction H as [|[a b] y l l' H _ IH]; simpl; [reflexivity|].
  rewrite IH. apply bind_ok in H as [n [_ H]]. injection H as <-. reflexivity.
Qed.
(* the state after the counters have been increased *)
Lemma wf_set_rounds d nr t : wf_det d -> dkeys nr = labels d -> wf_det (set_rounds nr t d).
Proof. intros [] H. constructor; simpl; auto. Qed.
Lemma wf_set_prev d : wf_det d -> wf_det (set_gens (curr_gen d) (curr_gen d) d).
Proof. intros []. constructor; simpl; auto. Qed.

Lemma build_from_anc_inv g reset req d d' r : build_from_anc g reset req d = (d', r) ->
  (d' = d /\ exists e, r = Err e) \/
  exists ancs nr, requested d req = Ok ancs /\ next_rounds d = Ok nr /\
    let d1 := set_rounds nr (total d + 1) d in
    (d' = d1 /\ exists e, r = Err e) \/
    exists dets c, (match dfr d with
      | GateIndep =>
          mapM (fun a => do n <- dget_err a nr;
                         let k := if reset then -2 else -3 in
                         Ok (a, (a, -1) :: (if 0 <=? k + n then [(a, k)] else []))) (labels d)
      | PostGate => get_anc_meas (curr_gen d) (prev_gen d) (curr_gen d) nr reset reset
      | PreGate => get_anc_meas (curr_gen d) (prev_gen d) (prev_gen d) nr reset reset
      end = Ok dets) /\ mapM (det_instr d g ancs (zq (total d))) dets = Ok c /\
      d' = set_gens (curr_gen d) (curr_gen d) d1 /\ r = Ok (appends [] c).
Proof.
  unfold build_from_anc. unfold sbind at 1, sread at 1.
  destruct (requested d req) as [ancs|e] eqn:E1; [|intros [= <- <-]; left; eauto].
  unfold sbind at 1, sread at 1.
  destruct (next_rounds d) as [nr|e] eqn:E2; [|intros [= <- <-]; left; eauto].
  intros H. right. exists ancs, nr. split; [reflexivity|]. split; [reflexivity|]. cbv zeta.
  unfold sbind, sread, sret in H. cbv beta iota zeta in H. set (d1 := set_rounds nr (total d + 1) d) in *.
  match type of H with match ?x with Ok a => _ | Err e => _ end = _ => destruct x as [dets|e] eqn:E3 end;
    [|injection H as <- <-; left; eauto].
  match type of H with match ?x with Ok a => _ | Err e => _ end = _ => destruct x as [c|e] eqn:E4 end;
    [|injection H as <- <-; left; eauto].
  injection H as <- <-. right. exists dets, c. split; [exact E3|].
  split; [|auto]. rewrite <- E4.
  assert (Et : total d1 - 1 = total d) by (subst d1; simpl; lia). rewrite Et.
  reflexivity.
Qed.
Lemma build_from_data_inv g sup reset recon req d d' r : build_from_data g sup reset recon req d = (d', r) ->
  (d' = d /\ exists e, r = Err e) \/
  exists ancs nr dets dets' c, strict_superset recon (dkeys sup) = false /\
    requested d req = Ok ancs /\ next_rounds d = Ok nr /\
    (match dfr d with
    | GateIndep =>
        mapM (fun a => do n <- dget_err a nr;
                       Ok (a, (a, -1) :: (if 1 <? n then [(a, -2)] else [])
                                      ++ (if negb reset && (2 <? n) then [(a, -3)] else []))) (labels d)
    | _ => get_anc_meas (curr_gen d) (prev_gen d) (curr_gen d) nr true reset
    end = Ok dets) /\
    mapM (fun at_ => do t <- to_data sup (snd at_); Ok (fst at_, t))
                          (filter (fun at_ => mem (fst at_) recon) dets) = Ok dets' /\
    mapM (det_instr d g ancs (zq (total d) - Q2Qc (1#2))%Qc) dets' = Ok c /\
    d' = set_gens (curr_gen d) (curr_gen d) d /\ r = Ok (appends [] c).
Proof.
  unfold build_from_data. destruct (strict_superset recon (dkeys sup)); [intros [= <- <-]; left; eauto|].
  unfold sbind, sread, slift, sret.
  destruct (requested d req) as [ancs|e] eqn:E1; [|intros [= <- <-]; left; eauto].
  destruct (next_rounds d) as [nr|e] eqn:E2; [|intros [= <- <-]; left; eauto].
  match goal with |- context [match ?x with Ok a => _ | Err e => (d, Err e) end] => destruct x as [dets|e] eqn:E3 end;
    [|intros [= <- <-]; left; eauto].
  match goal with |- context [match ?x with Ok a => _ | Err e => (d, Err e) end] => destruct x as [dets'|e] eqn:E4 end;
    [|intros [= <- <-]; left; eauto].
  match goal with |- context [match ?x with Ok a => _ | Err e => (d, Err e) end] => destruct x as [c|e] eqn:E5 end;
    [|intros [= <- <-]; left; eauto].
  intros [= <- <-]. right. exists ancs, nr, dets, dets', c. auto 10.
Qed.
Lemma keeps_build_from_anc g reset req : keeps (build_from_anc g reset req).
Proof.
  intros d d' r H Hw. apply build_from_anc_inv in H as [[-> _]|(ancs & nr & _ & E & H)]; [split; auto using same_refl|].
  apply next_rounds_keys in E. rewrite (wf_active _ Hw) in E.
  destruct H as [[-> _]|(dets & c & _ & _ & -> & _)].
  - split; [now apply wf_set_rounds|unfold same; auto].
  - split; [|unfold same; auto]. apply (wf_set_prev (set_rounds nr (total d + 1) d)). now apply wf_set_rounds.
Qed.
Lemma keeps_build_from_data g s reset recon req : keeps (build_from_data g s reset recon req).
Proof.
  intros d d' r H Hw. apply build_from_data_inv in H as [[-> _]|(ancs & nr & dets & dets' & c & _ & _ & _ & _ & _ & _ & -> & _)].
  - split; auto using same_refl.
  - split; [now apply wf_set_prev|unfold same; auto].
Qed.
Lemma keeps_call o : keeps (call o).
Proof.
  destruct o; simpl; try (apply keeps_sbind; [|intros; apply keeps_sret]).
  - intros d d' r [= <- <-] H. split; [apply det_new_wf, H|unfold same; auto].
  - apply keeps_activate.
  - apply keeps_deactivate.
  - apply keeps_update.
  - apply keeps_update_from_dict.
  - apply keeps_build_from_anc.
  - apply keeps_build_from_data.
Qed.
Lemma dreach_wf d l d' : dreach d l d' -> wf_det d -> wf_det d' /\ same d d'.
Proof.
  induction 1 as [|d o d1 r l d2 H H' IH]; intros Hw; [split; auto using same_refl|].
  destruct (keeps_call _ _ _ _ H Hw) as [H1 H2]. destruct (IH H1) as [H3 H4]. split; auto. eapply same_trans; eauto.
Qed.
Lemma dhist_reach d l d' cs : dhist d l d' cs -> dreach d l d'.
Proof. induction 1; econstructor; eauto. Qed.
