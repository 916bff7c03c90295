(** What the detectors list when no logical gate separates the rounds. *)
From Coq Require Import QArith Qcanon.
From Verif Require Import Base Lib StimM MatM MatP DetM SpecDet DetP DetCountP DetLinP DetDetP DetHistP.
Open Scope Z_scope.

Definition from (g : string -> Z -> res target) (i : instr) : Prop :=
  Forall (fun t => exists q z, g q z = Ok t) (tg i).
(* the outcomes listed by the detector of ancilla a after its n-th round *)
Definition round_form (reset : bool) (n : Z) (a : string) (o : string -> Z -> bool) : bool :=
  xorb (o a (-1)) (if (if reset then 2 else 3) <=? n then o a (if reset then -2 else -3) else false).
(* the same after the measurement of the data qubits qs, n rounds having been run *)
Definition data_form (reset : bool) (n : Z) (qs : list string) (a : string) (o : string -> Z -> bool) : bool :=
  xorb (xorl (map (fun q => o q (-1)) qs))
    (xorb (if 1 <=? n then o a (-1) else false) (if negb reset && (2 <=? n) then o a (-2) else false)).

Lemma from_mapM g X i : mapM (fun x : string * Z => g (fst x) (snd x)) X = Ok (tg i) -> from g i.
Proof.
  unfold from. generalize (tg i). intros ts H. apply mapM_Forall2 in H.
  induction H; constructor; eauto.
Qed.
Lemma from_nil g i : tg i = [] -> from g i.
Proof. unfold from. intros ->. constructor. Qed.

Lemma Forall2_join {A B} (P Q : A -> B -> Prop) l m : Forall2 P l m -> Forall2 Q l m -> Forall2 (fun a b => P a b /\ Q a b) l m.
Proof. induction 1; intros H2; inversion H2; subst; constructor; auto. Qed.

Lemma anc_content d g reset req d' c : wf_det d -> prev_gen d = curr_gen d ->
  build_from_anc g reset req d = (d', Ok c) ->
  (exists nr, next_rounds d = Ok nr /\ d' = set_gens (curr_gen d) (curr_gen d) (set_rounds nr (total d + 1) d)) /\
  exists ls, Permutation ls (labels d) /\
    Forall2 (fun a i => det_of d a (zq (total d)) i /\ from g i /\
      (wanted req a /\ dget a (active d) = Some true \/ tg i = []) /\
      (wanted req a -> dget a (active d) = Some true -> forall n outcome o,
        dget a (num_rounds d) = Some n -> reads g outcome o ->
        parity outcome i = round_form reset (n + 1) a o)) ls c.
Proof.
  intros Hw Hs H. assert (Hn := wf_nodup _ Hw). assert (Hp := wf_curr _ Hw).
  apply build_from_anc_inv in H as [[_ [e H]]|(ancs & nr & E1 & E2 & H)]; [discriminate|].
  destruct H as [[_ [e H]]|(dets & c' & H1 & H2 & -> & H3)]; [discriminate|]. injection H3 as ->.
  apply det_instrs in H2 as [-> F]. split; [eauto|]. set (ls := labels d) in *.
  assert (D : exists ks, Permutation ks ls /\ Forall2 (fun a x => exists n, dget a nr = Some n /\ fst x = a /\
     (forall o : string -> Z -> bool, In a ls -> xorl (map (fun t => o (fst t) (snd t)) (snd x)) = round_form reset n a o)) ks dets).
  { assert (G : get_anc_meas (curr_gen d) (prev_gen d) (curr_gen d) nr reset reset = Ok dets ->
      exists ks, Permutation ks ls /\ Forall2 (fun a x => exists n, dget a nr = Some n /\ fst x = a /\
     (forall o : string -> Z -> bool, In a ls -> xorl (map (fun t => o (fst t) (snd t)) (snd x)) = round_form reset n a o)) ks dets).
    { clear H1. intros H1. exists (dkeys (curr_gen d)). split; [exact Hp|].
      destruct (get_anc_meas_char ls _ _ _ Hn Hp (rows_ok_curr d Hw) _ _ _ _ H1) as (col & Hi & Hd).
      eapply Forall2_impl'; [|exact Hd]. intros a x (n & En & ->). exists n. split; [exact En|]. split; [reflexivity|].
      intros o Ha. cbn [snd]. rewrite (contributions_parity ls) by auto. rewrite Hs.
      rewrite !(pr_basis ls _ Hn col a) by auto. unfold round_form.
      destruct reset; simpl; destruct (Z.leb_spec 2 n), (Z.leb_spec 3 n); try lia;
        destruct (o a (-1)), (o a (-2)), (o a (-3)); reflexivity. }
    destruct (dfr d) eqn:Ef.
    - rewrite Hs in H1, G. exact (G H1).
    - exact (G H1).
    - exists ls. split; [reflexivity|]. apply mapM_Forall2 in H1. eapply Forall2_impl'; [|exact H1].
      intros a x Hx. apply bind_ok in Hx as [n [H4 H5]]. injection H5 as <-. exists n.
      unfold dget_err in H4. destruct (dget a nr) eqn:E; simpl in H4; [|discriminate]. injection H4 as ->.
      split; auto. split; auto. intros o _. unfold round_form. cbn [snd].
      destruct reset.
      + destruct (Z.leb_spec 0 (-2 + n)), (Z.leb_spec 2 n); try lia; simpl; now rewrite ?xorb_false_r.
      + destruct (Z.leb_spec 0 (-3 + n)), (Z.leb_spec 3 n); try lia; simpl; now rewrite ?xorb_false_r. }
  destruct D as (ks & Hk & D). exists ks. split; [exact Hk|].
  eapply Forall2_trans; [|exact D|exact F].
  intros a x i Hin (n' & En & <- & Hx) [Hd Ht]. assert (Ha : In (fst x) ls) by (eapply Permutation_in; eauto).
  split; [exact Hd|]. destruct (mem (fst x) ancs) eqn:Em.
  - split; [eapply from_mapM; exact Ht|].
    assert (Hm : wanted req (fst x) /\ dget (fst x) (active d) = Some true).
    { apply mem_In in Em. apply (requested_ok _ _ _ E1) in Em as [M1 M2]. split; auto. destruct req; simpl; auto. }
    split; [left; exact Hm|]. intros _ Hac n outcome o Hn' Hr. unfold parity.
    rewrite (mapM_outcomes _ _ _ _ _ Hr Ht), remove_pairs_parity, Hx by auto.
    rewrite (DetDetP.next_rounds_get d nr (fst x) n true Hw E2 Hac Hn') in En. injection En as <-. reflexivity.
  - split; [now apply from_nil|]. split; [right; exact Ht|]. intros Hwa Hac.
    rewrite (requested_mem _ _ _ _ Hw Ha E1 Hwa Hac) in Em. discriminate.
Qed.

Lemma data_content d g sup reset recon req d' c : wf_det d -> prev_gen d = curr_gen d ->
  build_from_data g sup reset recon req d = (d', Ok c) ->
  d' = set_gens (curr_gen d) (curr_gen d) d /\
  exists ls, Permutation ls (filter (fun a => mem a recon) (labels d)) /\
    Forall2 (fun a i => det_of d a (zq (total d) - Q2Qc (1#2))%Qc i /\ from g i /\
      (wanted req a /\ dget a (active d) = Some true \/ tg i = []) /\
      (wanted req a -> dget a (active d) = Some true -> exists qs, dget a sup = Some qs /\ forall n outcome o,
        dget a (num_rounds d) = Some n -> reads g outcome o ->
        parity outcome i = data_form reset n qs a o)) ls c.
Proof.
  intros Hw Hs H. assert (Hn := wf_nodup _ Hw). assert (Hp := wf_curr _ Hw).
  apply build_from_data_inv in H as [[_ [e H]]|(ancs & nr & dets & dets' & c' & _ & E1 & E2 & H1 & H2 & H3 & -> & H4)]; [discriminate|].
  injection H4 as ->. apply det_instrs in H3 as [-> F]. split; [reflexivity|]. set (ls := labels d) in *.
  set (tr := fun (o : string -> Z -> bool) (q : string) (z : Z) => if eqb z (-1)
        then match dget q sup with Some qs => xorl (map (fun q => o q (-1)) qs) | None => false end else o q (z + 1)).
  assert (D : exists ks, Permutation ks ls /\ Forall2 (fun a x => exists n, dget a nr = Some n /\ fst x = a /\
     (In a ls -> In (a, -1) (snd x) /\ forall o : string -> Z -> bool, xorl (map (fun t => o (fst t) (snd t)) (snd x)) =
       xorb (o a (-1)) (xorb (if 2 <=? n then o a (-2) else false) (if negb reset && (3 <=? n) then o a (-3) else false)))) ks dets).
  { assert (G : get_anc_meas (curr_gen d) (prev_gen d) (curr_gen d) nr true reset = Ok dets ->
      exists ks, Permutation ks ls /\ Forall2 (fun a x => exists n, dget a nr = Some n /\ fst x = a /\
     (In a ls -> In (a, -1) (snd x) /\ forall o : string -> Z -> bool, xorl (map (fun t => o (fst t) (snd t)) (snd x)) =
       xorb (o a (-1)) (xorb (if 2 <=? n then o a (-2) else false) (if negb reset && (3 <=? n) then o a (-3) else false)))) ks dets).
    { clear H1. intros H1. exists (dkeys (curr_gen d)). split; [exact Hp|].
      destruct (get_anc_meas_char ls _ _ _ Hn Hp (rows_ok_curr d Hw) _ _ _ _ H1) as (col & Hi & Hd).
      eapply Forall2_impl'; [|exact Hd]. intros a x (n & En & ->). exists n. split; [exact En|]. split; [reflexivity|].
      intros Ha. cbn [snd]. split.
      - unfold contributions. apply in_or_app. left.
        unfold crow. rewrite select_eq. apply in_map_iff. exists a. split; auto. apply filter_In. split; [eapply Permutation_in; [symmetry; exact Hp|exact Ha]|].
        destruct (Hi a Ha) as [_ Hd']. rewrite (Hd' a Ha), eqb_refl. reflexivity.
      - intros o. rewrite (contributions_parity ls) by auto. rewrite Hs.
        rewrite !(pr_basis ls _ Hn col a) by auto. cbn [negb andb]. now rewrite xorb_false_l. }
    destruct (dfr d) eqn:Ef; [exact (G H1)|exact (G H1)|].
    exists ls. split; [reflexivity|]. apply mapM_Forall2 in H1. eapply Forall2_impl'; [|exact H1].
    intros a x Hx. apply bind_ok in Hx as [n [H4 H5]]. injection H5 as <-. exists n.
    unfold dget_err in H4. destruct (dget a nr) eqn:E; simpl in H4; [|discriminate]. injection H4 as ->.
    split; auto. split; auto. intros _. split; [now left|]. intros o. cbn [snd map xorl fold_right]. unfold xorl. cbn [fold_right fst snd]. f_equal.
    destruct (Z.ltb_spec 1 n), (Z.leb_spec 2 n); try lia; destruct (Z.ltb_spec 2 n), (Z.leb_spec 3 n); try lia;
     destruct reset; simpl; now rewrite ?xorb_false_r. }
  destruct D as (ks & Hk & D). exists (filter (fun a => mem a recon) ks). split; [now apply Permutation_filter|].
  apply (Forall2_filter _ (fun a => mem a recon) (fun at_ => mem (fst at_) recon)) in D;
      [|intros a x (n & _ & -> & _); reflexivity].
  apply mapM_Forall2 in H2.
  eapply (Forall2_trans (fun a x => In a ls /\ exists n t qs, dget a nr = Some n /\ x = (a, t) /\ dget a sup = Some qs /\
     forall o : string -> Z -> bool, xorl (map (fun t => o (fst t) (snd t)) t) = 
       xorb (xorl (map (fun q => o q (-1)) qs)) (xorb (if 2 <=? n then o a (-1) else false) (if negb reset && (3 <=? n) then o a (-2) else false))));
    [| |exact F].
  2:{ eapply Forall2_trans; [|exact D|exact H2]. intros a x y Hin (n & En & Ex & Hx) Q.
      apply filter_In in Hin as [Hin _]. assert (Ha : In a ls) by (eapply Permutation_in; eauto). split; [exact Ha|].
      apply bind_ok in Q as [t [Q Q3]]. injection Q3 as <-. destruct (Hx Ha) as [Hx1 Hx2].
      destruct (to_data_known _ _ _ _ Q Hx1) as [qs Eq]. exists n, t, qs. split; auto. split; [now rewrite Ex|]. split; auto.
      intros o. rewrite (to_data_parity _ _ _ _ Q).
      change (xorl (map (fun t => tr o (fst t) (snd t)) (snd x)) = xorb (xorl (map (fun q => o q (-1)) qs)) (xorb (if 2 <=? n then o a (-1) else false) (if negb reset && (3 <=? n) then o a (-2) else false))).
      rewrite Hx2. unfold tr. rewrite eqb_refl, Eq. reflexivity. }
  intros a x i _ (Ha & n' & t & qs & En & -> & Eq & Hx) [Hd Ht]. cbn [fst snd] in *.
  split; [exact Hd|]. destruct (mem a ancs) eqn:Em.
  - split; [eapply from_mapM; exact Ht|].
    assert (Hm : wanted req a /\ dget a (active d) = Some true).
    { apply mem_In in Em. apply (requested_ok _ _ _ E1) in Em as [M1 M2]. split; auto. destruct req; simpl; auto. }
    split; [left; exact Hm|]. intros _ Hac. exists qs. split; [exact Eq|]. intros n outcome o Hn' Hr. unfold parity.
    rewrite (mapM_outcomes _ _ _ _ _ Hr Ht), remove_pairs_parity, Hx by auto.
    rewrite (DetDetP.next_rounds_get d nr a n true Hw E2 Hac Hn') in En. injection En as <-. unfold data_form.
    destruct (Z.leb_spec 2 (n+1)), (Z.leb_spec 1 n); try lia; destruct (Z.leb_spec 3 (n+1)), (Z.leb_spec 2 n); try lia; reflexivity.
  - split; [now apply from_nil|]. split; [right; exact Ht|]. intros Hwa Hac.
    rewrite (requested_mem _ _ _ _ Hw Ha E1 Hwa Hac) in Em. discriminate.
Qed.
