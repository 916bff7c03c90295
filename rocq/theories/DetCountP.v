(** Proofs of C04, C09, C10, C11, C12. *)
From Coq Require Import QArith Qcanon.
From Verif Require Import Base Lib StimM MatM MatP DetM SpecDet DetP.
Open Scope Z_scope.

(** * The DETECTOR instructions *)
Lemma append_det c i : nm i = DETECTOR -> append c i = c ++ [i].
Proof.
  intros H. induction c as [|j c IH]; [reflexivity|]. destruct c as [|k c].
  - simpl. rewrite H, !andb_false_r. reflexivity.
  - change (append (j :: k :: c) i) with (j :: append (k :: c) i). now rewrite IH.
Qed.
Lemma appends_det l : forall c, Forall (fun i => nm i = DETECTOR) l -> appends c l = c ++ l.
Proof.
  induction l as [|i l IH]; intros c H; unfold appends in *; simpl; [now rewrite app_nil_r|].
  inversion H as [|? ? H1 H2]; subst. rewrite (append_det c i H1), IH by auto. now rewrite <- app_assoc.
Qed.
Lemma det_instrs d g ancs t dets c : mapM (det_instr d g ancs t) dets = Ok c ->
  appends [] c = c /\
  Forall2 (fun at_ i => det_of d (fst at_) t i /\
    if mem (fst at_) ancs then mapM (fun x => g (fst x) (snd x)) (remove_pairs (snd at_)) = Ok (tg i)
    else tg i = []) dets c.
Proof.
  intros H. apply mapM_Forall2 in H.
  assert (F : Forall2 (fun at_ i => det_of d (fst at_) t i /\
    if mem (fst at_) ancs then mapM (fun x => g (fst x) (snd x)) (remove_pairs (snd at_)) = Ok (tg i)
    else tg i = []) dets c).
  { eapply Forall2_impl'; [|exact H]. intros [a ts] i E. simpl. unfold det_instr in E. simpl in E.
    apply bind_ok in E as [recs [E1 E]]. apply bind_ok in E as [xs [E2 E]].
    unfold dget_err in E2. destruct (dget a (dcoords d)) eqn:E3; simpl in E2; [|discriminate]. injection E2 as ->.
    unfold mk, instr_ok in E. simpl in E. injection E as <-. simpl. split.
    - exists xs. auto.
    - destruct (mem a ancs); congruence. }
  split; [|exact F]. apply (appends_det c []). clear -F.
  induction F as [|? ? ? ? [(xs & _ & H & _) _] _ IH]; constructor; auto.
Qed.
Lemma Forall2_fst {A B C} (P : A -> C -> Prop) (l : list (A * B)) c :
  Forall2 (fun x i => P (fst x) i) l c -> Forall2 P (map fst l) c.
Proof. induction 1; simpl; constructor; auto. Qed.

Lemma requested_ok d req ancs : requested d req = Ok ancs ->
  forall a, In a ancs <-> In a (match req with Some l => l | None => dkeys (curr_gen d) end) /\ dget a (active d) = Some true.
Proof.
  unfold requested. set (l := match req with Some l => l | None => _ end). clearbody l.
  intros H. apply bind_ok in H as [fl [H E]]. injection E as <-. apply mapM_Forall2 in H. intros a.
  induction H as [|x b l fl H _ IH]; simpl; [tauto|].
  unfold dget_err in H. destruct (dget x (active d)) as [b'|] eqn:E; simpl in H; [|discriminate]. injection H as ->.
  destruct b; simpl; rewrite IH; clear IH.
  - split; [intros [<-|[? ?]]; auto|]. intros [[<-|?] ?]; auto.
  - split; [tauto|]. intros [[<-|?] ?]; auto. congruence.
Qed.
Lemma mem_requested d req ancs a : wf_det d -> In a (labels d) -> requested d req = Ok ancs ->
  ~ (wanted req a /\ dget a (active d) = Some true) -> mem a ancs = false.
Proof.
  intros Hw Ha H Hn. apply mem_not_In. intros Hi. apply Hn. apply (requested_ok _ _ _ H) in Hi as [H1 H2].
  split; auto. destruct req; simpl; auto.
Qed.
Lemma requested_mem d req ancs a : wf_det d -> In a (labels d) -> requested d req = Ok ancs ->
  wanted req a -> dget a (active d) = Some true -> mem a ancs = true.
Proof.
  intros Hw Ha H H1 H2. apply mem_In, (requested_ok _ _ _ H). split; auto. destruct req; simpl in *; auto.
  eapply Permutation_in; [symmetry; apply Hw|auto].
Qed.

Lemma change_basis_length C X : length (change_basis C X) = length C.
Proof. unfold change_basis. apply map_length. Qed.
Lemma mapM_fst' {A B C} (f : A * B -> res (A * C)) l r :
  (forall x y, f x = Ok y -> fst y = fst x) -> mapM f l = Ok r -> map fst r = map fst l.
Proof.
  intros Hf H. apply mapM_Forall2 in H. induction H as [|a x l r H _ IH]; simpl; [reflexivity|].
  rewrite IH. f_equal. auto.
Qed.
Lemma map_fst_combine {A B} (l : list A) (r : list B) : length l = length r -> map fst (combine l r) = l.
Proof. revert r; induction l as [|x l IH]; intros [|y r]; simpl; try discriminate; auto. intros [= E]. now rewrite IH. Qed.
Lemma get_anc_meas_keys c p b nr r1 r2 dets : get_anc_meas c p b nr r1 r2 = Ok dets -> map fst dets = dkeys c.
Proof.
  unfold get_anc_meas. intros H. apply bind_ok in H as [C [E1 H]]. apply bind_ok in H as [B [E2 H]].
  apply bind_ok in H as [P [E3 H]]. apply bind_ok in H as [X [E4 H]].
  apply mapM_Forall2, Forall2_len in E1. apply mapM_Forall2, Forall2_len in E3.
  assert (EC : length (change_basis C X) = length (dkeys c)) by (rewrite change_basis_length; auto).
  assert (EP : length (change_basis P X) = length (dkeys c)) by (rewrite change_basis_length; auto).
  apply mapM_fst' in H.
  - rewrite H. apply map_fst_combine. rewrite combine_length. lia.
  - intros [a [x1 x2]] y Hxy. apply bind_ok in Hxy as [n [_ Hz]]. injection Hz as <-. reflexivity.
Qed.
Lemma mapM_fst {A} (f : A -> res (A * list (A * Z))) l r :
  (forall a x, f a = Ok x -> fst x = a) -> mapM f l = Ok r -> map fst r = l.
Proof.
  intros Hf H. apply mapM_Forall2 in H. induction H as [|a x l r H _ IH]; simpl; [reflexivity|].
  rewrite IH. f_equal. auto.
Qed.

Lemma C04_anc_lemma d g reset req d' c : wf_det d -> build_from_anc g reset req d = (d', Ok c) ->
  exists ls, Permutation ls (labels d) /\
    Forall2 (fun a i => det_of d a (zq (total d)) i /\
      (~ (wanted req a /\ dget a (active d) = Some true) -> tg i = [])) ls c.
Proof.
  intros Hw H. apply build_from_anc_inv in H as [[_ [e H]]|(ancs & nr & E1 & E2 & H)]; [discriminate|].
  destruct H as [[_ [e H]]|(dets & c' & H1 & H2 & -> & H3)]; [discriminate|]. injection H3 as ->.
  apply det_instrs in H2 as [-> F]. exists (map fst dets).
  assert (K : Permutation (map fst dets) (labels d)).
  { destruct (dfr d).
    - rewrite (get_anc_meas_keys _ _ _ _ _ _ _ H1). apply Hw.
    - rewrite (get_anc_meas_keys _ _ _ _ _ _ _ H1). apply Hw.
    - erewrite mapM_fst; [reflexivity| |exact H1]. intros a x Hx. apply bind_ok in Hx as [n [_ Hx]].
      injection Hx as <-. reflexivity. }
  split; [exact K|]. apply Forall2_fst.
  assert (I : forall x, In x dets -> In (fst x) (labels d)).
  { intros x Hx. eapply Permutation_in; [exact K|]. now apply in_map. }
  clear H1 K. induction F as [|x i dets c' [H1 H2] F IH]; constructor.
  - split; auto. intros Hn. rewrite (mem_requested d req ancs (fst x)) in H2; auto. apply I. now left.
  - apply IH. intros y Hy. apply I. now right.
Qed.
Lemma map_fst_filter {B} p (l : list (string * B)) : map fst (filter (fun x => p (fst x)) l) = filter p (map fst l).
Proof. induction l as [|[a b] l IH]; simpl; [reflexivity|]. destruct (p a); simpl; now rewrite IH. Qed.
Lemma Permutation_filter {A} p (l r : list A) : Permutation l r -> Permutation (filter p l) (filter p r).
Proof.
  induction 1 as [|x l r H IH|x y l|l m r H IH H' IH']; simpl; auto.
  - destruct (p x); auto.
  - destruct (p x), (p y); auto. apply perm_swap.
  - etransitivity; eauto.
Qed.
Lemma C04_data_lemma d g sup reset recon req d' c : wf_det d ->
  build_from_data g sup reset recon req d = (d', Ok c) ->
  exists ls, Permutation ls (filter (fun a => mem a recon) (labels d)) /\
    Forall2 (fun a i => det_of d a (zq (total d) - Q2Qc (1#2))%Qc i /\
      (~ (wanted req a /\ dget a (active d) = Some true) -> tg i = [])) ls c.
Proof.
  intros Hw H. apply build_from_data_inv in H as [[_ [e H]]|(ancs & nr & dets & dets' & c' & _ & E1 & E2 & H1 & H2 & H3 & -> & H4)];
    [discriminate|]. injection H4 as ->.
  apply det_instrs in H3 as [-> F]. exists (map fst dets').
  assert (K0 : Permutation (map fst dets) (labels d)).
  { destruct (dfr d).
    - rewrite (get_anc_meas_keys _ _ _ _ _ _ _ H1). apply Hw.
    - rewrite (get_anc_meas_keys _ _ _ _ _ _ _ H1). apply Hw.
    - erewrite mapM_fst; [reflexivity| |exact H1]. intros a x Hx. apply bind_ok in Hx as [n [_ Hx]].
      injection Hx as <-. reflexivity. }
  assert (K1 : map fst dets' = map fst (filter (fun at_ => mem (fst at_) recon) dets)).
  { apply mapM_Forall2 in H2. clear -H2. induction H2 as [|x y l r H _ IH]; simpl; [reflexivity|].
    rewrite IH. apply bind_ok in H as [t [_ H]]. injection H as <-. reflexivity. }
  assert (K : Permutation (map fst dets') (filter (fun a => mem a recon) (labels d))).
  { rewrite K1, (map_fst_filter (fun a => mem a recon)). now apply Permutation_filter. }
  split; [exact K|]. apply Forall2_fst.
  assert (I : forall x, In x dets' -> In (fst x) (labels d)).
  { intros x Hx. apply (in_map fst) in Hx. eapply Permutation_in in Hx; [|exact K]. now apply filter_In in Hx. }
  clear H1 H2 K K1. induction F as [|x i dets' c' [H1 H2] F IH]; constructor.
  - split; auto. intros Hn. rewrite (mem_requested d req ancs (fst x)) in H2; auto. apply I. now left.
  - apply IH. intros y Hy. apply I. now right.
Qed.

(** * Counters *)
Definition act (d : detectors) (a : string) := dget a (active d).
Definition rnd (d : detectors) (a : string) := dget a (num_rounds d).

Lemma quiet_ok x d d' c : quiet x d = (d', Ok c) -> x d = (d', Ok tt) /\ c = [].
Proof.
  unfold quiet, sbind, sret. destruct (x d) as [d1 [[]|e]]; [|discriminate]. now intros [= -> ->].
Qed.
Lemma siter_ok {A} (f : A -> ST detectors unit) l : forall d d', siter f l d = (d', Ok tt) ->
  match l with [] => d' = d | x :: r => exists d1, f x d = (d1, Ok tt) /\ siter f r d1 = (d', Ok tt) end.
Proof.
  destruct l as [|x r]; simpl; intros d d' H.
  - now injection H.
  - apply sbind_ok in H as (d1 & [] & H1 & H2). eauto.
Qed.
Lemma activate_iter l : forall d d', siter activate_one l d = (d', Ok tt) ->
  NoDup l /\ (forall a, In a l -> act d a = Some false) /\
  total d' = total d /\ prev_gen d' = prev_gen d /\ curr_gen d' = curr_gen d /\
  forall a, (In a l -> act d' a = Some true /\ rnd d' a = Some 0) /\
            (~ In a l -> act d' a = act d a /\ rnd d' a = rnd d a).
Proof.
  induction l as [|x l IH]; intros d d' H; apply siter_ok in H.
  - subst. split; [constructor|]. split; [intros a []|]. repeat split; simpl in *; tauto.
  - destruct H as (d1 & H1 & H2). unfold activate_one in H1.
    destruct (dget x (active d)) as [[]|] eqn:E; try discriminate. injection H1 as <-.
    destruct (IH _ _ H2) as (Hn & Hf & Ht & Hp & Hc & Ha). clear IH. simpl in Ht, Hp, Hc.
    assert (Hx : ~ In x l).
    { intros Hx. specialize (Hf _ Hx). unfold act in Hf. simpl in Hf. rewrite dget_dset_same in Hf. discriminate. }
    split; [constructor; auto|]. split.
    { intros a [<-|Hi]; [exact E|]. specialize (Hf _ Hi). unfold act in *. simpl in Hf.
      rewrite dget_dset_other in Hf; auto. intros ->; contradiction. }
    repeat split; auto.
    + destruct H as [<-|Hi]; [|now apply Ha].
      destruct (Ha x) as [_ A]. destruct (A Hx) as [A1 _]. rewrite A1. unfold act; simpl. apply dget_dset_same.
    + destruct H as [<-|Hi]; [|now apply Ha].
      destruct (Ha x) as [_ A]. destruct (A Hx) as [_ A1]. rewrite A1. unfold rnd; simpl. apply dget_dset_same.
    + destruct (Ha a) as [_ A]. simpl in H. assert (Hl : ~ In a l) by tauto. destruct (A Hl) as [A1 _]. rewrite A1.
      unfold act; simpl. apply dget_dset_other. tauto.
    + destruct (Ha a) as [_ A]. simpl in H. assert (Hl : ~ In a l) by tauto. destruct (A Hl) as [_ A1]. rewrite A1.
      unfold rnd; simpl. apply dget_dset_other. tauto.
Qed.
Lemma deactivate_iter l : forall d d', siter deactivate_one l d = (d', Ok tt) ->
  NoDup l /\ (forall a, In a l -> act d a = Some true) /\ total d' = total d /\ num_rounds d' = num_rounds d /\
  forall a, (In a l -> act d' a = Some false) /\ (~ In a l -> act d' a = act d a).
Proof.
  induction l as [|x l IH]; intros d d' H; apply siter_ok in H.
  - subst. split; [constructor|]. split; [intros a []|]. repeat split; simpl in *; tauto.
  - destruct H as (d1 & H1 & H2). unfold deactivate_one in H1.
    destruct (dget x (active d)) as [[]|] eqn:E; try discriminate. injection H1 as <-.
    destruct (IH _ _ H2) as (Hn & Hf & Ht & Hr & Ha). clear IH. simpl in Ht, Hr.
    assert (Hx : ~ In x l).
    { intros Hx. specialize (Hf _ Hx). unfold act in Hf. simpl in Hf. rewrite dget_dset_same in Hf. discriminate. }
    split; [constructor; auto|]. split.
    { intros a [<-|Hi]; [exact E|]. specialize (Hf _ Hi). unfold act in *. simpl in Hf.
      rewrite dget_dset_other in Hf; auto. intros ->; contradiction. }
    repeat split; auto.
    + intros [<-|Hi]; [|now apply Ha].
      destruct (Ha x) as [_ A]. rewrite (A Hx). unfold act; simpl. apply dget_dset_same.
    + intros H. destruct (Ha a) as [_ A]. simpl in H. assert (Hl : ~ In a l) by tauto. rewrite (A Hl).
      unfold act; simpl. apply dget_dset_other. tauto.
Qed.
Lemma next_rounds_get d nr a : wf_det d -> In a (labels d) -> next_rounds d = Ok nr ->
  exists b n, act d a = Some b /\ rnd d a = Some n /\ dget a nr = Some (if b then n + 1 else n).
Proof.
  intros Hw Ha H. apply mapM_Forall2 in H. unfold act.
  assert (Hn : NoDup (dkeys (active d))) by (rewrite (wf_active _ Hw); apply Hw).
  assert (Hi : In a (dkeys (active d))) by (rewrite (wf_active _ Hw); auto). clear Hw Ha.
  induction H as [|[x b] y l nr H _ IH]; simpl in *; [tauto|].
  apply bind_ok in H as [n [H1 H]]. injection H as <-. simpl.
  unfold dget_err in H1. destruct (dget x (num_rounds d)) eqn:E; simpl in H1; [|discriminate]. injection H1 as ->.
  inversion Hn as [|? ? N1 N2]; subst.
  destruct (eqb_spec a x) as [->|N].
  - exists b, n. auto.
  - destruct Hi as [->|Hi]; [congruence|]. apply IH; auto.
Qed.

Definition stepped (o : dop) (a : string) (d d' : detectors) : Prop :=
  match o with
  | DNew => act d' a = Some false /\ rnd d' a = Some 0 /\ total d' = 0
  | DAct l => total d' = total d /\
      if mem a l then act d' a = Some true /\ rnd d' a = Some 0 else act d' a = act d a /\ rnd d' a = rnd d a
  | DDeact l => total d' = total d /\ rnd d' a = rnd d a /\
      if mem a l then act d' a = Some false else act d' a = act d a
  | DAnc _ _ _ => total d' = total d + 1 /\ act d' a = act d a /\
      exists b n, act d a = Some b /\ rnd d a = Some n /\ rnd d' a = Some (if b then n + 1 else n)
  | _ => total d' = total d /\ act d' a = act d a /\ rnd d' a = rnd d a
  end.
Lemma call_stepped o d d' c a : wf_det d -> In a (labels d) -> call o d = (d', Ok c) -> stepped o a d d'.
Proof.
  intros Hw Ha H. destruct o as [|l|l|u|nd|g r q|g s r rc q]; simpl in H |- *; try apply quiet_ok in H as [H ->].
  - injection H as <-. unfold act, rnd; simpl.
    assert (Hn := wf_nodup _ Hw). rewrite dedup_nodup by auto. clear -Ha.
    repeat split; auto; induction (labels d) as [|x l IH]; simpl in *; try tauto;
      destruct (eqb_spec a x); auto; apply IH; intuition congruence.
  - unfold activate in H. destruct (strict_superset _ _); [discriminate|].
    apply activate_iter in H as (_ & _ & Ht & _ & _ & H). split; auto. destruct (H a) as [H1 H2].
    destruct (mem a l) eqn:E; [apply mem_In in E|apply mem_not_In in E]; auto.
  - unfold deactivate in H. destruct (strict_superset _ _); [discriminate|].
    apply deactivate_iter in H as (_ & _ & Ht & Hr & H). split; auto. split; [unfold rnd; congruence|].
    destruct (H a) as [H1 H2].
    destruct (mem a l) eqn:E; [apply mem_In in E|apply mem_not_In in E]; auto.
  - destruct (update_char _ _ _ _ Hw H) as [[-> _]|[_ (rows & _ & ->)]]; auto.
  - unfold update_from_dict in H. destruct (strict_superset _ _); [discriminate|]. destruct (negb _); [discriminate|].
    destruct (update_char _ _ _ _ Hw H) as [[-> _]|[_ (rows & _ & ->)]]; auto.
  - apply build_from_anc_inv in H as [[_ [e H]]|(ancs & nr & E1 & E2 & H)]; [discriminate|].
    destruct H as [[_ [e H]]|(dets & c' & H1 & H2 & -> & H3)]; [discriminate|]. simpl.
    split; auto. split; [reflexivity|]. apply (next_rounds_get d nr a); auto.
  - apply build_from_data_inv in H as [[_ [e H]]|(ancs & nr & dets & dets' & c' & _ & E1 & E2 & H1 & H2 & H3 & -> & H4)];
      [discriminate|]. auto.
Qed.
Lemma dhist_app d l r d' cs : dhist d (l ++ r) d' cs -> exists d1 cs1 cs2, dhist d l d1 cs1 /\ dhist d1 r d' cs2.
Proof.
  revert d cs; induction l as [|o l IH]; simpl; intros d cs H.
  - exists d, [], cs. split; auto. constructor.
  - inversion H as [|? ? ? ? ? ? ? H1 H2]; subst. apply IH in H2 as (d2 & c1 & c2 & H2 & H3).
    exists d2, (c :: c1), c2. split; auto. econstructor; eauto.
Qed.
Lemma dhist_wf d l d' cs : dhist d l d' cs -> wf_det d -> wf_det d' /\ same d d'.
Proof. intros H Hw. apply dhist_reach in H. eapply dreach_wf; eauto. Qed.

Lemma total_lemma h2 : forall d d' cs, wf_det d -> none is_new h2 -> dhist d h2 d' cs -> total d' = total d + n_rounds h2.
Proof.
  unfold none, n_rounds. induction h2 as [|o h2 IH]; simpl; intros d d' cs Hw Hn H; inversion H as [|? ? d1 ? ? ? ? H1 H2]; subst.
  - simpl. lia.
  - apply orb_false_iff in Hn as [Hn1 Hn2].
    destruct (keeps_call _ _ _ _ H1 Hw) as [Hw1 _].
    rewrite (IH _ _ _ Hw1 Hn2 H2).
    assert (E : total d1 = total d + (if is_anc o then 1 else 0)).
    { destruct (labels d) as [|a ls] eqn:El.
      - (* no ancillas *)
        destruct o as [|l|l|u|nd|g r q|g s r rc q]; simpl in H1, Hn1 |- *; try discriminate; try apply quiet_ok in H1 as [H1 ->].
        + unfold activate in H1. destruct (strict_superset _ _); [discriminate|]. apply activate_iter in H1. lia.
        + unfold deactivate in H1. destruct (strict_superset _ _); [discriminate|]. apply deactivate_iter in H1. lia.
        + destruct (update_char _ _ _ _ Hw H1) as [[-> _]|[_ (rows & _ & ->)]]; simpl; lia.
        + unfold update_from_dict in H1. destruct (strict_superset _ _); [discriminate|]. destruct (negb _); [discriminate|].
          destruct (update_char _ _ _ _ Hw H1) as [[-> _]|[_ (rows & _ & ->)]]; simpl; lia.
        + apply build_from_anc_inv in H1 as [[_ [e H1]]|(ancs & nr & E1 & E2 & H1)]; [discriminate|].
          destruct H1 as [[_ [e H1]]|(dets & c' & _ & _ & -> & H3)]; [discriminate|]. simpl. lia.
        + apply build_from_data_inv in H1 as [[_ [e H1]]|(ancs & nr & dets & dets' & c' & _ & _ & _ & _ & _ & _ & -> & _)];
            [discriminate|]. simpl. lia.
      - assert (Ha : In a (labels d)) by (rewrite El; now left).
        pose proof (call_stepped _ _ _ _ a Hw Ha H1) as St.
        destruct o; simpl in *; try discriminate; destruct St; lia. }
    rewrite E. destruct (is_anc o); simpl length; lia.
Qed.
Lemma C09_total_lemma ls f cs d0 h1 h2 d out : det_init ls f cs = Ok d0 -> up_to_new h1 -> none is_new h2 ->
  dhist d0 (h1 ++ h2) d out -> total d = n_rounds h2.
Proof.
  intros Hi Hu Hn H. destruct (det_init_wf _ _ _ _ Hi) as [Hw _].
  apply dhist_app in H as (d1 & c1 & c2 & H1 & H2). destruct (dhist_wf _ _ _ _ H1 Hw) as [Hw1 _].
  rewrite (total_lemma _ _ _ _ Hw1 Hn H2).
  enough (total d1 = 0) by lia. destruct Hu as [->|[h ->]].
  - inversion H1; subst. apply det_init_ok in Hi as [_ (d0 & -> & _)]. reflexivity.
  - apply dhist_app in H1 as (d2 & c3 & c4 & _ & H4). inversion H4 as [|? ? ? ? ? ? ? H5 H6]; subst.
    inversion H6; subst. simpl in H5. apply quiet_ok in H5 as [H5 _]. injection H5 as <-. reflexivity.
Qed.

Lemma none_cons p o l : none p (o :: l) -> p o = false /\ none p l.
Proof. unfold none; simpl. apply orb_false_iff. Qed.
Lemma rounds_lemma a h : forall d d' cs b n, wf_det d -> In a (labels d) -> none (touches a) h ->
  dhist d h d' cs -> act d a = Some b -> rnd d a = Some n ->
  act d' a = Some b /\ rnd d' a = Some (if b then n + n_rounds h else n).
Proof.
  induction h as [|o h IH]; intros d d' cs b n Hw Ha Hn H Eb En; inversion H as [|? ? d1 ? ? ? ? H1 H2]; subst.
  - split; auto. rewrite En. unfold n_rounds; simpl. destruct b; f_equal; lia.
  - apply none_cons in Hn as [Hn1 Hn2]. destruct (keeps_call _ _ _ _ H1 Hw) as [Hw1 Hs].
    assert (Ha1 : In a (labels d1)) by (destruct Hs as [-> _]; auto).
    pose proof (call_stepped _ _ _ _ a Hw Ha H1) as St.
    unfold touches in Hn1.
    assert (St' : act d1 a = Some b /\ rnd d1 a = Some (if b && is_anc o then n + 1 else n)).
    { destruct o as [|l|l|u|nd|g r q|g s r rc q]; simpl in Hn1, St |- *; rewrite ?andb_false_r; try discriminate.
      - destruct (mem a l); [discriminate|]. intuition congruence.
      - destruct (mem a l); [discriminate|]. intuition congruence.
      - intuition congruence.
      - intuition congruence.
      - destruct St as (_ & S1 & b' & n' & S2 & S3 & S4). rewrite andb_true_r.
        split; [congruence|]. rewrite S4. assert (b' = b) by congruence. assert (n' = n) by congruence. now subst.
      - intuition congruence. }
    destruct St' as [S1 S2]. destruct (IH _ _ _ _ _ Hw1 Ha1 Hn2 H2 S1 S2) as [R1 R2].
    split; auto. rewrite R2. unfold n_rounds; simpl. destruct b, (is_anc o); simpl length; simpl; f_equal; lia.
Qed.
Lemma C09_active_lemma ls f cs d0 pre l post d out a : det_init ls f cs = Ok d0 -> In a ls -> In a l ->
  none (touches a) post -> dhist d0 (pre ++ DAct l :: post) d out ->
  dget a (active d) = Some true /\ dget a (num_rounds d) = Some (n_rounds post).
Proof.
  intros Hi Ha Hl Hn H. destruct (det_init_wf _ _ _ _ Hi) as [Hw El].
  apply dhist_app in H as (d1 & c1 & c2 & H1 & H2). destruct (dhist_wf _ _ _ _ H1 Hw) as [Hw1 [S1 _]].
  inversion H2 as [|? ? d2 ? ? ? ? H3 H4]; subst. destruct (keeps_call _ _ _ _ H3 Hw1) as [Hw2 [S2 _]].
  assert (Ha1 : In a (labels d1)) by (rewrite S1; auto).
  pose proof (call_stepped _ _ _ _ a Hw1 Ha1 H3) as [_ St]. apply mem_In in Hl. rewrite Hl in St. destruct St as [A B].
  assert (Ha2 : In a (labels d2)) by (rewrite S2; auto).
  eapply (rounds_lemma a post d2 d _ true 0); eauto.
Qed.
Lemma C09_inactive_lemma ls f cs d0 pre l mid l' post d out a : det_init ls f cs = Ok d0 -> In a ls ->
  In a l -> In a l' -> none (touches a) mid -> none (touches a) post ->
  dhist d0 (pre ++ DAct l :: mid ++ DDeact l' :: post) d out ->
  dget a (active d) = Some false /\ dget a (num_rounds d) = Some (n_rounds mid).
Proof.
  intros Hi Ha Hl Hl' Hm Hn H.
  replace (pre ++ DAct l :: mid ++ DDeact l' :: post) with ((pre ++ DAct l :: mid) ++ DDeact l' :: post) in H
    by (rewrite <- app_assoc; reflexivity).
  apply dhist_app in H as (d1 & c1 & c2 & H1 & H2).
  destruct (C09_active_lemma _ _ _ _ _ _ _ _ _ _ Hi Ha Hl Hm H1) as [A B].
  destruct (det_init_wf _ _ _ _ Hi) as [Hw El]. destruct (dhist_wf _ _ _ _ H1 Hw) as [Hw1 [S1 _]].
  inversion H2 as [|? ? d2 ? ? ? ? H3 H4]; subst. destruct (keeps_call _ _ _ _ H3 Hw1) as [Hw2 [S2 _]].
  assert (Ha1 : In a (labels d1)) by (rewrite S1; auto).
  pose proof (call_stepped _ _ _ _ a Hw1 Ha1 H3) as [_ [R St]]. apply mem_In in Hl'. rewrite Hl' in St.
  assert (Ha2 : In a (labels d2)) by (rewrite S2; auto).
  eapply (rounds_lemma a post d2 d _ false (n_rounds mid)); eauto. rewrite R. exact B.
Qed.
Lemma never_lemma a h : forall d d' cs, wf_det d -> In a (labels d) -> none (fun o => is_new o || acts a o) h ->
  dhist d h d' cs -> act d a = Some false -> rnd d a = Some 0 -> act d' a = Some false /\ rnd d' a = Some 0.
Proof.
  induction h as [|o h IH]; intros d d' cs Hw Ha Hn H Eb En; inversion H as [|? ? d1 ? ? ? ? H1 H2]; subst; auto.
  apply none_cons in Hn as [Hn1 Hn2]. destruct (keeps_call _ _ _ _ H1 Hw) as [Hw1 Hs].
  assert (Ha1 : In a (labels d1)) by (destruct Hs as [-> _]; auto).
  pose proof (call_stepped _ _ _ _ a Hw Ha H1) as St.
  assert (St' : act d1 a = Some false /\ rnd d1 a = Some 0).
  { destruct o as [|l|l|u|nd|g r q|g s r rc q]; simpl in Hn1, St; try discriminate.
    - rewrite Hn1 in St. intuition congruence.
    - destruct (mem a l); intuition congruence.
    - intuition congruence.
    - intuition congruence.
    - destruct St as (_ & S1 & b' & n' & S2 & S3 & S4).
      split; [congruence|]. rewrite S4. rewrite Eb in S2. injection S2 as <-. congruence.
    - intuition congruence. }
  destruct St'. eapply IH; eauto.
Qed.
Lemma det_new_counters d a : NoDup (labels d) -> In a (labels d) -> act (det_new d) a = Some false /\ rnd (det_new d) a = Some 0.
Proof.
  intros Hn Ha. unfold act, rnd; simpl. rewrite dedup_nodup by auto. clear -Ha.
  split; induction (labels d) as [|x l IH]; simpl in *; try tauto;
      destruct (eqb_spec a x); auto; apply IH; intuition congruence.
Qed.
Lemma C09_never_lemma ls f cs d0 h1 h2 d out a : det_init ls f cs = Ok d0 -> In a ls -> up_to_new h1 ->
  none (fun o => is_new o || acts a o) h2 -> dhist d0 (h1 ++ h2) d out ->
  dget a (active d) = Some false /\ dget a (num_rounds d) = Some 0.
Proof.
  intros Hi Ha Hu Hn H. destruct (det_init_wf _ _ _ _ Hi) as [Hw El].
  apply dhist_app in H as (d1 & c1 & c2 & H1 & H2). destruct (dhist_wf _ _ _ _ H1 Hw) as [Hw1 [S1 _]].
  assert (Ha1 : In a (labels d1)) by (rewrite S1, El; auto).
  assert (E : act d1 a = Some false /\ rnd d1 a = Some 0).
  { destruct Hu as [->|[h ->]].
    - inversion H1; subst. apply det_init_ok in Hi as [N (d0 & -> & E)]. apply det_new_counters; simpl in *; congruence.
    - apply dhist_app in H1 as (d2 & c3 & c4 & _ & H4). inversion H4 as [|? ? ? ? ? ? ? H5 H6]; subst.
      inversion H6; subst. simpl in H5. apply quiet_ok in H5 as [H5 _]. injection H5 as <-.
      apply det_new_counters; auto. apply Hw1. }
  destruct E. apply (never_lemma a h2 d1 d c2); auto.
Qed.

(** * Unknown labels (C10) *)
Lemma siter_known_prefix l1 x l2 : forall d d', siter activate_one l1 d = (d', Ok tt) -> dget x (active d') = None ->
  siter activate_one (l1 ++ x :: l2) d = (d', Err KeyError).
Proof.
  induction l1 as [|y l1 IH]; intros d d' H Hx; apply siter_ok in H; simpl.
  - subst. unfold sbind, activate_one. now rewrite Hx.
  - destruct H as (d1 & H1 & H2). unfold sbind. rewrite H1. now apply IH.
Qed.
(* what is rejected up front *)
Lemma activate_guard l d : wf_det d -> (exists a, In a l /\ ~ In a (labels d)) -> incl (labels d) l ->
  activate l d = (d, Err ValueError) /\ deactivate l d = (d, Err ValueError).
Proof.
  intros Hw (a & Ha & Hn) Hi. unfold activate, deactivate.
  assert (E : strict_superset l (dkeys (active d)) = true).
  { unfold strict_superset. rewrite (wf_active _ Hw). apply andb_true_iff. split; [now apply subset_spec|].
    apply negb_true_iff. destruct (subset l (labels d)) eqn:E; auto. apply subset_spec in E. exfalso. auto. }
  now rewrite E.
Qed.
(* every call with an unknown label fails *)
Lemma siter_unknown (f : string -> ST detectors unit) l a : In a l -> (forall d, f a d = (d, Err KeyError)) ->
  forall d, exists d' e, siter f l d = (d', Err e).
Proof.
  intros Hi Hf. induction l as [|x l IH]; [destruct Hi|]. intros d. simpl. unfold sbind.
  destruct (f x d) as [d1 [[]|e]] eqn:E; eauto. destruct Hi as [->|Hi]; [rewrite Hf in E; discriminate|]. auto.
Qed.
Lemma active_unknown l : forall d a, dget a (active d) = None -> In a l ->
  exists d' e, siter activate_one l d = (d', Err e) /\ (e = KeyError \/ e = ValueError).
Proof.
  induction l as [|x l IH]; intros d a Ha Hi; [destruct Hi|]. simpl. unfold sbind, activate_one.
  destruct (dget x (active d)) as [[]|] eqn:E; eauto.
  destruct Hi as [->|Hi]; [congruence|]. apply (IH _ a); auto. simpl.
  rewrite dget_dset. destruct (eqb_spec x a) as [->|]; [congruence|exact Ha].
Qed.
Lemma deactive_unknown l : forall d a, dget a (active d) = None -> In a l ->
  exists d' e, siter deactivate_one l d = (d', Err e) /\ (e = KeyError \/ e = ValueError).
Proof.
  induction l as [|x l IH]; intros d a Ha Hi; [destruct Hi|]. simpl. unfold sbind, deactivate_one.
  destruct (dget x (active d)) as [[]|] eqn:E; eauto.
  destruct Hi as [->|Hi]; [congruence|]. apply (IH _ a); auto. simpl.
  rewrite dget_dset. destruct (eqb_spec x a) as [->|]; [congruence|exact Ha].
Qed.
Lemma C10_lemma l d a : wf_det d -> In a l -> ~ In a (labels d) ->
  (exists d' e, activate l d = (d', Err e) /\ (e = KeyError \/ e = ValueError)) /\
  (exists d' e, deactivate l d = (d', Err e) /\ (e = KeyError \/ e = ValueError)).
Proof.
  intros Hw Hi Hn.
  assert (E : dget a (active d) = None) by (apply dget_None; now rewrite (wf_active _ Hw)).
  unfold activate, deactivate. destruct (strict_superset _ _); [eauto 10|].
  split; [eapply active_unknown; eauto|eapply deactive_unknown; eauto].
Qed.

(** * update_from_dict (C11) *)
Fixpoint xor_rows (n : nat) (rows : list (list bool)) : list bool :=
  match rows with [] => repeat false n | r :: t => vxor r (xor_rows n t) end.
Lemma vxor_nth a b j : length a = length b -> nth j (vxor a b) false = xorb (nth j a false) (nth j b false).
Proof. revert b j; induction a as [|x a IH]; intros [|y b] [|j]; simpl; try discriminate; auto. Qed.
Lemma row_times_nth n j : forall row rows acc, Forall (fun r => length r = n) rows -> length acc = n ->
  nth j (fold_left (fun acc br => if fst br : bool then vxor acc (snd br) else acc) (combine row rows) acc) false =
  xorb (nth j acc false) (xorl (map (fun br => fst br && nth j (snd br) false) (combine row rows))).
Proof.
  intros row rows. revert row. induction rows as [|r rows IH]; intros [|b row] acc H Ha; simpl; try (now rewrite xorb_false_r).
  inversion H as [|? ? H1 H2]; subst. rewrite IH; auto.
  - destruct b; simpl.
    + rewrite vxor_nth by congruence. now rewrite xorb_assoc.
    + now destruct (xorl _).
  - destruct b; auto. rewrite vxor_length. lia.
Qed.
Lemma map_combine {A B C} (f : A -> B) (g : A -> C) l : combine (map f l) (map g l) = map (fun x => (f x, g x)) l.
Proof. induction l; simpl; congruence. Qed.
Lemma combine_rows (ls : list string) (g : gen) rows (h : string -> bool) j :
  Forall2 (fun a r => dget a g = Some r) ls rows ->
  xorl (map (fun br : bool * list bool => fst br && nth j (snd br) false) (combine (map h ls) rows)) =
  xorl (map (fun a => h a && gen_entry g a j) ls).
Proof.
  induction 1 as [|a r ls rows H _ IH]; simpl; [reflexivity|]. rewrite IH. f_equal. unfold gen_entry. now rewrite H.
Qed.
Lemma nodup_perm l : Permutation (nodup string_dec l) (filter (fun o => mem o l) (nodup string_dec l)).
Proof.
  assert (E : filter (fun o => mem o l) (nodup string_dec l) = nodup string_dec l); [|now rewrite E].
  rewrite <- (map_id (nodup string_dec l)) at 2.
  assert (H : forall x, In x (nodup string_dec l) -> mem x l = true).
  { intros x Hx. apply mem_In. now apply nodup_In in Hx. }
  rewrite map_id. induction (nodup string_dec l) as [|x r IH]; simpl; [reflexivity|].
  rewrite H by now left. f_equal. apply IH. intros; apply H; now right.
Qed.
Lemma xorl_mem f ls l : NoDup ls -> incl l ls ->
  xorl (map (fun o => mem o l && f o) ls) = xorl (map f (nodup string_dec l)).
Proof.
  intros Hn Hi.
  rewrite (parity_count f (nodup string_dec l) ls Hn) by (intros x Hx; apply Hi; now apply nodup_In in Hx).
  apply xorl_ext. intros x _. f_equal.
  assert (C : count x (nodup string_dec l) = if mem x l then 1%nat else 0%nat).
  { assert (N := NoDup_nodup string_dec l). assert (M : mem x l = mem x (nodup string_dec l)).
    { destruct (mem x l) eqn:E; symmetry; [apply mem_In, nodup_In; now apply mem_In|].
      apply mem_not_In. intros H. apply nodup_In, mem_In in H. congruence. }
    rewrite M. clear -N. induction (nodup string_dec l) as [|y r IH]; simpl; [reflexivity|].
    inversion N as [|? ? N1 N2]; subst. rewrite IH by auto. destruct (eqb_spec x y) as [->|]; simpl; [|now destruct (mem x r)].
    apply mem_not_In in N1. now rewrite N1. }
  rewrite C. now destruct (mem x l).
Qed.
Definition dict_unitary (ls : list string) (nd : dict string (list string)) : unitary :=
  {| u_new := ls; u_old := ls; u_mat := map (fun a => udict_row ls a (dget a nd)) ls |}.
Lemma update_from_dict_known nd d : dict_known (labels d) nd ->
  update_from_dict nd d = update (dict_unitary (labels d) nd) d.
Proof.
  intros Hk. unfold update_from_dict.
  assert (E1 : strict_superset (dkeys nd) (labels d) = false).
  { unfold strict_superset. apply andb_false_iff. right. apply negb_false_iff, subset_spec.
    intros a Ha. unfold dkeys in Ha. apply in_map_iff in Ha as ([a' l] & <- & Hi). simpl. destruct (Hk _ _ Hi); auto. }
  assert (E2 : forallb (fun kv => mem (fst kv) (labels d) && forallb (fun o => mem o (labels d)) (snd kv)) nd = true).
  { apply forallb_forall. intros [a l] Hi. simpl. destruct (Hk _ _ Hi) as [H1 H2].
    apply andb_true_iff. split; [now apply mem_In|]. apply forallb_forall. intros o Ho. now apply mem_In, H2. }
  rewrite E1, E2. reflexivity.
Qed.
Lemma udict_row_length ls a o : length (udict_row ls a o) = length ls.
Proof. destruct o; simpl; apply map_length. Qed.
Lemma udict_row_map ls a nd : udict_row ls a (dget a nd) =
  map (fun o => match dget a nd with Some l => mem o l | None => eqb o a end) ls.
Proof. destruct (dget a nd); reflexivity. Qed.

(* the rows of the matrix by label *)
Lemma index_nth_error (l : list string) a i : NoDup l -> nth_error l i = Some a -> index a l = Some i.
Proof.
  revert i. induction l as [|x l IH]; intros [|i] N; simpl; try discriminate.
  - intros [= ->]. now rewrite eqb_refl.
  - intros Hi. inversion N as [|? ? N1 N2]; subst. destruct (eqb_spec a x) as [->|]; [apply nth_error_In in Hi; contradiction|].
    now rewrite (IH i).
Qed.
Lemma u_row u a i : NoDup (u_new u) -> NoDup (u_old u) -> nth_error (u_new u) i = Some a ->
  length (nth i (u_mat u) []) = length (u_old u) -> nth i (u_mat u) [] = map (fun b => entry u a b) (u_old u).
Proof.
  intros Nn N Hi Er. pose proof (index_nth_error _ _ _ Nn Hi) as Ei.
  unfold entry. rewrite Ei. clear -N Er. revert Er N.
    generalize (nth i (u_mat u) []) as row. intros row.
    assert (G : forall (l p : list string) row, length row = length l -> NoDup (p ++ l) ->
      map (fun b => match index b (p ++ l) with Some j => nth j (repeat false (length p) ++ row) false | None => false end) l = row).
    { clear. induction l as [|x l IH]; intros p [|b row]; simpl; try discriminate; auto.
      intros [= E] N. f_equal.
      - replace (index x (p ++ x :: l)) with (Some (length p)).
        + rewrite app_nth2 by (rewrite repeat_length; lia). rewrite repeat_length, Nat.sub_diag. reflexivity.
        + apply NoDup_remove_2 in N. clear -N. induction p as [|y p IHp]; simpl; [now rewrite eqb_refl|].
          destruct (eqb_spec x y) as [->|]; [exfalso; apply N; now left|].
          simpl in N. rewrite <- IHp by tauto. reflexivity.
      - replace (p ++ x :: l) with ((p ++ [x]) ++ l) in * by (rewrite <- app_assoc; reflexivity).
        specialize (IH (p ++ [x]) row E N). etransitivity; [|exact IH]. apply map_ext_in. intros y Hy.
        destruct (index y ((p ++ [x]) ++ l)) as [k|] eqn:Ek; auto.
        assert (Lk : (length p < k)%nat).
        { clear -Ek N Hy. revert k Ek. induction p as [|z p IHp]; intros k; simpl.
          - simpl in N. inversion N as [|? ? N1 N2]; subst. destruct (eqb_spec y x) as [->|]; [contradiction|].
            destruct (index y l); simpl; [|discriminate]. intros [= <-]. lia.
          - simpl in N. inversion N as [|? ? N1 N2]; subst. destruct (eqb_spec y z) as [->|].
            + exfalso. apply N1. apply in_or_app. now right.
            + destruct (index y ((p ++ [x]) ++ l)) as [k'|] eqn:E'; simpl; [|discriminate]. intros [= <-].
              specialize (IHp N2 k' eq_refl). lia. }
        rewrite !app_nth2 by (rewrite repeat_length, ?app_length; simpl; lia).
        rewrite !repeat_length, app_length. simpl.
        replace (k - length p)%nat with (S (k - (length p + 1)))%nat by lia. reflexivity. }
    intros Er N. symmetry. apply (G (u_old u) [] row Er N).
Qed.
(* entry of the updated generators, for any unitary *)
Lemma update_entry u d d' : wf_det d -> update u d = (d', Ok tt) ->
  prev_gen d' = prev_gen d /\ active d' = active d /\ num_rounds d' = num_rounds d /\ total d' = total d /\
  forall a j, In a (labels d) ->
    gen_entry (curr_gen d') a j = xorl (map (fun b => entry u a b && gen_entry (curr_gen d) b j) (u_old u)).
Proof.
  intros Hw H. destruct (update_char _ _ _ _ Hw H) as [[_ (e & E & _)]|[_ (rows & U & ->)]]; [discriminate|].
  simpl. repeat split; auto. intros a j Ha.
  assert (Hn : In a (u_new u)) by (eapply Permutation_in; [symmetry; apply U|auto]).
  apply In_nth_error in Hn as [i Hi].
  assert (Li : (i < length (u_mat u))%nat) by (rewrite (uo_len _ _ _ U); apply nth_error_Some; congruence).
  unfold gen_entry at 1. rewrite (dget_combine _ _ a i (uo_nnew _ _ _ U) Hi).
  rewrite (map_nth_error _ i (u_mat u) (d := nth i (u_mat u) [])) by (apply nth_error_nth'; auto).
  assert (Hr : Forall (fun r => length r = length (labels d)) rows).
  { pose proof (uo_rows _ _ _ U) as F. clear -F Hw. induction F; constructor; auto. eapply wf_crow; eauto. }
  unfold row_times. rewrite (row_times_nth (length (labels d))) by (auto using repeat_length).
  rewrite nth_repeat. rewrite xorb_false_l.
  assert (Er : length (nth i (u_mat u) []) = length (u_old u)).
  { pose proof (uo_row _ _ _ U) as F. rewrite Forall_forall in F. apply F. now apply nth_In. }
  assert (Em : nth i (u_mat u) [] = map (fun b => entry u a b) (u_old u)).
  { apply u_row; auto; apply U. }
  rewrite Em. apply combine_rows. apply U.
Qed.
Lemma entry_dict ls nd a b : NoDup ls -> In a ls -> In b ls -> entry (dict_unitary ls nd) a b =
  match dget a nd with Some l => mem b l | None => eqb b a end.
Proof.
  intros Hn Ha Hb. unfold entry, dict_unitary; simpl.
  assert (I : forall x, In x ls -> exists i, index x ls = Some i /\ nth_error ls i = Some x).
  { clear. induction ls as [|y ls IH]; simpl; [tauto|]. intros x Hx. destruct (eqb_spec x y) as [->|].
    - exists 0%nat; auto.
    - destruct Hx as [->|Hx]; [congruence|]. destruct (IH x Hx) as (i & -> & E). exists (S i); auto. }
  destruct (I a Ha) as (i & -> & Ei). destruct (I b Hb) as (j & -> & Ej).
  rewrite (nth_indep _ [] (udict_row ls "" (dget "" nd))) by (rewrite map_length; apply nth_error_Some; congruence).
  rewrite (map_nth (fun a => udict_row ls a (dget a nd))).
  rewrite (nth_error_nth _ _ _ Ei). rewrite udict_row_map.
  assert (Lj : (j < length ls)%nat) by (apply nth_error_Some; congruence).
  rewrite (nth_indep _ false ((fun o => match dget a nd with Some l => mem o l | None => eqb o a end) "")) by (now rewrite map_length).
  rewrite (map_nth (fun o => match dget a nd with Some l => mem o l | None => eqb o a end)).
  now rewrite (nth_error_nth _ _ _ Ej).
Qed.
Lemma C11_ok_lemma nd d d' : wf_det d -> dict_known (labels d) nd -> update_from_dict nd d = (d', Ok tt) ->
  prev_gen d' = prev_gen d /\ active d' = active d /\ num_rounds d' = num_rounds d /\ total d' = total d /\
  forall a j, In a (labels d) ->
    gen_entry (curr_gen d') a j =
    match dget a nd with
    | Some l => xorl (map (fun b => gen_entry (curr_gen d) b j) (nodup string_dec l))
    | None => gen_entry (curr_gen d) a j
    end.
Proof.
  intros Hw Hk H. rewrite update_from_dict_known in H by auto.
  apply update_entry in H as (H1 & H2 & H3 & H4 & H5); auto. repeat split; auto.
  intros a j Ha. rewrite H5 by auto. simpl. assert (Hn := wf_nodup _ Hw).
  rewrite (xorl_ext _ (fun b => match dget a nd with Some l => mem b l | None => eqb b a end && gen_entry (curr_gen d) b j)).
  - destruct (dget a nd) as [l|] eqn:E.
    + apply xorl_mem; auto. apply dget_In in E. destruct (Hk _ _ E); auto.
    + now apply (xorl_single a (fun b => gen_entry (curr_gen d) b j)).
  - intros b Hb. now rewrite entry_dict.
Qed.

Lemma dot_map {A} (h v : A -> bool) l : dot GF2 (map h l) (map v l) = xorl (map (fun b => h b && v b) l).
Proof. induction l as [|x l IH]; simpl; [reflexivity|]. now rewrite IH. Qed.
Lemma gate_map_dict ls nd v a : NoDup ls -> In a ls -> dict_known ls nd ->
  dot GF2 (udict_row ls a (dget a nd)) (map v ls) = gate_map (DUpdD nd) v a.
Proof.
  intros Hn Ha Hk. rewrite udict_row_map, dot_map. simpl. destruct (dget a nd) as [l|] eqn:E.
  - apply xorl_mem; auto. apply dget_In in E. destruct (Hk _ _ E); auto.
  - now apply (xorl_single a v).
Qed.
Lemma as_function (ls : list string) : forall (y : list bool), NoDup ls -> length y = length ls -> exists v, map v ls = y.
Proof.
  induction ls as [|a ls IH]; intros [|b y]; simpl; try discriminate; [exists (fun _ => false); auto|].
  intros Hn [= E]. inversion Hn as [|? ? H1 H2]; subst. destruct (IH y H2 E) as [v Hv].
  exists (fun x => if eqb x a then b else v x). rewrite eqb_refl. f_equal. rewrite <- Hv. apply map_ext_in.
  intros x Hx. destruct (eqb_spec x a) as [->|]; [contradiction|reflexivity].
Qed.
Lemma map_false (v : string -> bool) ls : map v ls = repeat false (length ls) <-> forall a, In a ls -> v a = false.
Proof.
  induction ls as [|a ls IH]; simpl; [split; [intros _ a []|auto]|]. split.
  - intros [= H1 H2]. rewrite IH in H2. intros x [<-|Hx]; auto.
  - intros H. rewrite H by auto. f_equal. apply IH. auto.
Qed.
Lemma C11_iff_lemma nd d : wf_det d -> dict_known (labels d) nd ->
  ((exists v a, In a (labels d) /\ v a = true /\ forall b, In b (labels d) -> gate_map (DUpdD nd) v b = false) ->
     update_from_dict nd d = (d, Err ValueError)) /\
  (~ (exists v a, In a (labels d) /\ v a = true /\ forall b, In b (labels d) -> gate_map (DUpdD nd) v b = false) ->
     exists d', update_from_dict nd d = (d', Ok tt)).
Proof.
  intros Hw Hk. rewrite update_from_dict_known by auto.
  set (u := dict_unitary (labels d) nd). assert (Hn := wf_nodup _ Hw).
  assert (S1 : set_eq (labels d) (labels d) = true) by (apply set_eq_spec; tauto).
  assert (S2 : nodupb (labels d) = true) by now apply nodupb_spec.
  assert (LM : length (u_mat u) = length (labels d)) by (simpl; now rewrite map_length).
  assert (SQ : MatP.square (u_mat u)).
  { unfold MatP.square. rewrite LM. simpl. apply Forall_forall. intros r Hr. apply in_map_iff in Hr as (a & <- & _). apply udict_row_length. }
  assert (S3 : forallb (fun r : list bool => eqb (length r) (length (u_old u))) (u_mat u) = true).
  { apply forallb_forall. intros r Hr. unfold MatP.square in SQ. rewrite Forall_forall in SQ. rewrite (SQ r Hr), LM. apply eqb_refl. }
  unfold update. subst u. unfold dict_unitary in *. cbn [u_old u_new u_mat] in *.
  rewrite S1, S2, LM, eqb_refl, S3. cbn [negb andb].
  assert (KR : forall v b, In b (labels d) -> dot GF2 (udict_row (labels d) b (dget b nd)) (map v (labels d)) = gate_map (DUpdD nd) v b).
  { intros v b Hb. now apply gate_map_dict. }
  split.
  - intros (v & a & Ha & Hv & Hz).
    destruct (singular GF2 (map (fun a => udict_row (labels d) a (dget a nd)) (labels d))) eqn:E; [reflexivity|exfalso].
    unfold singular in E. destruct (inverse_cols GF2 _) as [X|] eqn:EX; [|discriminate].
    assert (K := inverse_cols_kernel GF2 GF2_laws _ _ SQ EX (map v (labels d))).
    rewrite !map_length in K. specialize (K eq_refl).
    assert (Kz : map v (labels d) = repeat false (length (labels d))).
    { apply K. intros r Hr. apply in_map_iff in Hr as (b & <- & Hb). rewrite KR; auto. }
    rewrite map_false in Kz. rewrite Kz in Hv; auto. discriminate.
  - intros Hno.
    destruct (singular GF2 (map (fun a => udict_row (labels d) a (dget a nd)) (labels d))) eqn:E.
    + exfalso. apply Hno. unfold singular in E. destruct (inverse_cols GF2 _) as [X|] eqn:EX; [discriminate|].
      apply (inverse_cols_none GF2 GF2_laws) in EX as (y & Ly & Ny & Hy); auto. rewrite map_length in Ly, Ny.
      destruct (as_function (labels d) y Hn Ly) as [v Hv]. exists v. subst y.
      destruct (existsb v (labels d)) eqn:Ev.
      * apply existsb_exists in Ev as (a & Ha & Hva). exists a. repeat split; auto.
        intros b Hb. rewrite <- KR by auto. apply Hy. apply in_map_iff. eauto.
      * exfalso. apply Ny, map_false. intros a Ha. destruct (v a) eqn:Eva; auto.
        rewrite <- Ev. symmetry. apply existsb_exists. eauto.
    + assert (Ei : incl (labels d) (dkeys (curr_gen d))).
      { intros a Ha. eapply Permutation_in; [symmetry; apply Hw|auto]. }
      destruct (mapM (fun a => dget_err a (curr_gen d)) (labels d)) as [rows|e] eqn:EM; [eauto|exfalso].
      clear -EM Ei. induction (labels d) as [|x l IH]; simpl in EM; [discriminate|].
      unfold dget_err at 1 in EM. destruct (dget x (curr_gen d)) eqn:E.
      * simpl in EM. destruct (mapM _ l); [discriminate|]. apply IH; auto. intros y Hy; apply Ei; now right.
      * apply dget_None in E. apply E, Ei. now left.
Qed.

(** * Gate-independent frame (C12) *)
Definition eqg (d d2 : detectors) : Prop :=
  same d d2 /\ active d2 = active d /\ num_rounds d2 = num_rounds d /\ total d2 = total d.
Lemma eqg_refl d : eqg d d.
Proof. unfold eqg; auto using same_refl. Qed.
Lemma siter_act_eqg l : forall d d2 d', eqg d d2 -> siter activate_one l d = (d', Ok tt) ->
  exists d2', siter activate_one l d2 = (d2', Ok tt) /\ eqg d' d2'.
Proof.
  induction l as [|x l IH]; intros d d2 d' He H; apply siter_ok in H; simpl.
  - subst. exists d2. auto.
  - destruct H as (d1 & H1 & H2). unfold activate_one in H1.
    destruct (dget x (active d)) as [[]|] eqn:E; try discriminate. injection H1 as <-.
    destruct He as (Hs & Ha & Hr & Ht). unfold sbind, activate_one. rewrite Ha, E.
    eapply IH; [|exact H2]. unfold eqg, same in *; simpl. intuition congruence.
Qed.
Lemma siter_deact_eqg l : forall d d2 d', eqg d d2 -> siter deactivate_one l d = (d', Ok tt) ->
  exists d2', siter deactivate_one l d2 = (d2', Ok tt) /\ eqg d' d2'.
Proof.
  induction l as [|x l IH]; intros d d2 d' He H; apply siter_ok in H; simpl.
  - subst. exists d2. auto.
  - destruct H as (d1 & H1 & H2). unfold deactivate_one in H1.
    destruct (dget x (active d)) as [[]|] eqn:E; try discriminate. injection H1 as <-.
    destruct He as (Hs & Ha & Hr & Ht). unfold sbind, deactivate_one. rewrite Ha, E.
    eapply IH; [|exact H2]. unfold eqg, same in *; simpl. intuition congruence.
Qed.
Lemma next_rounds_eqg d d2 : eqg d d2 -> next_rounds d2 = next_rounds d.
Proof. intros (_ & Ha & Hr & _). unfold next_rounds. now rewrite Ha, Hr. Qed.
Lemma mapM_ext {A B} (f g : A -> res B) l : (forall x, In x l -> f x = g x) -> mapM f l = mapM g l.
Proof. induction l as [|x l IH]; simpl; intros H; [reflexivity|]. rewrite H by auto. rewrite IH; auto. Qed.
Lemma mapM_total {A B} (f : A -> res B) l : (forall x, In x l -> exists y, f x = Ok y) -> exists r, mapM f l = Ok r.
Proof.
  induction l as [|x l IH]; simpl; intros H; [eauto|]. destruct (H x) as [y ->]; auto. simpl.
  destruct IH as [r ->]; simpl; eauto.
Qed.
Lemma requested_eqg d d2 req ancs : wf_det d -> wf_det d2 -> eqg d d2 -> requested d req = Ok ancs ->
  exists ancs2, requested d2 req = Ok ancs2 /\ forall a, mem a ancs2 = mem a ancs.
Proof.
  intros Hw Hw2 (Hs & Ha & _) H. destruct Hs as [Hl _].
  assert (E : exists ancs2, requested d2 req = Ok ancs2).
  { destruct req as [l|].
    - exists ancs. rewrite <- H. unfold requested. now rewrite Ha.
    - unfold requested. destruct (mapM_total (fun a => dget_err a (active d2)) (dkeys (curr_gen d2))) as [fl ->]; [|simpl; eauto].
      intros a Hi. eapply Permutation_in in Hi; [|apply Hw2]. rewrite <- (wf_active _ Hw2) in Hi.
      unfold dget_err. destruct (dget a (active d2)) eqn:E; [simpl; eauto|]. apply dget_None in E. contradiction. }
  destruct E as [ancs2 E]. exists ancs2. split; auto. intros a.
  assert (K : In a ancs2 <-> In a ancs).
  { rewrite (requested_ok _ _ _ E a), (requested_ok _ _ _ H a), Ha. destruct req as [l|]; [tauto|].
    assert (In a (dkeys (curr_gen d2)) <-> In a (dkeys (curr_gen d))); [|tauto].
    split; intros Hi.
    - eapply Permutation_in; [symmetry; apply Hw|]. rewrite <- Hl. eapply Permutation_in; [apply Hw2|auto].
    - eapply Permutation_in; [symmetry; apply Hw2|]. rewrite Hl. eapply Permutation_in; [apply Hw|auto]. }
  destruct (mem a ancs2) eqn:E2, (mem a ancs) eqn:E3; auto.
  - apply mem_In in E2. apply mem_not_In in E3. tauto.
  - apply mem_not_In in E2. apply mem_In in E3. tauto.
Qed.
Lemma det_instr_ext d d2 g a1 a2 t x : dcoords d2 = dcoords d -> (forall a, mem a a2 = mem a a1) ->
  det_instr d2 g a2 t x = det_instr d g a1 t x.
Proof. intros H1 H2. unfold det_instr. now rewrite H1, H2. Qed.
Lemma call_eqg o d d2 d' c : dfr d = GateIndep -> wf_det d -> wf_det d2 -> eqg d d2 -> call o d = (d', Ok c) ->
  is_update o = false -> exists d2', call o d2 = (d2', Ok c) /\ eqg d' d2'.
Proof.
  intros Hf Hw Hw2 He H Hu. assert (He' := He). destruct He' as ((Hl & Hf2 & Hc) & Ha & Hr & Ht).
  destruct o as [|l|l|u|nd|g r q|g s r rc q]; simpl in H, Hu |- *; try discriminate.
  - apply quiet_ok in H as [H ->]. injection H as <-. exists (det_new d2). split; [reflexivity|].
    unfold eqg, same, det_new; simpl. now rewrite Hl, Hf2, Hc.
  - apply quiet_ok in H as [H ->]. unfold activate in H. destruct (strict_superset l (dkeys (active d))) eqn:E; [discriminate|].
    destruct (siter_act_eqg _ _ _ _ He H) as (d2' & H2 & H3). exists d2'. split; auto.
    unfold quiet, sbind, activate. rewrite Ha, E, H2. reflexivity.
  - apply quiet_ok in H as [H ->]. unfold deactivate in H. destruct (strict_superset l (dkeys (active d))) eqn:E; [discriminate|].
    destruct (siter_deact_eqg _ _ _ _ He H) as (d2' & H2 & H3). exists d2'. split; auto.
    unfold quiet, sbind, deactivate. rewrite Ha, E, H2. reflexivity.
  - apply build_from_anc_inv in H as [[_ [e H]]|(ancs & nr & E1 & E2 & H)]; [discriminate|].
    destruct H as [[_ [e H]]|(dets & c' & H1 & H2 & -> & H3)]; [discriminate|]. injection H3 as ->.
    rewrite Hf in H1.
    destruct (requested_eqg _ _ _ _ Hw Hw2 He E1) as (ancs2 & E1' & Em).
    exists (set_gens (curr_gen d2) (curr_gen d2) (set_rounds nr (total d2 + 1) d2)). split.
    + unfold build_from_anc, sbind, sread. rewrite E1', (next_rounds_eqg _ _ He), E2.
      cbn [dfr labels num_rounds total set_rounds curr_gen prev_gen]. cbv zeta in H1. rewrite Hf2, Hf, Hl, H1, Ht.
      rewrite (mapM_ext _ (det_instr d g ancs (zq (total d + 1 - 1)))).
      * replace (total d + 1 - 1) with (total d) by lia. rewrite H2. unfold sret. reflexivity.
      * intros x _. apply det_instr_ext; auto.
    + unfold eqg, same; simpl. rewrite Ht. auto.
  - apply build_from_data_inv in H as [[_ [e H]]|(ancs & nr & dets & dets' & c' & E0 & E1 & E2 & H1 & H2 & H3 & -> & H4)];
      [discriminate|]. injection H4 as ->. rewrite Hf in H1.
    destruct (requested_eqg _ _ _ _ Hw Hw2 He E1) as (ancs2 & E1' & Em).
    exists (set_gens (curr_gen d2) (curr_gen d2) d2). split.
    + unfold build_from_data. rewrite E0. unfold sbind, sread, slift. rewrite E1', (next_rounds_eqg _ _ He), E2.
      rewrite Hf2, Hf, Hl, H1, H2, Ht.
      rewrite (mapM_ext _ (det_instr d g ancs (zq (total d) - Q2Qc (1#2))%Qc)).
      * rewrite H3. unfold sret. reflexivity.
      * intros x _. apply det_instr_ext; auto.
    + unfold eqg, same; simpl. auto.
Qed.
Lemma update_eqg o d d' c : wf_det d -> call o d = (d', Ok c) -> is_update o = true -> eqg d d'.
Proof.
  intros Hw H Hu. destruct o as [|l|l|u|nd|g r q|g s r rc q]; simpl in *; try discriminate; apply quiet_ok in H as [H ->].
  - destruct (update_char _ _ _ _ Hw H) as [[-> _]|[_ (rows & _ & ->)]]; unfold eqg, same; simpl; auto 10.
  - unfold update_from_dict in H. destruct (strict_superset _ _); [discriminate|]. destruct (negb _); [discriminate|].
    destruct (update_char _ _ _ _ Hw H) as [[-> _]|[_ (rows & _ & ->)]]; unfold eqg, same; simpl; auto 10.
Qed.
Lemma eqg_trans a b c : eqg a b -> eqg b c -> eqg a c.
Proof. unfold eqg, same. intuition congruence. Qed.
Lemma eqg_sym a b : eqg a b -> eqg b a.
Proof. unfold eqg, same. intuition congruence. Qed.
Lemma C12_lemma h : forall d d2 d' cs, dfr d = GateIndep -> wf_det d -> wf_det d2 -> eqg d d2 ->
  dhist d h d' cs -> exists d2', dhist d2 (filter (fun o => negb (is_update o)) h) d2'
     (map snd (filter (fun oc => negb (is_update (fst oc))) (combine h cs))) /\ eqg d' d2'.
Proof.
  induction h as [|o h IH]; intros d d2 d' cs Hf Hw Hw2 He H; inversion H as [|? ? d1 c ? ? cs' H1 H2]; subst; simpl.
  - exists d2. split; [constructor|auto].
  - destruct (keeps_call _ _ _ _ H1 Hw) as [Hw1 S1]. assert (Hf1 : dfr d1 = GateIndep) by (destruct S1 as (_ & -> & _); auto).
    destruct (is_update o) eqn:Eu; simpl.
    + apply (IH d1 d2 d' cs'); auto. eapply eqg_trans; [|exact He]. apply eqg_sym. eapply update_eqg; eauto.
    + destruct (call_eqg _ _ _ _ _ Hf Hw Hw2 He H1 Eu) as (d3 & H3 & He3).
      destruct (keeps_call _ _ _ _ H3 Hw2) as [Hw3 _].
      destruct (IH d1 d3 d' cs' Hf1 Hw1 Hw3 He3 H2) as (d4 & H4 & He4).
      exists d4. split; auto. econstructor; eauto.
Qed.
Lemma remove_pairs_nodup {A} `{Eqb A} (l : list A) : NoDup l -> remove_pairs l = l.
Proof.
  intros Hn. unfold remove_pairs. assert (C : forall x, In x l -> count x l = 1%nat).
  { clear -Hn. induction l as [|y l IH]; simpl; intros x Hx; [tauto|]. inversion Hn as [|? ? N1 N2]; subst.
    destruct (eqb_spec x y) as [->|N].
    - assert (count y l = 0%nat); [|lia]. destruct (count y l) eqn:E; auto. exfalso. apply N1, count_In. lia.
    - destruct Hx as [->|Hx]; [congruence|]. rewrite IH; auto. }
  assert (G : forall r, (forall x, In x r -> In x l) -> filter (fun x => Nat.odd (count x l)) r = r).
  { clear Hn. induction r as [|x r IH]; simpl; intros Hr; [reflexivity|]. rewrite C by (apply Hr; now left). simpl. f_equal. apply IH. auto. }
  now apply G.
Qed.
Lemma C12_formula_lemma d g reset req d' c : wf_det d -> dfr d = GateIndep ->
  build_from_anc g reset req d = (d', Ok c) ->
  Forall2 (fun a i => wanted req a -> dget a (active d) = Some true ->
    forall n, dget a (num_rounds d') = Some n ->
    let k := if reset then 2 else 3 in
    mapM (fun t => g a t) (if k <=? n then [-1; -k] else [-1]) = Ok (tg i)) (labels d) c.
Proof.
  intros Hw Hf H. apply build_from_anc_inv in H as [[_ [e H]]|(ancs & nr & E1 & E2 & H)]; [discriminate|].
  destruct H as [[_ [e H]]|(dets & c' & H1 & H2 & -> & H3)]; [discriminate|]. injection H3 as ->.
  rewrite Hf in H1. apply det_instrs in H2 as [-> F]. apply mapM_Forall2 in H1.
  cbn [num_rounds set_gens set_rounds].
  assert (I : forall a, In a (labels d) -> In a (labels d)) by auto. revert I H1 F.
  generalize (labels d) at 1 3 4. intros ls. revert dets c'. induction ls as [|a ls IH]; intros dets c' I H1 F;
    inversion H1 as [|? x ? dets' H4 H5]; subst; inversion F as [|? i ? c'' H6 H7]; subst; constructor.
  - intros Hq Ha n Hn. destruct H6 as [_ H6]. apply bind_ok in H4 as [n' [H8 H4]]. unfold dget_err in H8. rewrite Hn in H8.
    cbn [of_opt] in H8. injection H8 as <-. injection H4 as <-. cbn [fst snd] in H6.
    rewrite (requested_mem d req ancs a Hw) in H6; auto; [|apply I; now left].
    assert (E : (0 <=? (if reset then -2 else -3) + n) = ((if reset then 2 else 3) <=? n)).
    { destruct reset; [destruct (Z.leb_spec 0 (-2 + n)), (Z.leb_spec 2 n)|destruct (Z.leb_spec 0 (-3 + n)), (Z.leb_spec 3 n)]; lia. }
    rewrite E in H6. cbv zeta. rewrite remove_pairs_nodup in H6.
    2: { destruct reset, (_ <=? n); repeat constructor; simpl; intuition congruence. }
    destruct reset, (_ <=? n); exact H6.
  - eapply IH; eauto. intros b Hb. apply I. now right.
Qed.
