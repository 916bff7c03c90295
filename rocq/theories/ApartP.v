(** Measuring some patches between two rounds (C50). *)
From Coq Require Import QArith Qcanon.
From Verif Require Import Base Lib StimM MatM MatP DetM SpecDet DetP DetCountP DetLinP DetDetP DetHistP ExpDetP.
Open Scope Z_scope.

Lemma switch_synced o d d' c : switch_op o = true -> call o d = (d', Ok c) -> prev_gen d = curr_gen d -> prev_gen d' = curr_gen d'.
Proof.
  destruct o as [|l|l| | | | ]; simpl; try discriminate; intros _ H E; apply quiet_ok in H as [H _].
  - destruct (act_gens _ _ _ H) as [-> ->]. exact E.
  - unfold deactivate in H. destruct (strict_superset _ _); [discriminate|]. revert d H E.
    induction l as [|x l IH]; intros d H E; apply siter_ok in H; [now subst|].
    destruct H as (d1 & H1 & H2). unfold deactivate_one in H1. destruct (dget x (active d)) as [[]|]; try discriminate.
    injection H1 as <-. apply (IH _ H2). cbn. now rewrite E.
Qed.
Lemma mid_synced mid : forall d d' cs, Forall (fun o => switch_op o = true) mid -> dhist d mid d' cs ->
  prev_gen d = curr_gen d -> prev_gen d' = curr_gen d'.
Proof.
  induction mid as [|o mid IH]; intros d d' cs F H E; inversion H as [|? ? d1 ? ? ? ? H1 H2]; subst; auto.
  inversion F; subst. eapply IH; eauto using switch_synced.
Qed.
Lemma Forall2_left {A B} (P Q : A -> B -> Prop) l m : (forall a b, In a l -> P a b -> Q a b) -> Forall2 P l m -> Forall2 Q l m.
Proof. intros H F. induction F; constructor; [apply H; [now left|assumption]|]. apply IHF. intros a b Ha. apply H. now right. Qed.
Lemma apart_lemma d1 gap m mid d2 out g reset req d3 c outcome o v1 v2 :
  wf_det d1 -> is_build m = true -> Forall (fun o => switch_op o = true) mid ->
  dhist d1 (gap ++ m :: mid) d2 out ->
  build_from_anc g reset req d2 = (d3, Ok c) -> reads g outcome o ->
  (forall a, In a (labels d1) -> v1 a = gap_map gap v2 a) ->
  exists ls, Permutation ls (labels d1) /\
    Forall2 (fun a i => det_of d1 a (zq (total d2)) i /\
      ((forall v, gap_map gap v a = v a) ->
       forall n, dget a (num_rounds d3) = Some n -> 1 <= n -> noiseless reset n [a] o v1 v2 ->
       (n < (if reset then 2 else 3) -> v2 a = false) -> parity outcome i = false)) ls c.
Proof.
  intros Hw Hm Hmid Hh Hb Hr Hv. destruct (dhist_app _ _ _ _ _ Hh) as (da & o1 & o2 & Ha & Hh2).
  inversion Hh2 as [|? ? db ? ? ? ? H1 H2]; subst.
  destruct (dhist_wf _ _ _ _ Hh Hw) as [Hw2 S].
  pose proof (mid_synced _ _ _ _ Hmid H2 (build_synced _ _ _ _ Hm H1)) as Hs.
  destruct (anc_content d2 g reset req d3 c Hw2 Hs Hb) as [(nr & En & Ed) (ls & Hp & F)].
  assert (L : labels d2 = labels d1) by apply S. rewrite L in Hp. exists ls. split; [exact Hp|].
  eapply Forall2_left; [|exact F]. cbv beta. intros a i Hin (D & _ & Q & P).
  assert (Ial : In a (labels d1)) by (eapply Permutation_in; eauto).
  split.
  { destruct D as (xs & D1 & D2). exists xs. split; [|exact D2]. destruct S as (_ & _ & S). rewrite <- D1. symmetry. now rewrite S. }
  intros Hid n Hn Hn1 Hno Hz. destruct Q as [[Q1 Q2]|Q]; [|unfold parity; now rewrite Q].
  assert (Hrn : exists m0, dget a (num_rounds d2) = Some m0 /\ n = m0 + 1).
  { destruct (DetCountP.next_rounds_get d2 nr a Hw2 ltac:(now rewrite L) En) as (b & m0 & A1 & A2 & A3).
    exists m0. split; [exact A2|]. unfold act in A1. rewrite Q2 in A1. injection A1 as <-. subst d3. cbn in Hn. congruence. }
  destruct Hrn as (m0 & Em & ->). rewrite (P Q1 Q2 m0 outcome o Em Hr).
  assert (V : v1 a = v2 a) by (rewrite Hv, Hid by auto; reflexivity).
  specialize (Hno a (or_introl eq_refl)). unfold round_form. destruct reset; destruct Hno as [N1 N2].
  - rewrite N1, V. destruct (Z.leb_spec 2 (m0 + 1)); [rewrite N2 by lia; now destruct (v2 a)|]. rewrite Hz by lia. reflexivity.
  - rewrite N1, V. destruct (Z.leb_spec 2 (m0 + 1)); [rewrite N2 by lia|].
    + destruct (Z.leb_spec 3 (m0 + 1)); [now destruct (v2 a), (o a (-3))|]. rewrite Hz by lia. reflexivity.
    + destruct (Z.leb_spec 3 (m0 + 1)); [lia|]. rewrite Hz by lia. reflexivity.
Qed.
