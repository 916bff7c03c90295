(** With gates between two patches the change of basis never has even entries. *)
From Coq Require Import QArith Qcanon.
From Verif Require Import Base Lib StimM MatM MatP DetM SpecDet DetP DetCountP DetLinP DetDetP DetHistP.
Open Scope Z_scope.

Definition paired (ls : list string) (p : string -> string) (g : gen) : Prop :=
  forall a j x, nth_error ls j = Some x -> gen_entry g a j = true -> x = a \/ x = p a.

Lemma xorl_two (a b : nat) (f : nat -> bool) l : NoDup l -> In a l -> In b l -> a <> b ->
  (forall j, In j l -> j <> a -> j <> b -> f j = false) -> xorl (map f l) = xorb (f a) (f b).
Proof.
  intros Hn Ha Hb Hab Hz.
  rewrite (xorl_ext _ (fun j => xorb (eqb j a && f j) (eqb j b && f j))).
  - rewrite xorl_map_xor, (xorl_single a f), (xorl_single b f); auto.
  - intros j Hj. destruct (eqb_spec j a) as [Ea|Na], (eqb_spec j b) as [Eb|Nb]; simpl; try congruence.
    + now destruct (f j).
    + now destruct (f j).
    + now apply Hz.
Qed.

Section Pair.
  Variables (ls : list string) (p : string -> string) (b : gen).
  Hypotheses (Hn : NoDup ls) (Hp : pairing ls p) (Pb : paired ls p b) (Ib : invertible ls b).
  Definition at_ (g : gen) (a x : string) : bool := match index x ls with Some j => gen_entry g a j | None => false end.
  Lemma at_nth g a x j : nth_error ls j = Some x -> at_ g a x = gen_entry g a j.
  Proof. intros H. unfold at_. now rewrite (index_nth_error ls x j Hn H). Qed.
  Lemma kill w : (exists j, (j < length ls)%nat /\ w j = true) ->
    ~ (forall a, In a ls -> xorl (map (fun j => gen_entry b a j && w j) (seq 0 (length ls))) = false).
  Proof. intros (j & Hj & Hw) H. rewrite (Ib w H j Hj) in Hw. discriminate. Qed.
  Lemma off_pair g a x j : paired ls p g -> nth_error ls j = Some x -> x <> a -> x <> p a -> gen_entry g a j = false.
  Proof. intros Pg Hj N1 N2. destruct (gen_entry g a j) eqn:E; auto. destruct (Pg a j x Hj E); congruence. Qed.
  Lemma single a : In a ls -> p a = a -> at_ b a a = true.
  Proof.
    intros Ha Hpa. destruct (In_nth_error _ _ Ha) as [j Hj]. assert (Lj : (j < length ls)%nat) by (apply nth_error_Some; congruence).
    destruct (at_ b a a) eqn:E; auto. exfalso. apply (kill (fun i => Nat.eqb i j)).
    { exists j. split; auto. apply Nat.eqb_refl. }
    intros x Hx. apply xorl_false. intros i Hi. apply in_seq in Hi. destruct (Nat.eqb_spec i j) as [->|]; [|apply andb_false_r].
    rewrite andb_true_r. destruct (eqb_spec x a) as [->|N]; [now rewrite <- (at_nth b a a j Hj)|].
    apply (off_pair b x a j Pb Hj); auto. intros ->. apply N. destruct (Hp x Hx) as [_ Hpp]. congruence.
  Qed.
  Lemma double a : In a ls -> p a <> a ->
    xorb (at_ b a a && at_ b (p a) (p a)) (at_ b a (p a) && at_ b (p a) a) = true.
  Proof.
    intros Ha Hpa. destruct (Hp a Ha) as [Hp1 Hp2].
    destruct (In_nth_error _ _ Ha) as [j Hj]. destruct (In_nth_error _ _ Hp1) as [k Hk].
    assert (Lj : (j < length ls)%nat) by (apply nth_error_Some; congruence).
    assert (Lk : (k < length ls)%nat) by (apply nth_error_Some; congruence).
    assert (Njk : j <> k) by (intros ->; congruence).
    rewrite (at_nth b a a j Hj), (at_nth b (p a) (p a) k Hk), (at_nth b a (p a) k Hk), (at_nth b (p a) a j Hj).
    destruct (xorb _ _) eqn:E; auto. exfalso.
    assert (T : forall w1 w2, w1 || w2 = true ->
      xorb (gen_entry b a j && w1) (gen_entry b a k && w2) = false ->
      xorb (gen_entry b (p a) j && w1) (gen_entry b (p a) k && w2) = false -> False).
    { intros w1 w2 Hw Z1 Z2.
      apply (kill (fun i => (Nat.eqb i j && w1) || (Nat.eqb i k && w2))).
      { destruct w1; [exists j|exists k]; rewrite Nat.eqb_refl, ?orb_true_r; simpl; auto.
        simpl in Hw. subst w2. split; auto. apply orb_true_r. }
      intros x Hx.
      rewrite (xorl_two j k); auto using seq_NoDup; try (apply in_seq; lia).
      - rewrite !Nat.eqb_refl. replace (Nat.eqb j k) with false by (symmetry; now apply Nat.eqb_neq).
        replace (Nat.eqb k j) with false by (symmetry; now apply Nat.eqb_neq, not_eq_sym). simpl. rewrite orb_false_r.
        destruct (eqb_spec x a) as [->|N1]; [exact Z1|]. destruct (eqb_spec x (p a)) as [->|N2]; [exact Z2|].
        destruct (Hp x Hx) as [_ Hpp].
        rewrite (off_pair b x a j Pb Hj), (off_pair b x (p a) k Pb Hk); auto; congruence.
      - intros i _ Ni Ni'. apply Nat.eqb_neq in Ni, Ni'. rewrite Ni, Ni'. apply andb_false_r. }
    destruct (gen_entry b a j) eqn:E1, (gen_entry b a k) eqn:E2, (gen_entry b (p a) j) eqn:E3, (gen_entry b (p a) k) eqn:E4; simpl in E; try discriminate;
      first [apply (T true false); reflexivity | apply (T false true); reflexivity | apply (T true true); reflexivity].
  Qed.

  Variable g : gen.
  Hypothesis (Pg : paired ls p g).
  Let z (x : bool) : Z := if x then 1 else 0.
  Definition zN (a k : string) : Z :=
    let a' := p a in
    if eqb a' a then (if eqb k a then z (at_ g a a) else 0)
    else
      let det := z (at_ b a a) * z (at_ b a' a') - z (at_ b a a') * z (at_ b a' a) in
      if eqb k a then det * (z (at_ g a a) * z (at_ b a' a') - z (at_ g a a') * z (at_ b a' a))
      else if eqb k a' then det * (z (at_ g a a') * z (at_ b a a) - z (at_ g a a) * z (at_ b a a'))
      else 0.
  Lemma Z2Qc_bool x : q_of_bool x = Z2Qc (z x).
  Proof. destruct x; reflexivity. Qed.
  Lemma qsum_Z (f : string -> Z) l : qsum (map (fun k => Z2Qc (f k)) l) = Z2Qc (fold_right Z.add 0 (map f l)).
  Proof. induction l as [|x l IH]; simpl; [reflexivity|]. now rewrite IH, Z2Qc_add. Qed.
  Lemma zsum_zero {A} (f : A -> Z) l : (forall k, In k l -> f k = 0) -> fold_right Z.add 0 (map f l) = 0.
  Proof. induction l as [|x l IH]; simpl; intros H; auto. rewrite H, IH by auto. reflexivity. Qed.
  Lemma zsum_single (f : string -> Z) l x : NoDup l -> In x l -> (forall k, In k l -> k <> x -> f k = 0) -> fold_right Z.add 0 (map f l) = f x.
  Proof.
    induction l as [|y l IH]; simpl; [tauto|]. intros N Hi H. inversion N as [|? ? N1 N2]; subst. destruct Hi as [->|Hi].
    - rewrite zsum_zero; [lia|]. intros k Hk. apply H; auto. intros ->. auto.
    - rewrite IH; auto. rewrite H; auto. congruence.
  Qed.
  Lemma zsum_two (f : string -> Z) l x y : NoDup l -> In x l -> In y l -> x <> y -> (forall k, In k l -> k <> x -> k <> y -> f k = 0) ->
    fold_right Z.add 0 (map f l) = f x + f y.
  Proof.
    induction l as [|u l IH]; simpl; [tauto|]. intros N Hx Hy Nxy H. inversion N as [|? ? N1 N2]; subst.
    destruct Hx as [->|Hx], Hy as [->|Hy]; try congruence.
    - rewrite (zsum_single f l y); auto. intros k Hk Nk. apply H; auto. intros ->. auto.
    - rewrite (zsum_single f l x); auto; [lia|]. intros k Hk Nk. apply H; auto. intros ->. auto.
    - rewrite IH; auto. rewrite (H u); auto; congruence.
  Qed.
  Lemma paired_change : change_of_basis ls b g (fun a k => Z2Qc (zN a k)) /\ no_even ls (fun a k => Z2Qc (zN a k)).
  Proof.
    split.
    - intros a j Ha Hj. destruct (nth_error ls j) as [x|] eqn:Ex; [|apply nth_error_None in Ex; lia].
      rewrite (qsum_ext _ (fun k => Z2Qc (zN a k * z (gen_entry b k j)))).
      2: { intros k _. rewrite Z2Qc_mul, Z2Qc_bool. reflexivity. }
      rewrite qsum_Z, Z2Qc_bool. f_equal. destruct (Hp a Ha) as [Hp1 Hp2].
      assert (Ix : In x ls) by (eapply nth_error_In; eauto).
      assert (Hat : forall (gg : gen) u, at_ gg u x = gen_entry gg u j) by (intros; now apply at_nth).
      unfold zN. destruct (eqb_spec (p a) a) as [Ea|Na].
      + rewrite (zsum_single _ ls a); auto.
        2:{ intros k _ Nk. destruct (eqb_spec k a); [congruence|reflexivity]. }
        rewrite eqb_refl. destruct (eqb_spec x a) as [->|Nx].
        * rewrite <- !Hat, (single a) by auto. unfold z. lia.
        * rewrite (off_pair b a x j), (off_pair g a x j); auto; try congruence. unfold z. lia.
      + rewrite (zsum_two _ ls a (p a)); auto.
        2:{ intros k _ N1 N2. destruct (eqb_spec k a); [congruence|]. destruct (eqb_spec k (p a)); [congruence|reflexivity]. }
        rewrite !eqb_refl. replace (eqb (p a) a) with false by (symmetry; now apply eqb_neq).
        pose proof (double a Ha Na) as D.
        destruct (eqb_spec x a) as [->|Nx]; [|destruct (eqb_spec x (p a)) as [->|Nx']].
        * rewrite <- !Hat. clear Hat.
          destruct (at_ b a a), (at_ b (p a) (p a)), (at_ b a (p a)), (at_ b (p a) a); simpl in D; try discriminate;
            destruct (at_ g a a), (at_ g a (p a)); reflexivity.
        * rewrite <- !Hat. clear Hat.
          destruct (at_ b a a), (at_ b (p a) (p a)), (at_ b a (p a)), (at_ b (p a) a); simpl in D; try discriminate;
            destruct (at_ g a a), (at_ g a (p a)); reflexivity.
        * rewrite (off_pair b a x j), (off_pair g a x j), (off_pair b (p a) x j); auto; try congruence. unfold z. lia.
    - intros a k Ha Hk.
      assert (T : forall y : Z, y = 0 \/ y = 1 \/ y = -1 -> Z2Qc y = Q2Qc 0 \/ Z.odd (Qnum (this (Z2Qc y))) = true).
      { intros y [->|[-> | ->]]; [left; reflexivity|right; reflexivity|right; reflexivity]. }
      apply T. unfold zN, z. destruct (eqb_spec (p a) a) as [Ea|Na].
      + destruct (eqb k a); auto. destruct (at_ g a a); auto.
      + pose proof (double a Ha Na) as D. destruct (eqb k a); [|destruct (eqb k (p a)); auto];
        destruct (at_ b a a), (at_ b (p a) (p a)), (at_ b a (p a)), (at_ b (p a) a); simpl in D; try discriminate;
            destruct (at_ g a a), (at_ g a (p a)); auto.
  Qed.
End Pair.

(** * Histories of paired gates *)
Definition both_paired (p : string -> string) (d : detectors) : Prop :=
  paired (labels d) p (prev_gen d) /\ paired (labels d) p (curr_gen d).
Lemma identity_paired ls p : NoDup ls -> paired ls p (identity ls).
Proof.
  intros Hn a j x Hj E. unfold gen_entry in E. destruct (dget a (identity ls)) as [r|] eqn:Er; [|discriminate].
  assert (Ha : In a ls) by (rewrite <- (identity_keys ls); eapply dget_Some_key; eauto).
  destruct (In_nth_error _ _ Ha) as [i Hi]. rewrite (dget_identity ls a i Hn Hi) in Er. injection Er as <-.
  assert (Lj : (j < length ls)%nat) by (apply nth_error_Some; congruence).
  rewrite unitv_nth in E by auto. destruct (Nat.eqb_spec j i) as [->|]; [left; congruence|discriminate].
Qed.
Lemma xorl_true {A} (f : A -> bool) l : xorl (map f l) = true -> exists x, In x l /\ f x = true.
Proof.
  induction l as [|x l IH]; simpl; [discriminate|]. destruct (f x) eqn:E; eauto.
  intros H. assert (H' : xorl (map f l) = true) by (destruct (xorl (map f l)); auto). destruct (IH H') as (y & Hy & Ey). eauto.
Qed.
Lemma call_paired p o d d' r : wf_det d -> pairing (labels d) p -> pair_gate p o -> call o d = (d', r) ->
  both_paired p d -> both_paired p d'.
Proof.
  intros Hw Hpp Ho H [Pp Pc]. destruct (keeps_call _ _ _ _ H Hw) as [Hw' [S1 _]].
  (* a successful update *)
  assert (UP : forall u d1 x, update u d = (d1, x) -> (forall a x, In a (labels d) -> entry u a x = true -> x = a \/ x = p a) -> both_paired p d1).
  { intros u d1 x E Hu. destruct x as [[]|e].
    - destruct (update_entry u d d1 Hw E) as (E1 & _ & _ & _ & E2). destruct (keeps_update _ _ _ _ E Hw) as [Hw1 [S _]].
      unfold both_paired. rewrite S, E1. split; auto. intros a j y Hj Hg.
      destruct (in_dec string_dec a (labels d)) as [Ha|Na].
      + rewrite E2 in Hg by auto. apply xorl_true in Hg as (b & _ & Hb). apply andb_true_iff in Hb as [B1 B2].
        destruct (Hu a b Ha B1) as [-> | ->].
        * exact (Pc _ _ _ Hj B2).
        * destruct (Pc _ _ _ Hj B2) as [->|E3]; auto. destruct (Hpp a Ha) as [_ E4]. left. congruence.
      + exfalso. apply Na. unfold gen_entry in Hg. destruct (dget a (curr_gen d1)) eqn:Ed; [|discriminate].
        rewrite <- S. eapply Permutation_in; [apply (wf_curr _ Hw1)|]. eapply dget_Some_key; eauto.
    - destruct (update_char _ _ _ _ Hw E) as [[-> _]|[E' _]]; [split; assumption|discriminate]. }
  destruct o as [|l|l|u|nd|g rs q|g s rs rc q]; simpl in H, Ho.
  - unfold quiet, sbind, sret in H. injection H as <- <-. split; simpl; apply identity_paired, Hw.
  - unfold quiet, sbind in H. destruct (activate l d) as [d1 [[]|e]] eqn:E; injection H as <- <-; unfold activate in E;
      destruct (strict_superset _ _); try (injection E as <- <-; split; assumption); try discriminate;
      apply siter_act_gens in E as (E1 & E2 & E3); unfold both_paired; rewrite E1, E2, E3; auto.
  - assert (E : exists x, deactivate l d = (d', x)).
    { unfold quiet, sbind in H. destruct (deactivate l d) as [d1 [[]|e]]; injection H as <- <-; eauto. }
    destruct E as [x E]. unfold deactivate in E. destruct (strict_superset _ _); [injection E as <- <-; split; assumption|].
    clear H S1 Hw' UP. revert d d' x Hw Hpp Pp Pc E.
    induction l as [|a l IH]; simpl; intros d d' x Hw Hpp Pp Pc E; [injection E as <- <-; split; assumption|].
    unfold sbind in E. destruct (deactivate_one a d) as [d1 y] eqn:E1.
    destruct (keeps_deactivate_one a _ _ _ E1 Hw) as [Hw1 [S1 _]].
    assert (P1 : both_paired p d1).
    { unfold deactivate_one in E1. destruct (dget a (active d)) as [[]|] eqn:Ea; injection E1 as <- <-; try (split; assumption).
      cbn [labels set_gens set_active] in *.
      assert (Ia : In a (labels d)) by (rewrite <- (wf_active _ Hw); eapply dget_Some_key; eauto).
      destruct (In_nth_error _ _ Ia) as [ia Hia].
      pose proof (index_nth_error _ _ _ (wf_nodup _ Hw) Hia) as Ea'.
      assert (T : forall g : gen, Permutation (dkeys g) (labels d) -> rows_len (length (labels d)) g -> paired (labels d) p g ->
                  paired (labels d) p (clear_anc (labels d) a g)).
      { intros g Hk Hr Pg u j v Hj Hg. assert (Lj : (j < length (labels d))%nat) by (apply nth_error_Some; congruence).
        assert (Iu : In u (labels d)).
        { unfold gen_entry in Hg. destruct (dget u (clear_anc _ _ _)) eqn:Ed; [|discriminate].
          eapply Permutation_in; [exact Hk|]. rewrite <- (clear_anc_keys (labels d) a). eapply dget_Some_key; eauto. }
        rewrite (clear_entry _ a g ia (wf_nodup _ Hw) Hk Hr Ea' Hia u j Iu Lj) in Hg.
        destruct (eqb_spec u a) as [->|N].
        - apply Nat.eqb_eq in Hg. subst j. left. congruence.
        - destruct (Nat.eqb j ia); [discriminate|]. eapply Pg; eauto. }
      split; cbn [labels set_gens set_active prev_gen curr_gen].
      - exact (T _ (wf_prev _ Hw) (wf_prow _ Hw) Pp).
      - exact (T _ (wf_curr _ Hw) (wf_crow _ Hw) Pc). }
    destruct y as [[]|e]; [|injection E as <- <-; exact P1].
    destruct P1 as [P1 P2]. eapply IH; eauto. rewrite S1. exact Hpp.
  - unfold quiet, sbind in H. destruct (update u d) as [d1 x] eqn:E.
    assert (Hd' : d' = d1) by (destruct x as [[]|e]; now injection H as <-). subst d1. eapply UP; eauto.
  - unfold quiet, sbind in H. destruct (update_from_dict nd d) as [d1 x] eqn:E.
    assert (Hd' : d' = d1) by (destruct x as [[]|e]; now injection H as <-). subst d1.
    unfold update_from_dict in E.
    destruct (strict_superset _ _); [injection E as <- <-; split; assumption|].
    destruct (negb _); [injection E as <- <-; split; assumption|].
    apply (UP _ _ _ E). intros a y Ha Hy.
    assert (Hy' : In y (labels d)).
    { unfold entry in Hy. cbn [u_new u_old] in Hy. destruct (index a _); [|discriminate].
      destruct (index y (labels d)) as [m|] eqn:Ey; [|discriminate]. clear - Ey. revert m Ey.
      induction (labels d) as [|z l IH]; simpl; intros n Ey; [discriminate|]. destruct (eqb_spec y z) as [->|]; auto.
      destruct (index y l); [|discriminate]. right. eauto. }
    change (entry (dict_unitary (labels d) nd) a y = true) in Hy. rewrite entry_dict in Hy by (auto; apply Hw).
    destruct (dget a nd) as [l|] eqn:El.
    + apply mem_In in Hy. exact (Ho a l y (dget_In _ _ _ El) Hy).
    + apply eqb_true in Hy. auto.
  - apply build_from_anc_inv in H as [[-> _]|(ancs & nr & _ & _ & H)]; [split; assumption|].
    destruct H as [[-> _]|(dets & c' & _ & _ & -> & _)]; split; assumption.
  - apply build_from_data_inv in H as [[-> _]|(ancs & nr & dets & dets' & c' & _ & _ & _ & _ & _ & _ & -> & _)]; split; assumption.
Qed.
Lemma hist_paired p h : forall d d' cs, dhist d h d' cs -> wf_det d -> pairing (labels d) p -> Forall (pair_gate p) h ->
  both_paired p d -> both_paired p d'.
Proof.
  induction h as [|o h IH]; intros d d' cs H Hw Hp Hg Hb; inversion H as [|? ? d1 ? ? ? ? H1 H2]; subst; auto.
  inversion Hg as [|? ? G1 G2]; subst. destruct (keeps_call _ _ _ _ H1 Hw) as [Hw1 [S1 _]].
  apply (IH d1 d' cs0 H2); auto; [now rewrite S1|]. exact (call_paired p o d d1 _ Hw Hp G1 H1 Hb).
Qed.
Lemma paired_clean p d : wf_det d -> pairing (labels d) p -> both_invertible d -> both_paired p d -> clean d /\ clean_data d.
Proof.
  intros Hw Hp [Ic Ip] [Pp Pc]. split.
  - unfold clean, frame_gens. destruct (dfr d); simpl; eexists; apply (paired_change (labels d) p); auto; apply Hw.
  - unfold clean_data. eexists; apply (paired_change (labels d) p); auto; apply Hw.
Qed.

(** * C05 and C06 for whole histories *)
Lemma gap_no_deact gap : Forall (fun o => gap_op o = true) gap -> none is_deact gap.
Proof.
  unfold none. induction 1 as [|o l Ho _ IH]; simpl; auto. rewrite IH.
  destruct o; simpl in Ho |- *; solve [reflexivity|discriminate].
Qed.
Section Hist.
  Variables (ls : list string) (f : string) (cs : option (dict string (list Qc))) (d0 d1 d2 : detectors)
            (h gap : list dop) (last : dop) (out1 out2 : list circuit).
  Hypotheses (Hi : det_init ls f cs = Ok d0) (H1 : dhist d0 (h ++ [last]) d1 out1) (Hl : is_build last = true)
             (H2 : dhist d1 gap d2 out2) (Hgap : Forall (fun o => gap_op o = true) gap).
  Lemma hist_start : wf_det d1 /\ labels d1 = ls /\ prev_gen d1 = curr_gen d1 /\ dfr d1 = dfr d0.
  Proof.
    destruct (det_init_wf _ _ _ _ Hi) as [Hw El]. destruct (dhist_wf _ _ _ _ H1 Hw) as [Hw1 (S1 & S2 & _)].
    split; auto. split; [congruence|]. split; [|congruence].
    apply dhist_app in H1 as (dm & c1 & c2 & _ & Hm). inversion Hm as [|? ? ? ? ? ? ? Hc Hn]; subst. inversion Hn; subst.
    eapply build_synced; eauto.
  Qed.
  Lemma hist_invertible : none is_deact h -> both_invertible d1 /\ both_invertible d2.
  Proof.
    intros Hn. destruct (det_init_wf _ _ _ _ Hi) as [Hw El].
    assert (N : none is_deact (h ++ [last])).
    { unfold none in *. rewrite existsb_app, Hn. clear - Hl. destruct last; simpl in Hl; solve [reflexivity|discriminate]. }
    assert (B1 := C08_lemma _ _ _ _ _ _ Hi (dhist_reach _ _ _ _ H1) N). split; auto.
    destruct (dhist_wf _ _ _ _ H1 Hw) as [Hw1 _].
    apply (reach_invertible d1 gap d2 (dhist_reach _ _ _ _ H2) Hw1); auto.
    now apply gap_no_deact.
  Qed.
  Lemma C05_pair_lemma p g reset req d3 c outcome o v1 v2 :
    dfr d0 <> GateIndep -> none is_deact h -> pairing ls p -> Forall (pair_gate p) (h ++ last :: gap) ->
    involution ls (gap_map gap) ->
    build_from_anc g reset req d2 = (d3, Ok c) -> reads g outcome o ->
    (forall a, In a ls -> v1 a = gap_map gap v2 a) ->
    Forall2 (fun a i => forall n, dget a (num_rounds d3) = Some n -> noiseless reset n ls o v1 v2 ->
      (2 <= n -> parity outcome i = false) /\
      (n = 1 -> (forall b, In b ls -> v2 b = false) -> parity outcome i = false)) (dkeys (curr_gen d2)) c.
  Proof.
    intros Hf Hn Hp Hg Hv Hb Hr Hrel. destruct hist_start as (Hw1 & El & Hs & Ef). destruct (hist_invertible Hn) as [B1 B2].
    destruct (dhist_wf _ _ _ _ H2 Hw1) as [Hw2 (S1 & S2 & _)].
    assert (Cl : clean d2).
    { destruct (det_init_wf _ _ _ _ Hi) as [Hw El0].
      assert (Hg' : Forall (pair_gate p) (h ++ [last]) /\ Forall (pair_gate p) gap).
      { apply Forall_app in Hg as [G1 G2]. inversion G2; subst. split; auto. apply Forall_app. auto. }
      apply (paired_clean p); auto; [rewrite S1, El; auto|].
      eapply hist_paired; [exact H2|auto|rewrite El; auto|apply Hg'|].
      eapply hist_paired; [exact H1|auto|rewrite El0; auto|apply Hg'|].
      apply det_init_ok in Hi as [Hnd (d' & -> & E)]. split; simpl; rewrite E; apply identity_paired; auto. }
    rewrite <- El in *.
    eapply (C05_lemma d1 d2 gap out2 Hw1 Hs (proj1 B1) Hgap H2 Hv); eauto. congruence.
  Qed.
  Lemma C06_pair_lemma p g sup reset recon req d3 c outcome o v1 v2 :
    dfr d0 <> GateIndep -> none is_deact h -> pairing ls p -> Forall (pair_gate p) (h ++ last :: gap) ->
    involution ls (gap_map gap) ->
    build_from_data g sup reset recon req d2 = (d3, Ok c) -> reads g outcome o ->
    (forall a, In a ls -> v1 a = gap_map gap v2 a) -> reconstructs sup o recon v1 ->
    Forall2 (fun a i => forall n, dget a (num_rounds d2) = Some n -> noiseless_prev reset n ls o v2 -> 0 <= n ->
      (n = 0 -> forall b, In b ls -> v2 b = false) -> parity outcome i = false)
      (filter (fun a => mem a recon) (dkeys (curr_gen d2))) c.
  Proof.
    intros Hf Hn Hp Hg Hv Hb Hr Hrel Hrec. destruct hist_start as (Hw1 & El & Hs & Ef). destruct (hist_invertible Hn) as [B1 B2].
    destruct (dhist_wf _ _ _ _ H2 Hw1) as [Hw2 (S1 & S2 & _)].
    assert (Cl : clean_data d2).
    { destruct (det_init_wf _ _ _ _ Hi) as [Hw El0].
      assert (Hg' : Forall (pair_gate p) (h ++ [last]) /\ Forall (pair_gate p) gap).
      { apply Forall_app in Hg as [G1 G2]. inversion G2; subst. split; auto. apply Forall_app. auto. }
      apply (paired_clean p); auto; [rewrite S1, El; auto|].
      eapply hist_paired; [exact H2|auto|rewrite El; auto|apply Hg'|].
      eapply hist_paired; [exact H1|auto|rewrite El0; auto|apply Hg'|].
      apply det_init_ok in Hi as [Hnd (d' & -> & E)]. split; simpl; rewrite E; apply identity_paired; auto. }
    rewrite <- El in *.
    eapply (C06_lemma d1 d2 gap out2 Hw1 Hs (proj1 B1) Hgap H2 Hv); eauto. congruence.
  Qed.
End Hist.
