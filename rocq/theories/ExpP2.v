(** Why the detectors and the observable of a memory experiment are deterministic: the
    argument on the gates of the labels. *)
From Coq Require Import QArith Qcanon.
From Verif Require Import Base Lib StimM SetupM NoiseM LayoutM SpecGen GeomP BlockM SpecTrack SpecExp TrackP ActP ExpP.
Open Scope Z_scope.

Lemma mlab_nil {Q} (l : list (gate Q)) : num_meas l = 0%nat -> mlab l = [].
Proof. intros E. rewrite <- mlab_len in E. destruct (mlab l); [reflexivity|discriminate]. Qed.

Section Code.
  Context (st : stabilizers) (ancs data hset : list string).
  Hypothesis Na : NoDup ancs.
  Hypothesis Nd : NoDup data.
  Hypothesis Hda : forall q, In q data -> ~ In q ancs.
  Hypothesis Hst : forall a q, In a ancs -> In q (fst (st a)) \/ In q (snd (st a)) -> In q data.
  Hypothesis Hh : incl hset data.
  Hypothesis Hcom : forall a b, In a ancs -> In b ancs -> anti st (on (fst (st a))) (on (snd (st a))) b = false.
  Lemma Hd : forall a q, In a ancs -> In q (fst (st a)) \/ In q (snd (st a)) -> ~ In q ancs.
  Proof. intros a q Ha Hq. apply Hda. eapply Hst; eauto. Qed.

  Lemma anti_zero b : anti st (fun _ => false) (fun _ => false) b = false.
  Proof. unfold anti. rewrite !xorl_false; [reflexivity| |]; intros x Hx; apply in_map_iff in Hx as (? & <- & _); reflexivity. Qed.

  (** * The rounds *)
  Context (g : nat -> list (gate string)) (rf : nat -> bool).
  Hypothesis Hg : forall r, acts st ancs (g r).
  Fixpoint Rn (n : nat) : list (gate string) :=
    match n with O => [] | S n => Rn n ++ round_g ancs (g n) (rf n) end.
  Lemma mlab_round r b : mlab (round_g ancs (g r) b) = ancs.
  Proof.
    unfold round_g. rewrite !mlab_app, !mlab_map. rewrite (mlab_nil (g r)) by apply Hg. destruct b; [rewrite mlab_map|]; reflexivity.
  Qed.
  Lemma num_round r b : num_meas (round_g ancs (g r) b) = length ancs.
  Proof. now rewrite <- mlab_len, mlab_round. Qed.
  Lemma count_ancs q : count q ancs = if mem q ancs then 1%nat else 0%nat.
  Proof. now apply count_nodup. Qed.

  (* the generator of [a], if [s], times Z on the ancilla, if [z] *)
  Definition P (a : string) (s z : bool) : pauli string :=
    Pauli (fun q => s && on (fst (st a)) q) (fun q => xorb (s && on (snd (st a)) q) (z && eqb a q)).
  Lemma P_anc a s z b : In a ancs -> In b ancs -> px (P a s z) b = false /\ pz (P a s z) b = z && eqb a b.
  Proof.
    intros Ha Hb. cbn [P px pz]. unfold on. rewrite !mem_not, !andb_false_r by (intros Hi; apply (Hd a b); auto). now rewrite xorb_false_l.
  Qed.
  Lemma P_anti a s z b : In a ancs -> In b ancs -> anti st (px (P a s z)) (pz (P a s z)) b = false.
  Proof.
    intros Ha Hb. transitivity (anti st (fun q => s && on (fst (st a)) q) (fun q => s && on (snd (st a)) q) b).
    - apply (anti_ext st ancs Hd); [exact Hb|]. intros q Hq. split; [reflexivity|]. cbn [P pz].
      rewrite (proj2 (eqb_neq a q)) by (intros ->; contradiction). now rewrite andb_false_r, xorb_false_r.
    - destruct s; [now apply Hcom|apply anti_zero].
  Qed.
  Lemma P_id a : peq (P a false false) identity_op.
  Proof. intros q. split; reflexivity. Qed.

  Definition shift (T : string -> nat -> bool) : string -> nat -> bool := fun q j => T q (j + count q ancs)%nat.
  (* one round *)
  Lemma step_P Pre ML r b a s z T R : In a ancs -> (forall q, In q ancs -> q <> a -> T q 1%nat = false) ->
    mlab Pre = ML ->
    (let e := xorb z (T a 1%nat) in bk Pre (selT ML (shift T)) (P a (xorb s e) (e && negb b)) R) ->
    bk (Pre ++ round_g ancs (g r) b) (selT (ML ++ ancs) T) (P a s z) R.
  Proof.
    intros Ha HT EM HP. set (e := xorb z (T a 1%nat)) in *. cbv zeta in HP.
    eapply bk_app.
    - apply (round_bk st ancs Na Hd (g r) b (Hg r)).
      + intros c Hc. now apply P_anc.
      + intros _ c Hc. now apply P_anti.
    - eapply bk_ext.
      2:{ intros k Hk. cbv beta. rewrite num_round. symmetry. apply selT_shift. apply Hk. }
      eapply bk_eq; [exact HP| |apply peq_refl].
      assert (U : forall q, In q ancs -> usel ancs (P a s z) (selT (ML ++ ancs) T) q = e && eqb a q).
      { intros q Hq. unfold usel. rewrite (proj2 (P_anc a s z q Ha Hq)), msel_selT by assumption. unfold e.
        destruct (eqb_spec a q) as [<-|Ne]; [now rewrite !andb_true_r|]. rewrite HT, !andb_false_r by congruence. reflexivity. }
      assert (S1 : forall f q, xorl (map (fun c => usel ancs (P a s z) (selT (ML ++ ancs) T) c && on (f c) q) ancs) = e && on (f a) q).
      { intros f q. rewrite (xor_unique _ _ a Na Ha).
        - rewrite U by exact Ha. now rewrite eqb_refl, andb_true_r.
        - intros c Hc Ne. rewrite U by exact Hc. now rewrite (proj2 (eqb_neq a c)), andb_false_r by congruence. }
      intros q. unfold round_res. cbn [px pz]. unfold sumx, sumz. rewrite !S1.
      destruct (mem q ancs) eqn:M.
      + pose proof M as Hq. apply mem_In in Hq. rewrite (proj1 (P_anc a _ _ q Ha Hq)), (proj2 (P_anc a (xorb s e) (e && negb b) q Ha Hq)).
        rewrite U, P_anti by assumption. unfold on. rewrite mem_not by (intros Hi; apply (Hd a q); auto). rewrite andb_false_r, xorb_false_r.
        destruct b; cbn [andb negb]; split; auto; now rewrite ?andb_false_r, ?andb_true_r.
      + rewrite andb_false_r. assert (Hq : ~ In q ancs) by (intros Hi; apply mem_In in Hi; congruence).
        rewrite usel_data by exact Hq. cbn [P px pz]. rewrite (proj2 (eqb_neq a q)) by (intros ->; contradiction).
        rewrite !andb_false_r, !xorb_false_r. split; destruct s, e; cbn; try reflexivity; now destruct (on _ q).
  Qed.
  (* an operator on the data qubits *)
  Lemma step_keep Pre ML r b X Z T R : (forall q, In q ancs -> X q = false /\ Z q = false /\ T q 1%nat = false) ->
    (forall a, In a ancs -> anti st X Z a = false) -> mlab Pre = ML ->
    bk Pre (selT ML (shift T)) (Pauli X Z) R ->
    bk (Pre ++ round_g ancs (g r) b) (selT (ML ++ ancs) T) (Pauli X Z) R.
  Proof.
    intros H0 C EM HP. eapply bk_app.
    - apply (round_bk st ancs Na Hd (g r) b (Hg r)).
      + intros c Hc. now apply H0.
      + intros _ c Hc. now apply C.
    - eapply bk_ext.
      2:{ intros k Hk. cbv beta. rewrite num_round. symmetry. apply selT_shift. apply Hk. }
      eapply bk_eq; [exact HP| |apply peq_refl].
      assert (U : forall q, In q ancs -> usel ancs (Pauli X Z) (selT (ML ++ ancs) T) q = false).
      { intros q Hq. unfold usel. cbn [pz]. rewrite msel_selT by assumption. now destruct (H0 q Hq) as (_ & -> & ->). }
      assert (S1 : forall f q, xorl (map (fun c => usel ancs (Pauli X Z) (selT (ML ++ ancs) T) c && on (f c) q) ancs) = false).
      { intros f q. apply xorl_false. intros x Hx. apply in_map_iff in Hx as (c & <- & Hc). now rewrite U. }
      intros q. unfold round_res. cbn [px pz]. unfold sumx, sumz. rewrite !S1, !xorb_false_r.
      destruct (mem q ancs) eqn:M.
      + apply mem_In in M. rewrite U, C by exact M. destruct (H0 q M) as (-> & -> & _). destruct b; auto.
      + rewrite andb_false_r. assert (Hq : ~ In q ancs) by (intros Hi; apply mem_In in Hi; congruence). now rewrite usel_data by exact Hq.
  Qed.

  (** * Initialization *)
  Context (Ig : list (gate string)).
  Definition hs : string -> bool := fun q => mem q hset.
  Definition Iok (p : pauli string) : Prop :=
    (forall q, px (had hs p) q = false) /\ (forall q, ~ In q data -> ~ In q ancs -> px p q = false /\ pz p q = false).
  Hypothesis HI : forall sel p, Iok p -> bk Ig sel p identity_op.
  Hypothesis HIm : mlab Ig = [].

  (* the ancillas whose generators are fixed by the initialization, with what is
     reconstructed from the data qubits *)
  Context (bt : string -> Prop) (sup : string -> list string).
  Hypothesis Hbt : forall a, bt a -> In a ancs /\ NoDup (sup a) /\ incl (sup a) data /\
    forall q, on (fst (st a)) q = hs q && mem q (sup a) /\ on (snd (st a)) q = negb (hs q) && mem q (sup a).
  Lemma hs_anc a : In a ancs -> hs a = false.
  Proof. intros Ha. unfold hs. apply mem_not. intros Hi. apply (Hda a); auto. Qed.
  Lemma Iok_id : Iok identity_op.
  Proof. split; intros q; cbn; [now destruct (hs q)|auto]. Qed.
  Lemma Iok_P a s z : In a ancs -> (s = true -> bt a) -> Iok (P a s z).
  Proof.
    intros Ha Hs. split.
    - intros q. unfold had. cbn [P px pz]. destruct (hs q) eqn:E.
      + assert (Ne : eqb a q = false) by (apply eqb_neq; intros ->; rewrite (hs_anc q Ha) in E; discriminate). rewrite Ne, andb_false_r, xorb_false_r.
        destruct s; [|reflexivity]. destruct (Hbt a (Hs eq_refl)) as (_ & _ & _ & B). rewrite (proj2 (B q)), E. reflexivity.
      + destruct s; [|reflexivity]. destruct (Hbt a (Hs eq_refl)) as (_ & _ & _ & B). rewrite (proj1 (B q)), E. reflexivity.
    - intros q H1 H2. cbn [P px pz]. unfold on. rewrite !mem_not, !andb_false_r by (intros Hi; apply H1; eapply Hst; eauto).
      rewrite (proj2 (eqb_neq a q)) by (intros ->; contradiction). now rewrite andb_false_r.
  Qed.

  (** * Runs of rounds *)
  Fixpoint back_st (n : nat) (f : nat -> bool) (s z : bool) : bool * bool :=
    match n with
    | O => (s, z)
    | S n => let e := xorb z (f 1%nat) in back_st n (fun j => f (S j)) (xorb s e) (e && negb (rf n))
    end.
  Lemma back_st_zero n : forall f, (forall j, (1 <= j)%nat -> f j = false) -> back_st n f false false = (false, false).
  Proof.
    induction n as [|n IH]; intros f F; [reflexivity|]. cbn [back_st]. rewrite F by lia. cbn. apply IH. intros j Hj. apply F. lia.
  Qed.
  Lemma mlab_IRn n : mlab (Ig ++ Rn n) = mlab (Rn n).
  Proof. now rewrite mlab_app, HIm. Qed.
  Lemma mlab_Rn_S n : mlab (Rn (S n)) = mlab (Rn n) ++ ancs.
  Proof. cbn [Rn]. now rewrite mlab_app, mlab_round. Qed.
  (* only outcomes of [a] are selected in the rounds *)
  Lemma rounds_bk n : forall a f T s z, In a ancs -> (forall q j, In q ancs -> (1 <= j)%nat -> T q j = eqb a q && f j) ->
    (fst (back_st n f s z) = true -> bt a) ->
    bk (Ig ++ Rn n) (selT (mlab (Rn n)) T) (P a s z) identity_op.
  Proof.
    induction n as [|n IH]; intros a f T s z Ha HT Hb.
    - cbn [Rn]. rewrite app_nil_r. apply HI, Iok_P; auto.
    - rewrite mlab_Rn_S. cbn [Rn]. rewrite app_assoc. apply step_P; auto.
      + intros q Hq Ne. rewrite HT by (auto; lia). rewrite (proj2 (eqb_neq a q)) by congruence. reflexivity.
      + apply mlab_IRn.
      + cbv zeta. rewrite (HT a 1%nat Ha) by lia. rewrite eqb_refl. cbn [andb]. apply IH with (f := fun j => f (S j)); auto.
        intros q j Hq Hj. unfold shift. rewrite count_ancs, (proj2 (mem_In q ancs) Hq), Nat.add_1_r. apply HT; auto.
  Qed.
  Lemma keep_bk n : forall X Z T, (forall q, In q ancs -> X q = false /\ Z q = false) ->
    (forall q j, In q ancs -> (1 <= j)%nat -> T q j = false) ->
    (forall a, In a ancs -> anti st X Z a = false) -> Iok (Pauli X Z) ->
    bk (Ig ++ Rn n) (selT (mlab (Rn n)) T) (Pauli X Z) identity_op.
  Proof.
    induction n as [|n IH]; intros X Z T H0 HT C K.
    - cbn [Rn]. rewrite app_nil_r. now apply HI.
    - rewrite mlab_Rn_S. cbn [Rn]. rewrite app_assoc. apply step_keep; auto.
      + intros q Hq. destruct (H0 q Hq) as [-> ->]. rewrite HT by (auto; lia). auto.
      + apply mlab_IRn.
      + apply IH; auto. intros q j Hq Hj. unfold shift. apply HT; auto. lia.
  Qed.

  (** * Detectors of a round *)
  Context (reset : bool).
  Hypothesis Hrf : forall r, (1 <= r)%nat -> rf r = reset.
  Hypothesis Hrf0 : reset = false -> rf 0%nat = false.
  Lemma rf_false r : reset = false -> rf r = false.
  Proof. intros E. destruct r; [auto|]. rewrite <- E. apply Hrf. lia. Qed.
  Definition jback : nat := if reset then 2%nat else 3%nat.
  Definition Tround (a : string) : string -> nat -> bool := fun q j => eqb a q && (Nat.eqb j 1 || Nat.eqb j jback).
  Lemma round_det n a : In a ancs -> (1 <= n)%nat -> (n = 1%nat -> bt a) ->
    bk (Ig ++ Rn n) (selT (mlab (Rn n)) (Tround a)) identity_op identity_op.
  Proof.
    intros Ha Hn Hb. eapply bk_eq; [|apply (P_id a)|apply peq_refl].
    apply rounds_bk with (f := fun j => Nat.eqb j 1 || Nat.eqb j jback); auto.
    destruct n as [|[|n]]; [lia|auto|]. intros E. exfalso. revert E. pose proof Hrf as HR. pose proof rf_false as RF.  cbn [back_st]. unfold jback.
    destruct reset eqn:Er; cbn [Nat.eqb orb xorb].
    - rewrite (HR (S n)) by lia. cbn [negb andb xorb]. destruct n as [|n]; [discriminate|]. rewrite (HR (S n)) by lia. cbn [negb andb].
      rewrite back_st_zero; [discriminate|]. intros [|j] Hj; [lia|reflexivity].
    - rewrite (RF (S n)) by reflexivity. cbn [negb andb xorb]. rewrite (RF n) by reflexivity. cbn [negb andb].
      destruct n as [|n]; [discriminate|]. cbn [back_st Nat.eqb orb xorb andb]. rewrite back_st_zero; [discriminate|].
      intros [|j] Hj; [lia|reflexivity].
  Qed.

  (** * Final measurement of the data qubits *)
  Context (Dg : list (gate string)).
  Hypothesis HD : forall sel, bk Dg sel identity_op
    (Pauli (fun q => hs q && msel data sel q) (fun q => negb (hs q) && msel data sel q)).
  Hypothesis HDm : mlab Dg = data.
  Lemma count_data q : count q data = if mem q data then 1%nat else 0%nat.
  Proof. now apply count_nodup. Qed.
  Lemma data_step Pre T R : (let f q := mem q data && T q 1%nat in
      bk Pre (selT (mlab Pre) (fun q j => T q (j + count q data)%nat)) (Pauli (fun q => hs q && f q) (fun q => negb (hs q) && f q)) R) ->
    bk (Pre ++ Dg) (selT (mlab (Pre ++ Dg)) T) identity_op R.
  Proof.
    cbv zeta. intros B. rewrite mlab_app, HDm. eapply bk_app; [apply HD|].
    eapply bk_ext.
    2:{ intros k Hk. cbv beta. rewrite <- (mlab_len Dg), HDm. symmetry. apply selT_shift. apply Hk. }
    eapply bk_eq; [exact B| |apply peq_refl]. intros q. cbn [px pz].
    assert (E : msel data (selT (mlab Pre ++ data) T) q = mem q data && T q 1%nat); [|now rewrite E].
    destruct (mem q data) eqn:M; [apply mem_In in M; now apply msel_selT|]. apply msel_out. intros Hi. apply mem_In in Hi. congruence.
  Qed.
  Definition Tdata (a : string) : string -> nat -> bool := fun q j =>
    xorb (mem q (sup a) && Nat.eqb j 1) (eqb a q && (Nat.eqb j 1 || (negb reset && Nat.eqb j 2))).
  Lemma data_det n a : bt a -> bk (Ig ++ Rn n ++ Dg) (selT (mlab (Ig ++ Rn n ++ Dg)) (Tdata a)) identity_op identity_op.
  Proof.
    intros Hb. destruct (Hbt a Hb) as (Ha & Ns & Is & B). rewrite app_assoc. apply data_step. cbv zeta.
    eapply bk_eq; [|intros q; split; [|]|apply peq_refl].
    - rewrite mlab_IRn. apply (rounds_bk n a (fun j => Nat.eqb j 1 || (negb reset && Nat.eqb j 2)) _ true false Ha).
      + intros q j Hq Hj. unfold Tdata. rewrite count_data. rewrite (mem_not q data) by (intros Hi; now apply (Hda q)).
        rewrite (mem_not q (sup a)) by (intros Hi; apply (Hda q); auto). now rewrite Nat.add_0_r, xorb_false_l.
      + intros _. exact Hb.
    - cbn [P px]. rewrite (proj1 (B q)). cbn [andb]. unfold Tdata. f_equal.
      destruct (mem q (sup a)) eqn:M.
      + apply mem_In in M. pose proof (Is q M) as Hq. rewrite (proj2 (mem_In q data) Hq). cbn.
        rewrite (proj2 (eqb_neq a q)) by (intros ->; now apply (Hda q)). reflexivity.
      + cbn. destruct (mem q data) eqn:M'; [|reflexivity]. apply mem_In in M'.
        rewrite (proj2 (eqb_neq a q)) by (intros ->; now apply (Hda q)). reflexivity.
    - cbn [P pz]. rewrite (proj2 (B q)). cbn [andb]. rewrite xorb_false_r. unfold Tdata. f_equal.
      destruct (mem q (sup a)) eqn:M.
      + apply mem_In in M. pose proof (Is q M) as Hq. rewrite (proj2 (mem_In q data) Hq). cbn.
        rewrite (proj2 (eqb_neq a q)) by (intros ->; now apply (Hda q)). reflexivity.
      + cbn. destruct (mem q data) eqn:M'; [|reflexivity]. apply mem_In in M'.
        rewrite (proj2 (eqb_neq a q)) by (intros ->; now apply (Hda q)). reflexivity.
  Qed.
  (** * Observable *)
  Context (lq : list string).
  Hypothesis Hlq : incl lq data.
  Hypothesis Clq : forall a, In a ancs -> anti st (fun q => hs q && mem q lq) (fun q => negb (hs q) && mem q lq) a = false.
  Definition Tobs : string -> nat -> bool := fun q j => mem q lq && Nat.eqb j 1.
  Lemma obs_det n : bk (Ig ++ Rn n ++ Dg) (selT (mlab (Ig ++ Rn n ++ Dg)) Tobs) identity_op identity_op.
  Proof.
    rewrite app_assoc. apply data_step. cbv zeta.
    assert (E : forall q, mem q data && Tobs q 1 = mem q lq).
    { intros q. unfold Tobs. rewrite Nat.eqb_refl, andb_true_r. destruct (mem q lq) eqn:M; [|apply andb_false_r].
      apply mem_In in M. rewrite (proj2 (mem_In q data)); auto. }
    eapply (bk_eq _ _ (Pauli (fun q => hs q && mem q lq) (fun q => negb (hs q) && mem q lq)));
      [|intros q; cbn [px pz]; rewrite E; split; reflexivity|apply peq_refl].
    rewrite mlab_IRn. apply keep_bk; auto.
    - intros q Hq. rewrite (mem_not q lq) by (intros Hi; apply (Hda q); auto). now rewrite !andb_false_r.
    - intros q j Hq Hj. unfold Tobs. rewrite (mem_not q lq); [reflexivity|]. intros Hi; apply (Hda q); auto.
    - split.
      + intros q. unfold had. cbn [px pz]. destruct (hs q); reflexivity.
      + intros q H1 H2. cbn [px pz]. rewrite (mem_not q lq) by auto. now rewrite !andb_false_r.
  Qed.
End Code.
