(** Why the detectors and the observable of an experiment with transversal gates between the
    rounds are deterministic: the argument on the gates of the labels. *)
From Coq Require Import QArith Qcanon.
From Verif Require Import Base Lib StimM SetupM NoiseM LayoutM SpecGen GeomP BlockM SpecTrack SpecExp TrackP ActP ExpP ExpP2.
Open Scope Z_scope.

Section Sets.
  Context (st : stabilizers) (ancs data : list string).
  Hypothesis Na : NoDup ancs.
  Hypothesis Nd : NoDup data.
  Hypothesis Hda : forall q, In q data -> ~ In q ancs.
  Hypothesis Hst : forall a q, In a ancs -> In q (fst (st a)) \/ In q (snd (st a)) -> In q data.
  Hypothesis Hcom : forall a b, In a ancs -> In b ancs -> anti st (on (fst (st a))) (on (snd (st a))) b = false.
  Let Hdn : forall a q, In a ancs -> In q (fst (st a)) \/ In q (snd (st a)) -> ~ In q ancs.
  Proof. intros a q Ha Hq. apply Hda. eapply Hst; eauto. Qed.
  Lemma sum_ext u v q : (forall a, In a ancs -> u a = v a) -> sumx st ancs u q = sumx st ancs v q /\ sumz st ancs u q = sumz st ancs v q.
  Proof. intros E. unfold sumx, sumz. split; f_equal; apply map_ext_in; intros a Ha; now rewrite E. Qed.
  Lemma sum_xor u v q : sumx st ancs (fun a => xorb (u a) (v a)) q = xorb (sumx st ancs u q) (sumx st ancs v q) /\
    sumz st ancs (fun a => xorb (u a) (v a)) q = xorb (sumz st ancs u q) (sumz st ancs v q).
  Proof.
    unfold sumx, sumz. split; rewrite <- RoundP.xorl_map_xorb; f_equal; apply map_ext_in; intros a Ha;
      destruct (u a), (v a), (on _ q); reflexivity.
  Qed.
  Lemma sum_zero u q : (forall a, In a ancs -> u a = false) -> sumx st ancs u q = false /\ sumz st ancs u q = false.
  Proof. intros E. unfold sumx, sumz. split; apply xorl_false; intros b Hb; apply in_map_iff in Hb as (a & <- & Ha); now rewrite E. Qed.
  Lemma sum_off u q : ~ In q data -> sumx st ancs u q = false /\ sumz st ancs u q = false.
  Proof.
    intros Hq. unfold sumx, sumz. split; apply xorl_false; intros b Hb; apply in_map_iff in Hb as (a & <- & Ha);
      apply andb_false_iff; right; apply mem_not; intros Hi; apply Hq; eapply Hst; eauto.
  Qed.

  (* the generators in [S] times Z on the ancillas in [Z] *)
  Definition PP (S Z : string -> bool) : pauli string :=
    Pauli (sumx st ancs S) (fun q => xorb (sumz st ancs S q) (mem q ancs && Z q)).
  Lemma PP_ext S S' Z Z' : (forall a, In a ancs -> S a = S' a) -> (forall a, In a ancs -> Z a = Z' a) -> peq (PP S Z) (PP S' Z').
  Proof.
    intros E F q. destruct (sum_ext S S' q E) as [E1 E2]. cbn [PP px pz]. split; [exact E1|]. rewrite E2. f_equal.
    destruct (mem q ancs) eqn:M; [|reflexivity]. apply F. now apply mem_In.
  Qed.
  Lemma PP_id S Z : (forall a, In a ancs -> S a = false) -> (forall a, In a ancs -> Z a = false) -> peq (PP S Z) identity_op.
  Proof.
    intros E F q. destruct (sum_zero S q E) as [E1 E2]. cbn [PP px pz identity_op]. split; [exact E1|]. rewrite E2, xorb_false_l.
    destruct (mem q ancs) eqn:M; [|reflexivity]. apply F. now apply mem_In.
  Qed.
  Lemma PP_anc S Z b : In b ancs -> px (PP S Z) b = false /\ pz (PP S Z) b = Z b.
  Proof.
    intros Hb. destruct (sum_out st ancs Hdn S b Hb) as [E1 E2]. cbn [PP px pz]. split; [exact E1|].
    rewrite E2, (proj2 (mem_In b ancs) Hb). now destruct (Z b).
  Qed.
  Lemma anti_sum u b : In b ancs -> anti st (sumx st ancs u) (sumz st ancs u) b = false.
  Proof.
    intros Hb.
    transitivity (xorl (map (fun a => u a && anti st (on (fst (st a))) (on (snd (st a))) b) ancs)).
    - unfold anti, sumx, sumz. rewrite RoundP.xorl_swap. rewrite (RoundP.xorl_swap _ (snd (st b)) ancs).
      rewrite <- RoundP.xorl_map_xorb. f_equal. apply map_ext_in. intros a Ha. rewrite <- !RoundP.xorl_and. now destruct (u a).
    - apply xorl_false. intros x Hx. apply in_map_iff in Hx as (a & <- & Ha). rewrite Hcom by auto. apply andb_false_r.
  Qed.
  Lemma PP_anti S Z b : In b ancs -> anti st (px (PP S Z)) (pz (PP S Z)) b = false.
  Proof.
    intros Hb. rewrite <- (anti_sum S b Hb). apply (anti_ext st ancs Hdn); [exact Hb|]. intros q Hq. cbn [PP px pz]. split; [reflexivity|].
    rewrite (mem_not q ancs Hq). apply xorb_false_r.
  Qed.

  (** * One round *)
  Lemma mlab_round' g b : acts st ancs g -> mlab (round_g ancs g b) = ancs.
  Proof.
    intros Hg. unfold round_g. rewrite !mlab_app, !mlab_map. rewrite (mlab_nil g) by apply Hg. destruct b; [rewrite mlab_map|]; reflexivity.
  Qed.
  Definition sh (T : string -> nat -> bool) : string -> nat -> bool := fun q j => T q (j + count q ancs)%nat.
  Lemma sh_anc T q j : In q ancs -> sh T q j = T q (S j).
  Proof. intros Hq. unfold sh. rewrite (count_nodup q ancs Na), (proj2 (mem_In q ancs) Hq). f_equal. lia. Qed.
  Definition after (p : pauli string) (e : string -> bool) (b : bool) : pauli string :=
    Pauli (fun q => xorb (px p q) (sumx st ancs e q))
          (fun q => if mem q ancs then negb b && e q else xorb (pz p q) (sumz st ancs e q)).
  Lemma step_gen Pre g b p T R : acts st ancs g -> (forall a, In a ancs -> px p a = false) ->
    (forall a, In a ancs -> anti st (px p) (pz p) a = false) ->
    bk Pre (selT (mlab Pre) (sh T)) (after p (fun q => xorb (pz p q) (T q 1%nat)) b) R ->
    bk (Pre ++ round_g ancs g b) (selT (mlab Pre ++ ancs) T) p R.
  Proof.
    intros Hg H0 C HP. eapply bk_app.
    - apply (round_bk st ancs Na Hdn g b Hg); auto.
    - eapply bk_ext.
      2:{ intros k Hk. cbv beta. rewrite <- mlab_len, mlab_round' by exact Hg. symmetry. apply selT_shift. apply Hk. }
      eapply bk_eq; [exact HP| |apply peq_refl].
      assert (U : forall q, In q ancs -> usel ancs p (selT (mlab Pre ++ ancs) T) q = xorb (pz p q) (T q 1%nat)).
      { intros q Hq. unfold usel. now rewrite msel_selT by assumption. }
      intros q. unfold round_res, after. cbn [px pz]. destruct (sum_ext _ _ q U) as [E1 E2]. rewrite E1, E2.
      destruct (mem q ancs) eqn:M.
      + pose proof M as Hq. apply mem_In in Hq. rewrite C, H0 by exact Hq. rewrite (U q Hq).
        destruct (sum_out st ancs Hdn (fun q => xorb (pz p q) (T q 1%nat)) q Hq) as [-> ->]. destruct b; cbn [andb negb]; split; auto. now rewrite xorb_false_r.
      + rewrite andb_false_r. assert (Hq : ~ In q ancs) by (intros Hi; apply mem_In in Hi; congruence). now rewrite usel_data by exact Hq.
  Qed.
  (* generators *)
  Lemma step_PP Pre g b S Z T e R : acts st ancs g -> (forall a, In a ancs -> xorb (Z a) (T a 1%nat) = e a) ->
    bk Pre (selT (mlab Pre) (sh T)) (PP (fun a => xorb (S a) (e a)) (fun a => negb b && e a)) R ->
    bk (Pre ++ round_g ancs g b) (selT (mlab Pre ++ ancs) T) (PP S Z) R.
  Proof.
    intros Hg He HP. apply step_gen; auto.
    - intros a Ha. now apply PP_anc.
    - intros a Ha. now apply PP_anti.
    - eapply bk_eq; [exact HP| |apply peq_refl].
      assert (E : forall a, In a ancs -> e a = xorb (pz (PP S Z) a) (T a 1%nat)).
      { intros a Ha. rewrite (proj2 (PP_anc S Z a Ha)). symmetry. now apply He. }
      intros q. destruct (sum_ext _ _ q E) as [E1 E2]. unfold after. cbn [px pz]. rewrite <- E1, <- E2.
      destruct (sum_xor S e q) as [X1 X2]. destruct (mem q ancs) eqn:M.
      + pose proof M as Hq. apply mem_In in Hq. rewrite <- (E q Hq). cbn [PP px pz]. rewrite X1, X2, M.
        destruct (sum_out st ancs Hdn S q Hq) as [-> ->], (sum_out st ancs Hdn e q Hq) as [-> ->]. cbn [andb xorb].
        split; [reflexivity|]. now destruct (negb b && e q).
      + cbn [PP px pz]. rewrite X1, X2, M. cbn [andb]. rewrite !xorb_false_r. auto.
  Qed.
  (* an operator on the data qubits *)
  Lemma step_data Pre g b p T R : acts st ancs g -> (forall q, In q ancs -> px p q = false /\ pz p q = false /\ T q 1%nat = false) ->
    (forall a, In a ancs -> anti st (px p) (pz p) a = false) ->
    bk Pre (selT (mlab Pre) (sh T)) p R ->
    bk (Pre ++ round_g ancs g b) (selT (mlab Pre ++ ancs) T) p R.
  Proof.
    intros Hg H0 C HP. apply step_gen; auto.
    - intros a Ha. now apply H0.
    - eapply bk_eq; [exact HP| |apply peq_refl].
      intros q. unfold after. cbn [px pz].
      destruct (sum_zero (fun q => xorb (pz p q) (T q 1%nat)) q) as [-> ->].
      { intros a Ha. destruct (H0 a Ha) as (_ & -> & ->). reflexivity. }
      rewrite !xorb_false_r. destruct (mem q ancs) eqn:M; [|auto]. apply mem_In in M. destruct (H0 q M) as (-> & -> & ->).
      now rewrite andb_false_r.
  Qed.

  (** * Gates *)
  Definition rmul (S : string -> bool) (M : string -> string -> bool) (b : string) : bool := xorl (map (fun a => S a && M a b) ancs).
  Lemma rmul_ext S S' M b : (forall a, In a ancs -> S a = S' a) -> rmul S M b = rmul S' M b.
  Proof. intros E. unfold rmul. f_equal. apply map_ext_in. intros a Ha. now rewrite E. Qed.
  Lemma rmul_xor S S' M b : rmul (fun a => xorb (S a) (S' a)) M b = xorb (rmul S M b) (rmul S' M b).
  Proof. unfold rmul. rewrite <- RoundP.xorl_map_xorb. f_equal. apply map_ext. intros a. destruct (S a), (S' a), (M a b); reflexivity. Qed.
  Lemma rmul_zero S M b : (forall a, In a ancs -> S a = false) -> rmul S M b = false.
  Proof. intros E. unfold rmul. apply xorl_false. intros x Hx. apply in_map_iff in Hx as (a & <- & Ha). now rewrite E. Qed.
  Lemma rmul_one a M b : In a ancs -> rmul (eqb a) M b = M a b.
  Proof.
    intros Ha. unfold rmul. rewrite (xor_unique _ _ a Na Ha); [now rewrite eqb_refl|]. intros c _ Ne.
    now rewrite (proj2 (eqb_neq a c)) by congruence.
  Qed.
  (* the gates [G] act on the generators as the matrix [M] *)
  Definition acts_as (G : list (gate string)) (M : string -> string -> bool) : Prop :=
    num_meas G = 0%nat /\ forall S Z sel, bk G sel (PP S Z) (PP (rmul S M) Z).

  (** * Rounds, the last one first *)
  Record rnd := Rnd { r_gap : list (gate string); r_mat : string -> string -> bool; r_g : list (gate string) }.
  Definition rnd_ok (r : rnd) : Prop := acts st ancs (r_g r) /\ acts_as (r_gap r) (r_mat r).
  Context (reset : bool).
  Definition rnd_gates (r : rnd) : list (gate string) := r_gap r ++ round_g ancs (r_g r) reset.
  Fixpoint gates_of (h : list rnd) : list (gate string) :=
    match h with [] => [] | r :: h => gates_of h ++ rnd_gates r end.
  Lemma mlab_rnd r : rnd_ok r -> mlab (rnd_gates r) = ancs.
  Proof. intros [A [B _]]. unfold rnd_gates. now rewrite mlab_app, mlab_round', (mlab_nil _ B). Qed.
  (* back through the gates before the round *)
  Lemma gap_PP Pre r S Z T R : rnd_ok r ->
    bk Pre (selT (mlab Pre) T) (PP (rmul S (r_mat r)) Z) R -> bk (Pre ++ r_gap r) (selT (mlab (Pre ++ r_gap r)) T) (PP S Z) R.
  Proof.
    intros [_ [B A]] HP. rewrite mlab_app, (mlab_nil _ B), app_nil_r. eapply bk_app; [apply A|]. eapply bk_ext; [exact HP|].
    intros k Hk. cbv beta. now rewrite B, Nat.add_0_r.
  Qed.
  (* a round and the gates before it *)
  Lemma back_PP Pre r S Z T e R : rnd_ok r -> (forall a, In a ancs -> xorb (Z a) (T a 1%nat) = e a) ->
    bk Pre (selT (mlab Pre) (sh T)) (PP (rmul (fun a => xorb (S a) (e a)) (r_mat r)) (fun a => negb reset && e a)) R ->
    bk (Pre ++ rnd_gates r) (selT (mlab (Pre ++ rnd_gates r)) T) (PP S Z) R.
  Proof.
    intros O He HP. unfold rnd_gates. rewrite app_assoc, mlab_app, mlab_round' by apply O. eapply step_PP; [apply O|exact He|].
    now apply gap_PP.
  Qed.

  (** * Initialization *)
  Context (hset : list string) (Ig : list (gate string)).
  Hypothesis Hh : incl hset data.
  Hypothesis HI : forall sel p, Iok ancs data hset p -> bk Ig sel p identity_op.
  Hypothesis HIm : mlab Ig = [].
  Context (bt : string -> Prop).
  Hypothesis Hbt : forall a, bt a -> In a ancs /\ forall q, (hs hset q = false -> on (fst (st a)) q = false) /\ (hs hset q = true -> on (snd (st a)) q = false).
  Lemma Iok_PP S Z : (forall a, In a ancs -> S a = true -> bt a) -> Iok ancs data hset (PP S Z).
  Proof.
    intros B. split.
    - intros q. unfold had. cbn [PP px pz]. destruct (hs hset q) eqn:E.
      + assert (Hq : In q data) by (apply Hh, mem_In, E). rewrite (mem_not q ancs) by auto. cbn [andb]. rewrite xorb_false_r.
        unfold sumz. apply xorl_false. intros x Hx. apply in_map_iff in Hx as (a & <- & Ha). destruct (S a) eqn:ES; [|reflexivity].
        cbn [andb]. now apply (proj2 (Hbt a (B a Ha ES))).
      + unfold sumx. apply xorl_false. intros x Hx. apply in_map_iff in Hx as (a & <- & Ha). destruct (S a) eqn:ES; [|reflexivity].
        cbn [andb]. now apply (proj2 (Hbt a (B a Ha ES))).
    - intros q H1 H2. cbn [PP px pz]. destruct (sum_off S q H1) as [-> ->]. now rewrite (mem_not q ancs H2).
  Qed.
  (* nothing left *)
  Lemma back_none h : Forall rnd_ok h -> forall S Z T, (forall a, In a ancs -> S a = false) -> (forall a, In a ancs -> Z a = false) ->
    (forall q j, In q ancs -> (1 <= j)%nat -> T q j = false) ->
    bk (Ig ++ gates_of h) (selT (mlab (Ig ++ gates_of h)) T) (PP S Z) identity_op.
  Proof.
    induction 1 as [|r h O F IH]; intros S Z T ES EZ ET.
    - cbn [gates_of]. rewrite app_nil_r. apply HI, Iok_PP. intros a Ha E. rewrite ES in E by exact Ha. discriminate.
    - cbn [gates_of]. rewrite app_assoc. apply back_PP with (e := fun _ => false); [exact O| |].
      + intros a Ha. rewrite EZ, ET by (auto; lia). reflexivity.
      + apply IH.
        * intros a Ha. apply rmul_zero. intros b Hb. now rewrite ES.
        * intros a Ha. apply andb_false_r.
        * intros q j Hq Hj. rewrite sh_anc by exact Hq. apply ET; auto.
  Qed.
  (* only Z on the ancillas left: cancelled by the outcomes of the previous round *)
  Lemma back_z h : Forall rnd_ok h -> forall S Z T, (forall a, In a ancs -> S a = false) ->
    (forall a, In a ancs -> Z a = T a 1%nat) -> (forall q j, In q ancs -> (2 <= j)%nat -> T q j = false) ->
    bk (Ig ++ gates_of h) (selT (mlab (Ig ++ gates_of h)) T) (PP S Z) identity_op.
  Proof.
    intros F S Z T ES EZ ET. destruct F as [|r h O F].
    - cbn [gates_of]. rewrite app_nil_r. apply HI, Iok_PP. intros a Ha E. rewrite ES in E by exact Ha. discriminate.
    - cbn [gates_of]. rewrite app_assoc. apply back_PP with (e := fun _ => false); [exact O| |].
      + intros a Ha. rewrite EZ by exact Ha. apply xorb_nilpotent.
      + apply back_none; auto.
        * intros a Ha. apply rmul_zero. intros b Hb. now rewrite ES.
        * intros a Ha. apply andb_false_r.
        * intros q j Hq Hj. rewrite sh_anc by exact Hq. apply ET; auto. lia.
  Qed.
  (* the generators in [v] before a round, with Z on the ancillas in [z] *)
  Lemma back_gen h S Z T : Forall rnd_ok h -> (forall q j, In q ancs -> (1 <= j)%nat ->
      T q j = match j with 1%nat => xorb (S q) (Z q) | 2%nat => negb reset && S q | _ => false end) ->
    (h = [] -> forall a, In a ancs -> S a = true -> bt a) ->
    bk (Ig ++ gates_of h) (selT (mlab (Ig ++ gates_of h)) T) (PP S Z) identity_op.
  Proof.
    intros F ET HB. destruct F as [|r h O F].
    - cbn [gates_of]. rewrite app_nil_r. now apply HI, Iok_PP, HB.
    - cbn [gates_of]. rewrite app_assoc. apply back_PP with (e := S); [exact O| |].
      + intros a Ha. rewrite ET by (auto; lia). now destruct (S a), (Z a).
      + apply back_z; auto.
        * intros a Ha. apply rmul_zero. intros b Hb. apply xorb_nilpotent.
        * intros a Ha. rewrite sh_anc, ET by (auto; lia). reflexivity.
        * intros q j Hq Hj. rewrite sh_anc, ET by (auto; lia). destruct j as [|[|j]]; [lia|lia|reflexivity].
  Qed.

  (** * Detectors of a round *)
  (* [u]: generators after the gates before the last round, [v]: the same generators before *)
  Definition Tround2 (u v : string -> bool) : string -> nat -> bool := fun q j => mem q ancs &&
    match j with 1%nat => u q | 2%nat => xorb (v q) (negb reset && u q) | 3%nat => negb reset && v q | _ => false end.
  Lemma round_det2 r h u v : rnd_ok r -> Forall rnd_ok h -> (forall a, In a ancs -> rmul u (r_mat r) a = v a) ->
    (h = [] -> forall a, In a ancs -> v a = true -> bt a) ->
    bk (Ig ++ gates_of (r :: h)) (selT (mlab (Ig ++ gates_of (r :: h))) (Tround2 u v)) identity_op identity_op.
  Proof.
    intros O F HV HB. eapply bk_eq; [|apply (PP_id (fun _ => false) (fun _ => false)); auto|apply peq_refl].
    cbn [gates_of]. rewrite app_assoc. apply back_PP with (e := u); [exact O| |].
    - intros a Ha. unfold Tround2. rewrite (proj2 (mem_In a ancs) Ha). now destruct (u a).
    - assert (EV : forall a, In a ancs -> rmul (fun a => xorb false (u a)) (r_mat r) a = v a).
      { intros a Ha. rewrite <- HV by exact Ha. apply rmul_ext. intros b _. apply xorb_false_l. }
      apply back_gen; auto.
      + intros q j Hq Hj. rewrite sh_anc by exact Hq. unfold Tround2. rewrite (proj2 (mem_In q ancs) Hq), EV by exact Hq.
        destruct j as [|[|[|j]]]; [lia| | |]; cbn [andb]; reflexivity.
      + intros E a Ha Hv. apply HB; auto. now rewrite <- EV.
  Qed.

  (** * Final measurement of the data qubits *)
  Context (hset' : list string) (Gf Dg : list (gate string)) (Mf : string -> string -> bool).
  Hypothesis HGf : acts_as Gf Mf.
  Hypothesis HD : forall sel, bk Dg sel identity_op
    (Pauli (fun q => hs hset' q && msel data sel q) (fun q => negb (hs hset' q) && msel data sel q)).
  Hypothesis HDm : mlab Dg = data.
  Lemma data_step' Pre T R : (let f q := mem q data && T q 1%nat in
      bk Pre (selT (mlab Pre) (fun q j => T q (j + count q data)%nat)) (Pauli (fun q => hs hset' q && f q) (fun q => negb (hs hset' q) && f q)) R) ->
    bk (Pre ++ Dg) (selT (mlab (Pre ++ Dg)) T) identity_op R.
  Proof.
    cbv zeta. intros B. rewrite mlab_app, HDm. eapply bk_app; [apply HD|].
    eapply bk_ext.
    2:{ intros k Hk. cbv beta. rewrite <- (mlab_len Dg), HDm. symmetry. apply selT_shift. apply Hk. }
    eapply bk_eq; [exact B| |apply peq_refl]. intros q. cbn [px pz].
    assert (E : msel data (selT (mlab Pre ++ data) T) q = mem q data && T q 1%nat); [|now rewrite E].
    destruct (mem q data) eqn:M; [apply mem_In in M; now apply msel_selT|]. apply msel_out. intros Hi. apply mem_In in Hi. congruence.
  Qed.
  Definition Tdata2 (sup : list string) (v : string -> bool) : string -> nat -> bool := fun q j =>
    xorb (mem q sup && Nat.eqb j 1) (mem q ancs && match j with 1%nat => v q | 2%nat => negb reset && v q | _ => false end).
  Lemma data_det2 h a sup v : Forall rnd_ok h -> In a ancs -> incl sup data ->
    (forall q, on (fst (st a)) q = hs hset' q && mem q sup /\ on (snd (st a)) q = negb (hs hset' q) && mem q sup) ->
    (forall b, In b ancs -> Mf a b = v b) -> h <> [] ->
    bk (Ig ++ gates_of h ++ Gf ++ Dg) (selT (mlab (Ig ++ gates_of h ++ Gf ++ Dg)) (Tdata2 sup v)) identity_op identity_op.
  Proof.
    intros F Ha Is B HV Hn. replace (Ig ++ gates_of h ++ Gf ++ Dg) with (((Ig ++ gates_of h) ++ Gf) ++ Dg) by (now rewrite <- !app_assoc).
    apply data_step'. cbv zeta.
    assert (E : forall q, mem q data && Tdata2 sup v q 1%nat = mem q sup).
    { intros q. unfold Tdata2. rewrite Nat.eqb_refl, andb_true_r. destruct (mem q data) eqn:M.
      - apply mem_In in M. rewrite (mem_not q ancs) by auto. cbn [andb]. apply xorb_false_r.
      - cbn [andb]. symmetry. apply mem_not. intros Hi. apply Is in Hi. apply mem_In in Hi. congruence. }
    eapply (bk_eq _ _ (PP (eqb a) (fun _ => false))); [| |apply peq_refl].
    - rewrite mlab_app, (mlab_nil Gf) by apply HGf. rewrite app_nil_r. eapply bk_app; [apply HGf|].
      eapply bk_ext. 2:{ intros k Hk. cbv beta. now rewrite (proj1 HGf), Nat.add_0_r. }
      assert (EV : forall b, In b ancs -> rmul (eqb a) Mf b = v b) by (intros b Hb; rewrite rmul_one by exact Ha; auto).
      apply back_gen; [exact F| |].
      + intros q j Hq Hj. rewrite (count_nodup q data Nd), (mem_not q data) by (intros Hi; now apply (Hda q)). rewrite Nat.add_0_r. unfold Tdata2.
        rewrite (proj2 (mem_In q ancs) Hq), (mem_not q sup), EV by (auto; intros Hi; apply (Hda q); auto). cbn [andb].
        rewrite xorb_false_l, xorb_false_r. reflexivity.
      + congruence.
    - intros q. cbn [PP px pz]. rewrite !E, andb_false_r, xorb_false_r. rewrite <- (proj1 (B q)), <- (proj2 (B q)).
      unfold sumx, sumz. rewrite !(xor_unique _ _ a Na Ha), eqb_refl; [auto| |]; intros c _ Ne; now rewrite (proj2 (eqb_neq a c)) by congruence.
  Qed.

  (** * Observable *)
  (* [p] before the last round goes back to an operator fixed by the initialization *)
  Inductive fixed_op : list rnd -> pauli string -> Prop :=
  | fo_nil p : Iok ancs data hset p -> fixed_op [] p
  | fo_cons r h p p' : (forall q, In q ancs -> px p q = false /\ pz p q = false) -> (forall a, In a ancs -> anti st (px p) (pz p) a = false) ->
      (forall sel, bk (r_gap r) sel p p') -> fixed_op h p' -> fixed_op (r :: h) p.
  Lemma fixed_bk h p T : fixed_op h p -> Forall rnd_ok h -> (forall q j, In q ancs -> (1 <= j)%nat -> T q j = false) ->
    bk (Ig ++ gates_of h) (selT (mlab (Ig ++ gates_of h)) T) p identity_op.
  Proof.
    intros H. revert T. induction H as [p HP|r h p p' H0 C G _ IH]; intros T F ET.
    - cbn [gates_of]. rewrite app_nil_r. now apply HI.
    - pose proof (Forall_inv F) as O. pose proof (Forall_inv_tail F) as F'. cbn [gates_of]. unfold rnd_gates. rewrite !app_assoc.
      rewrite mlab_app, mlab_round' by apply O. apply step_data; [apply O| |exact C|].
      + intros q Hq. destruct (H0 q Hq) as [-> ->]. rewrite ET by (auto; lia). auto.
      + destruct O as [_ [O _]]. rewrite mlab_app, (mlab_nil _ O), app_nil_r. eapply bk_app; [apply G|].
        eapply bk_ext. 2:{ intros k Hk. cbv beta. now rewrite O, Nat.add_0_r. }
        apply IH; auto. intros q j Hq Hj. rewrite sh_anc by exact Hq. apply ET; auto.
  Qed.
  Context (lq : list string).
  Hypothesis Hlq : incl lq data.
  Lemma obs_det2 h p : Forall rnd_ok h -> (forall sel, bk Gf sel (Pauli (fun q => hs hset' q && mem q lq) (fun q => negb (hs hset' q) && mem q lq)) p) ->
    fixed_op h p -> bk (Ig ++ gates_of h ++ Gf ++ Dg) (selT (mlab (Ig ++ gates_of h ++ Gf ++ Dg)) (Tobs lq)) identity_op identity_op.
  Proof.
    intros F G K. replace (Ig ++ gates_of h ++ Gf ++ Dg) with (((Ig ++ gates_of h) ++ Gf) ++ Dg) by (now rewrite <- !app_assoc).
    apply data_step'. cbv zeta.
    assert (E : forall q, mem q data && Tobs lq q 1 = mem q lq).
    { intros q. unfold Tobs. rewrite Nat.eqb_refl, andb_true_r. destruct (mem q lq) eqn:M; [|apply andb_false_r].
      apply mem_In in M. rewrite (proj2 (mem_In q data)); auto. }
    eapply (bk_eq _ _ (Pauli (fun q => hs hset' q && mem q lq) (fun q => negb (hs hset' q) && mem q lq)));
      [|intros q; cbn [px pz]; rewrite E; split; reflexivity|apply peq_refl].
    rewrite mlab_app, (mlab_nil Gf) by apply HGf. rewrite app_nil_r. eapply bk_app; [apply G|].
    eapply bk_ext. 2:{ intros k Hk. cbv beta. now rewrite (proj1 HGf), Nat.add_0_r. }
    apply fixed_bk; auto. intros q j Hq Hj. unfold Tobs. rewrite (mem_not q lq); [reflexivity|]. intros Hi. apply (Hda q); auto.
  Qed.
End Sets.

(** * Gates that act linearly *)
Definition padd (p q : pauli string) : pauli string := Pauli (fun x => xorb (px p x) (px q x)) (fun x => xorb (pz p x) (pz q x)).
Section Linear.
  Context (st : stabilizers) (ancs data : list string) (G : list (gate string)) (op : pauli string -> pauli string) (M : string -> string -> bool).
  Hypothesis Hst : forall a q, In a ancs -> In q (fst (st a)) \/ In q (snd (st a)) -> In q data.
  Hypothesis Hn : num_meas G = 0%nat.
  Hypothesis Hop : forall sel p, bk G sel p (op p).
  Hypothesis Hpeq : forall p q, peq p q -> peq (op p) (op q).
  Hypothesis Hadd : forall p q, peq (op (padd p q)) (padd (op p) (op q)).
  Hypothesis Hanc : forall Z, peq (op (Pauli (fun _ => false) (fun q => mem q ancs && Z q))) (Pauli (fun _ => false) (fun q => mem q ancs && Z q)).
  Hypothesis Hgen : forall a, In a ancs -> peq (op (Pauli (on (fst (st a))) (on (snd (st a))))) (Pauli (sumx st ancs (M a)) (sumz st ancs (M a))).
  Lemma op_zero : peq (op identity_op) identity_op.
  Proof.
    assert (E : forall Z, peq (Pauli (fun _ : string => false) (fun q : string => mem q ancs && (Z : string -> bool) q)) identity_op -> peq (op identity_op) identity_op).
    { intros Z E q. destruct (Hpeq _ _ E q) as [E1 E2]. rewrite <- E1, <- E2. destruct (Hanc Z q) as [-> ->]. apply E. }
    apply (E (fun _ => false)). intros q. cbn. now rewrite andb_false_r.
  Qed.
  Lemma op_sum S : peq (op (Pauli (sumx st ancs S) (sumz st ancs S))) (Pauli (sumx st ancs (rmul ancs S M)) (sumz st ancs (rmul ancs S M))).
  Proof.
    assert (A : forall L, incl L ancs ->
      peq (op (Pauli (fun q => xorl (map (fun a => S a && on (fst (st a)) q) L)) (fun q => xorl (map (fun a => S a && on (snd (st a)) q) L))))
          (Pauli (fun q => xorl (map (fun a => S a && sumx st ancs (M a) q) L)) (fun q => xorl (map (fun a => S a && sumz st ancs (M a) q) L)))).
    { induction L as [|a L IH]; intros I.
      - exact op_zero.
      - specialize (IH (fun x Hx => I x (or_intror Hx))).
        set (p := Pauli (fun q => S a && on (fst (st a)) q) (fun q => S a && on (snd (st a)) q)).
        match type of IH with peq (op ?x) _ => set (r := x) in * end.
        assert (E : peq (op p) (Pauli (fun q => S a && sumx st ancs (M a) q) (fun q => S a && sumz st ancs (M a) q))).
        { unfold p. destruct (S a); cbn [andb].
          - exact (Hgen a (I a (or_introl eq_refl))).
          - exact op_zero. }
        intros q. pose proof (Hadd p r q) as [E1 E2]. destruct (E q) as [E3 E4], (IH q) as [E5 E6]. cbn [padd px pz] in *.
        rewrite E3, E5 in E1. rewrite E4, E6 in E2. cbn [map]. rewrite !xorl_cons. rewrite <- E1, <- E2. apply Hpeq.
        intros q'. cbn [padd p r px pz map]. rewrite !xorl_cons. auto. }
    intros q. destruct (A ancs (incl_refl _) q) as [E1 E2].
    split.
    - etransitivity; [exact E1|]. cbn [px pz]. unfold sumx, rmul.
      transitivity (xorl (map (fun a => xorl (map (fun b => S a && (M a b && on (fst (st b)) q)) ancs)) ancs)).
      + f_equal. apply map_ext. intros a. now rewrite RoundP.xorl_and.
      + rewrite RoundP.xorl_swap. f_equal. apply map_ext. intros b. rewrite andb_comm, RoundP.xorl_and. f_equal. apply map_ext. intros a.
        destruct (S a), (M a b), (on _ q); reflexivity.
    - etransitivity; [exact E2|]. cbn [px pz]. unfold sumz, rmul.
      transitivity (xorl (map (fun a => xorl (map (fun b => S a && (M a b && on (snd (st b)) q)) ancs)) ancs)).
      + f_equal. apply map_ext. intros a. now rewrite RoundP.xorl_and.
      + rewrite RoundP.xorl_swap. f_equal. apply map_ext. intros b. rewrite andb_comm, RoundP.xorl_and. f_equal. apply map_ext. intros a.
        destruct (S a), (M a b), (on _ q); reflexivity.
  Qed.
  Lemma op_acts_as : acts_as st ancs G M.
  Proof.
    split; [exact Hn|]. intros S Z sel. eapply bk_eq; [apply Hop|apply peq_refl|].
    set (p := Pauli (sumx st ancs S) (sumz st ancs S)). set (r := Pauli (fun _ : string => false) (fun q => mem q ancs && Z q)).
    intros q. assert (E : peq (PP st ancs S Z) (padd p r)) by (intros x; cbn; now rewrite xorb_false_r).
    destruct (Hpeq _ _ E q) as [-> ->]. destruct (Hadd p r q) as [-> ->]. destruct (op_sum S q) as [E1 E2], (Hanc Z q) as [E3 E4].
    cbn [padd px pz PP]. fold p in E1, E2. fold r in E3, E4. rewrite E1, E2, E3, E4. cbn [px pz r]. now rewrite xorb_false_r.
  Qed.
End Linear.

Section Compose.
  Context (st : stabilizers) (ancs : list string).
  Hypothesis Na : NoDup ancs.
  Definition meq (M N : string -> string -> bool) : Prop := forall a b, In a ancs -> In b ancs -> M a b = N a b.
  Lemma rmul_meq S M N b : meq M N -> In b ancs -> rmul ancs S M b = rmul ancs S N b.
  Proof. intros E Hb. unfold rmul. f_equal. apply map_ext_in. intros a Ha. now rewrite E. Qed.
  Lemma acts_as_meq G M N : meq M N -> acts_as st ancs G M -> acts_as st ancs G N.
  Proof.
    intros E [A B]. split; [exact A|]. intros S Z sel. eapply bk_eq; [apply B|apply peq_refl|]. apply PP_ext; [|auto].
    intros a Ha. now apply rmul_meq.
  Qed.
  Lemma acts_as_nil : acts_as st ancs [] eqb.
  Proof.
    split; [reflexivity|]. intros S Z sel. eapply bk_eq; [apply bk_nil|apply peq_refl|]. apply PP_ext; [|auto].
    intros a Ha. unfold rmul. rewrite (xor_unique _ _ a Na Ha), eqb_refl, andb_true_r; [reflexivity|]. intros b _ Ne.
    now rewrite (proj2 (eqb_neq b a) Ne), andb_false_r.
  Qed.
  Lemma rmul_rmul S M N b : rmul ancs (rmul ancs S M) N b = rmul ancs S (fun a => rmul ancs (M a) N) b.
  Proof.
    unfold rmul. transitivity (xorl (map (fun c => xorl (map (fun a => S a && (M a c && N c b)) ancs)) ancs)).
    - f_equal. apply map_ext. intros c. rewrite andb_comm, RoundP.xorl_and. f_equal. apply map_ext. intros a. destruct (S a), (M a c), (N c b); reflexivity.
    - rewrite RoundP.xorl_swap. f_equal. apply map_ext. intros a. now rewrite <- RoundP.xorl_and.
  Qed.
  Lemma acts_as_app G1 G2 M1 M2 : acts_as st ancs G1 M1 -> acts_as st ancs G2 M2 ->
    acts_as st ancs (G1 ++ G2) (fun a => rmul ancs (M2 a) M1).
  Proof.
    intros [A1 B1] [A2 B2]. split; [rewrite num_meas_app; lia|]. intros S Z sel. eapply bk_app; [apply B2|].
    eapply bk_eq; [apply B1|apply peq_refl|]. apply PP_ext; [|auto]. intros a Ha. apply rmul_rmul.
  Qed.
  (* repeated involutions *)
  Definition mpow (D : string -> string -> bool) (k : nat) : string -> string -> bool := if Nat.odd k then D else eqb.
  Lemma acts_as_pow D (G : nat -> list (gate string)) k0 k : (forall i, acts_as st ancs (G i) D) ->
    (forall a b, In a ancs -> In b ancs -> rmul ancs (D a) D b = eqb a b) ->
    acts_as st ancs (flat_map G (seq k0 k)) (mpow D k).
  Proof.
    intros HG DD. induction k as [|k IH]; [exact acts_as_nil|]. rewrite seq_S, flat_map_app. cbn [flat_map]. rewrite app_nil_r.
    eapply acts_as_meq; [|apply acts_as_app; [exact IH|apply HG]]. intros a b Ha Hb. unfold mpow. rewrite Nat.odd_succ, <- Nat.negb_odd.
    destruct (Nat.odd k); cbn [negb]; [now apply DD|]. unfold rmul. rewrite (xor_unique _ _ b Na Hb), eqb_refl, andb_true_r; [reflexivity|].
    intros c _ Ne. now rewrite (proj2 (eqb_neq c b) Ne), andb_false_r.
  Qed.
End Compose.
