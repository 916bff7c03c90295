(** What a QEC round does to Pauli operators, for any stabilizer generators. *)
From Coq Require Import QArith Qcanon.
From Verif Require Import Base Lib StimM SetupM NoiseM SpecNoise NoiseP LayoutM DetM
  SpecGen GeomP BlockM SpecTrack TrackP.
Open Scope Z_scope.

Section Act.
  Context (st : stabilizers) (ancs : list string).
  Definition sumx (u : string -> bool) (q : string) : bool := xorl (map (fun a => u a && on (fst (st a)) q) ancs).
  Definition sumz (u : string -> bool) (q : string) : bool := xorl (map (fun a => u a && on (snd (st a)) q) ancs).
  Definition anti (X Z : string -> bool) (a : string) : bool := xorb (xorl (map Z (fst (st a)))) (xorl (map X (snd (st a)))).
  Lemma anti_commutes X Z a : commutes_with st X Z a <-> anti X Z a = false.
  Proof.
    unfold commutes_with, anti. rewrite Nat.even_add, !even_weight.
    destruct (xorl (map Z _)), (xorl (map X _)); cbn; split; congruence.
  Qed.
  (* the gates between the resets and the measurements *)
  Definition acts (g : list (gate string)) : Prop := num_meas g = 0%nat /\
    forall X u sel, (forall a, In a ancs -> X a = false) ->
      bk g sel (Pauli X u) (Pauli (fun q => if mem q ancs then anti X u q else xorb (X q) (sumx u q))
                                  (fun q => xorb (u q) (sumz u q))).

  Hypothesis Na : NoDup ancs.
  Hypothesis Hd : forall a q, In a ancs -> In q (fst (st a)) \/ In q (snd (st a)) -> ~ In q ancs.
  Context (g : list (gate string)) (reset : bool).
  Hypothesis Hg : acts g.
  Definition round_g : list (gate string) := (if reset then map (G1 GR) ancs else []) ++ g ++ map (G1 GM) ancs.

  Lemma sum_out u q : In q ancs -> sumx u q = false /\ sumz u q = false.
  Proof.
    intros Hq. unfold sumx, sumz. split; apply xorl_false; intros b Hb; apply in_map_iff in Hb as (a & <- & Ha);
      apply andb_false_iff; right; apply mem_not; intros Hi; apply (Hd a q Ha); auto.
  Qed.
  Lemma anti_ext X X' Z Z' a : In a ancs -> (forall q, ~ In q ancs -> X q = X' q /\ Z q = Z' q) -> anti X Z a = anti X' Z' a.
  Proof.
    intros Ha E. unfold anti. f_equal; f_equal; apply map_ext_in; intros q Hq; apply E; apply (Hd a q Ha); auto.
  Qed.
  Section Op.
    Context (p : pauli string) (sel : nat -> bool).
    Hypothesis Hx : forall a, In a ancs -> px p a = false.
    Definition usel (q : string) : bool := xorb (pz p q) (msel ancs sel q).
    Lemma usel_data q : ~ In q ancs -> usel q = pz p q.
    Proof. intros Hq. unfold usel. rewrite msel_out by exact Hq. apply xorb_false_r. Qed.
    Lemma anti_usel a : In a ancs -> anti (px p) usel a = anti (px p) (pz p) a.
    Proof. intros Ha. apply anti_ext; [exact Ha|]. intros q Hq. split; [reflexivity|now apply usel_data]. Qed.
    Definition round_res : pauli string :=
      Pauli (fun q => if mem q ancs then (if reset then false else anti (px p) (pz p) q) else xorb (px p q) (sumx usel q))
            (fun q => if reset && mem q ancs then false else xorb (usel q) (sumz usel q)).
    Lemma body_bk : bk (g ++ map (G1 GM) ancs) sel p
      (Pauli (fun q => if mem q ancs then anti (px p) usel q else xorb (px p q) (sumx usel q)) (fun q => xorb (usel q) (sumz usel q))).
    Proof.
      eapply bk_app; [apply bk_M; assumption|]. eapply bk_eq; [apply (proj2 Hg (px p) usel); exact Hx| |apply peq_refl].
      intros q. split; reflexivity.
    Qed.
    Lemma round_bk : (reset = true -> forall a, In a ancs -> anti (px p) (pz p) a = false) -> bk round_g sel p round_res.
    Proof.
      intros C. unfold round_g. eapply bk_app; [apply body_bk|].
      assert (A : forall q, mem q ancs = true -> anti (px p) usel q = anti (px p) (pz p) q) by (intros q M; apply anti_usel; now apply mem_In).
      destruct reset eqn:R.
      - eapply bk_eq; [|apply peq_refl|]; [apply bk_R|].
        + intros q Hq. cbn [px]. rewrite (proj2 (mem_In q ancs) Hq). rewrite A by (now apply mem_In). now apply C.
        + intros q. unfold round_res. rewrite R. cbn [px pz andb]. destruct (mem q ancs); auto.
      - eapply bk_eq; [apply bk_nil|apply peq_refl|]. intros q. unfold round_res. rewrite R. cbn [px pz andb]. split; [|reflexivity].
        destruct (mem q ancs) eqn:M; [now apply A|reflexivity].
    Qed.
    Lemma round_none a : reset = true -> In a ancs -> anti (px p) (pz p) a = true -> back round_g sel p = None.
    Proof.
      intros R Ha V. unfold round_g. rewrite R, back_app. destruct body_bk as (S & E & F). rewrite E.
      apply back_R_none with (q := a); [exact Ha|]. rewrite (proj1 (F a)). cbn [px]. rewrite (proj2 (mem_In a ancs) Ha).
      now rewrite anti_usel.
    Qed.
  End Op.
  (* an X factor on an ancilla before the measurements *)
  Lemma round_none_anc p sel a : In a ancs -> px p a = true -> back round_g sel p = None.
  Proof.
    intros Ha X. unfold round_g. rewrite !app_assoc, back_app. now rewrite (back_M_none ancs sel p a Ha X).
  Qed.
  (* one outcome *)
  Lemma round_one a : In a ancs -> bk round_g (outcome round_g a) identity_op
    (Pauli (fun q => mem q (fst (st a))) (fun q => mem q (snd (st a)) || (negb reset && eqb q a))).
  Proof.
    intros Ha.
    assert (U : forall q, usel identity_op (outcome round_g a) q = eqb a q).
    { intros q. unfold usel. cbn [identity_op pz]. rewrite xorb_false_l. rewrite <- (msel_outcome ancs a q Na Ha). apply msel_ext.
      intros k Hk. unfold round_g. rewrite app_assoc. apply outcome_tail. rewrite num_meas_map. exact Hk. }
    assert (S1 : forall f q, xorl (map (fun b => usel identity_op (outcome round_g a) b && on (f b) q) ancs) = mem q (f a)).
    { intros f q. rewrite (xor_unique _ _ a Na Ha).
      - rewrite U, eqb_refl. reflexivity.
      - intros b _ Ne. rewrite U. rewrite (proj2 (eqb_neq a b)) by congruence. reflexivity. }
    eapply bk_eq; [apply round_bk|apply peq_refl|].
    - intros q _. reflexivity.
    - intros _ b Hb. unfold anti. rewrite !xorl_false; [reflexivity| |]; intros x Hx; apply in_map_iff in Hx as (? & <- & _); reflexivity.
    - intros q. unfold round_res. cbn [px pz identity_op]. unfold sumx, sumz. rewrite !S1, xorb_false_l, U.
      assert (Z0 : anti (fun _ => false) (fun _ => false) q = false).
      { unfold anti. rewrite !xorl_false; [reflexivity| |]; intros x Hx; apply in_map_iff in Hx as (? & <- & _); reflexivity. }
      rewrite Z0. destruct (mem q ancs) eqn:M.
      + apply mem_In in M. assert (D : ~ In q (fst (st a)) /\ ~ In q (snd (st a))).
        { split; intros Hi; apply (Hd a q Ha); auto. }
        rewrite !mem_not by tauto. destruct reset; cbn [andb orb negb]; [auto|]. split; [reflexivity|]. rewrite xorb_false_r.
        destruct (eqb_spec a q) as [->|N]; [now rewrite eqb_refl|]. symmetry. apply eqb_neq. congruence.
      + rewrite andb_false_r. assert (Ne : eqb q a = false) by (apply eqb_neq; intros ->; apply mem_In in Ha; congruence).
        rewrite Ne, andb_false_r, orb_false_r. rewrite (proj2 (eqb_neq a q)) by (intros ->; apply mem_In in Ha; congruence).
        rewrite xorb_false_l. auto.
  Qed.
  (* operators on the data qubits *)
  Lemma round_keep X Z : (forall a, In a ancs -> X a = false /\ Z a = false) -> (forall a, In a ancs -> anti X Z a = false) ->
    bk round_g (fun _ => false) (Pauli X Z) (Pauli X Z).
  Proof.
    intros H0 C. eapply bk_eq; [apply round_bk|apply peq_refl|].
    - intros q Hq. now apply H0.
    - intros _ a Ha. now apply C.
    - intros q. unfold round_res. cbn [px pz].
      assert (U : forall q, usel (Pauli X Z) (fun _ => false) q = Z q) by (intros r; unfold usel; rewrite msel_false; apply xorb_false_r).
      assert (S : forall f q, xorl (map (fun b => usel (Pauli X Z) (fun _ => false) b && on (f b) q) ancs) = false).
      { intros f r. apply xorl_false. intros b Hb. apply in_map_iff in Hb as (a & <- & Ha). rewrite U, (proj2 (H0 a Ha)). reflexivity. }
      unfold sumx, sumz. rewrite !S, U, !xorb_false_r. destruct (mem q ancs) eqn:M; [|now rewrite andb_false_r].
      apply mem_In in M. destruct (H0 q M) as [-> ->]. rewrite (C q M). destruct reset; auto.
  Qed.
  Lemma round_random X Z : reset = true -> (forall a, In a ancs -> X a = false /\ Z a = false) -> (exists a, In a ancs /\ anti X Z a = true) ->
    back round_g (fun _ => false) (Pauli X Z) = None.
  Proof. intros R H0 (a & Ha & V). apply round_none with (a := a); auto. intros b Hb. now apply H0. Qed.
End Act.

(** * On emitted circuits *)
Section Circ.
  Context (st : stabilizers) (ancs : list string) (g : list (gate string)) (reset : bool) (bl : blocks).
  Hypothesis Na : NoDup ancs.
  Hypothesis Hd : forall a q, In a ancs -> In q (fst (st a)) \/ In q (snd (st a)) -> ~ In q ancs.
  Hypothesis Hg : acts st ancs g.
  Hypothesis Hok : ok_blocks bl.
  Hypothesis Hbl : lg_blocks bl = round_g ancs g reset.
  Lemma circ_one m m' c a i : run_blocks bl m = (m', Ok c) -> wf_inds (inds m) -> In a ancs -> dget a (inds m) = Some i ->
    exists P, back (gates c) (outcome (gates c) i) identity_op = Some P /\
      represents (inds m) (fun q => mem q (fst (st a))) (fun q => mem q (snd (st a)) || (negb reset && eqb q a)) P.
  Proof.
    intros H W Ha Ei. pose proof (round_one st ancs Na Hd g reset Hg a Ha) as B. rewrite <- Hbl in B.
    pose proof (blocks_gates _ _ _ _ H Hok) as (_ & F & _).
    eapply blocks_track with (P := identity_op) in B; eauto; [|split; auto].
    destruct B as (P' & E & R). exists P'. split; [|exact R]. rewrite <- E. apply back_ext. intros k _.
    exact (outcome_rel _ _ _ a i k W F Ei).
  Qed.
  Lemma circ_keep m m' c X Z P : run_blocks bl m = (m', Ok c) -> wf_inds (inds m) ->
    (forall a, In a ancs -> X a = false /\ Z a = false) -> (forall a, In a ancs -> commutes_with st X Z a) ->
    represents (inds m) X Z P -> exists P', back (gates c) (fun _ => false) P = Some P' /\ represents (inds m) X Z P'.
  Proof.
    intros H W H0 C R. assert (B : bk (lg_blocks bl) (fun _ => false) (Pauli X Z) (Pauli X Z)).
    { rewrite Hbl. apply (round_keep st); auto. intros a Ha. now apply anti_commutes, C. }
    eapply blocks_track in B; eauto.
  Qed.
  Lemma circ_random m m' c X Z P a : run_blocks bl m = (m', Ok c) -> wf_inds (inds m) -> reset = true ->
    (forall a, In a ancs -> X a = false /\ Z a = false) -> In a ancs -> ~ commutes_with st X Z a ->
    represents (inds m) X Z P -> back (gates c) (fun _ => false) P = None.
  Proof.
    intros H W Hr H0 Ha C R. eapply blocks_track_none with (p := Pauli X Z); eauto. rewrite Hbl. apply (round_random st); auto.
    exists a. split; [exact Ha|]. apply not_false_iff_true. intros E. apply C. now apply anti_commutes.
  Qed.
End Circ.
