(** What the checks of a memory experiment contain (C60). *)
From Coq Require Import QArith Qcanon.
From Verif Require Import Base Lib StimM SetupM NoiseM SpecNoise NoiseP LayoutM SpecLayout LayoutP LayoutP2 DetM SpecDet DetP DetCountP
  BlockM ExpM SpecTrack SpecExp TrackP LiftP ExpDetP ExpP ExpP3 ExpP4 ExpP5 ExpP6 ExpP7 ExpP8.
Open Scope Z_scope.

Lemma Forall2_pick {A B} (P : A -> B -> Prop) l r x : Forall2 P l r -> In x l -> exists r1 y r2, r = r1 ++ y :: r2 /\ P x y.
Proof.
  induction 1 as [|a b l r H F IH]; [easy|]. intros [->|I]; [now exists [], b, r|].
  destruct (IH I) as (r1 & y & r2 & -> & K). now exists (b :: r1), y, r2.
Qed.
Lemma trace_nth d0 qi ancs reset dsf I G pre n c w r : trace d0 qi ancs reset dsf I G pre n c w -> (r < n)%nat ->
  exists c1 cr w1 c3, c = c1 ++ cr ++ c3 /\ round_out d0 qi ancs reset r (dsf r) (I ++ Gn G (S r)) (pre ++ c1) cr w1.
Proof.
  induction 1 as [|n c w c' w' T IH R]; intros Hr; [lia|]. destruct (Nat.eq_dec r n) as [->|Ne].
  - exists c, c', w', []. now rewrite app_nil_r.
  - destruct IH as (c1 & cr & w1 & c3 & -> & K); [lia|]. exists c1, cr, w1, (c3 ++ c'). now rewrite <- !app_assoc.
Qed.

Section Content.
  Context (qi : dict string Z) (m : model) (L : list (gate string)) (pre : circuit).
  Hypothesis T : tracked qi m L pre.
  Lemma jth_outcome q j k : (1 <= k)%nat -> jth (mlab L) q j k = true <-> outcome_of qi (measured pre) q j k.
  Proof.
    intros Hk. pose proof (tracked_at _ _ _ _ T) as F. destruct T as [W Q I K R M]. unfold outcome_of. split.
    - intros H. assert (E : exists i, dget q qi = Some i).
      { unfold jth in H. destruct (nth_error (rev (mlab L)) (k - 1)) as [x|] eqn:N; [|discriminate].
        apply andb_true_iff in H as [H _]. apply eqb_eq in H as ->. apply nth_error_In, in_rev in N.
        revert N. clear - F. induction F as [|y t l r (i & Ei & _) F IH]; [easy|]. intros [->|N]; eauto. }
      destruct E as [i E]. exists i. split; [exact E|]. eapply kth_jth; eauto.
    - intros (i & E & H). eapply kth_jth; eauto.
  Qed.
  Lemma selT_round reset n a k : (1 <= k)%nat -> (count a (mlab L) <= n)%nat ->
    selT (mlab L) (form_round reset n a) k = true <->
    outcome_of qi (measured pre) a 1 k \/ outcome_of qi (measured pre) a (if reset then 2 else 3) k.
  Proof.
    intros Hk Hc. rewrite <- !jth_outcome by exact Hk. set (J := (if reset then 2 else 3)%nat).
    rewrite (selT_ext _ _ (fun q j => (eqb a q && Nat.eqb j 1) || (eqb a q && Nat.eqb j J)) k Hk).
    - unfold jth, selT. destruct (nth_error (rev (mlab L)) (k - 1)) as [x|]; [|intuition discriminate]. now rewrite orb_true_iff.
    - intros q j _ Hj. unfold form_round. fold J. destruct (eqb_spec a q) as [->|]; [|reflexivity]. cbn [andb].
      destruct (Nat.eqb_spec j J) as [->|]; [|now rewrite andb_false_r]. rewrite (proj2 (Nat.leb_le J n)) by lia. reflexivity.
  Qed.
  Lemma selT_obs qs k : (1 <= k)%nat -> NoDup qs ->
    selT (mlab L) (form_obs qs) k = true <-> exists q, In q qs /\ outcome_of qi (measured pre) q 1 k.
  Proof.
    intros Hk N. transitivity (exists q, In q qs /\ jth (mlab L) q 1 k = true).
    2:{ split; intros (q & H & K); exists q; (split; [exact H|]); now apply jth_outcome. }
    unfold selT, form_obs, jth. destruct (nth_error (rev (mlab L)) (k - 1)) as [x|].
    - rewrite (count_nodup x qs N). split.
      + intros H. apply andb_true_iff in H as [H1 H2]. exists x. rewrite H2, eqb_refl. split; [|reflexivity].
        destruct (mem x qs) eqn:E; [now apply mem_In|discriminate].
      + intros (q & I & H). apply andb_true_iff in H as [H1 H2]. apply eqb_eq in H1 as ->. rewrite H2, andb_true_r.
        now rewrite (proj2 (mem_In _ _) I).
    - split; [discriminate|]. intros (q & _ & H). discriminate.
  Qed.
  Lemma selT_data reset n s a k : (1 <= k)%nat -> NoDup s -> ~ In a s -> (count a (mlab L) <= n)%nat ->
    selT (mlab L) (form_data reset n s a) k = true <->
    (exists q, In q s /\ outcome_of qi (measured pre) q 1 k) \/
    outcome_of qi (measured pre) a 1 k \/ reset = false /\ outcome_of qi (measured pre) a 2 k.
  Proof.
    intros Hk N Na Hc. rewrite <- (selT_obs s k Hk N). rewrite <- !jth_outcome by exact Hk.
    rewrite (selT_ext _ _ (fun q j => form_obs s q j || (eqb a q && Nat.eqb j 1) || (negb reset && (eqb a q && Nat.eqb j 2))) k Hk).
    - unfold jth, selT. destruct (nth_error (rev (mlab L)) (k - 1)) as [x|]; [|intuition discriminate].
      rewrite !orb_true_iff, (andb_true_iff (negb reset)), negb_true_iff. tauto.
    - intros q j _ Hj. unfold form_data, form_obs. destruct (eqb_spec a q) as [->|].
      + rewrite (count_nodup q s N), (mem_not q s Na). cbn [andb orb Nat.odd Nat.even negb]. rewrite xorb_false_l.
        rewrite (proj2 (Nat.leb_le 1 n)) by lia. cbn [andb]. destruct (Nat.eqb_spec j 2) as [->|]; [|now rewrite !andb_false_r].
        rewrite (proj2 (Nat.leb_le 2 n)) by lia. now rewrite !andb_true_r.
      + cbn [andb]. rewrite andb_false_r, !orb_false_r, xorb_false_r. reflexivity.
  Qed.
End Content.

Section Parts.
  Context (ordt : nat -> nat -> list string -> list string).
  Hypothesis Hp : forall t n s, Permutation (ordt t n s) s.
  Lemma asked_shown l rot gauge dets ds anc r dr a : get_role l "anc" = Ok anc -> default_dets l dets = Ok ds ->
    asked ordt l rot gauge ds r dr -> In a dr /\ In a anc <-> shown l rot gauge dets a r.
  Proof.
    intros Ea Ed H. unfold shown. assert (X : In a anc -> In a ds <-> (forall ds, dets = Some ds -> In a ds)).
    { intros I. unfold default_dets in Ed. destruct dets as [x|].
      - injection Ed as ->. split; [intros K ? [= <-]; exact K|auto].
      - rewrite Ea in Ed. injection Ed as <-. split; [intros _ ? [=]|auto]. }
    assert (Y : In a dr <-> In a ds /\ (r = 0%nat -> gauge = false -> exists s, get_stabs l (if rot then "x_type" else "z_type") = Ok s /\ In a s)).
    { unfold asked in H. destruct (Nat.eqb_spec r 0) as [->|Ne]; [destruct gauge|]; cbn [negb andb] in H.
      - subst dr. intuition discriminate.
      - unfold first_dets in H. apply bind_ok in H as (s & Es & H). fold (basis_type rot). rewrite Es. injection H as <-.
        assert (Z : In a (ordt 0%nat 0%nat (inter (dedup ds) s)) <-> In a (inter (dedup ds) s)).
        { split; apply Permutation_in; [apply Hp|apply Permutation_sym, Hp]. }
        rewrite Z. unfold inter. rewrite filter_In, dedup_In, mem_In. split.
        + intros [A B]. split; [exact A|]. intros _ _. eauto.
        + intros [A B]. split; [exact A|]. destruct (B eq_refl eq_refl) as (s' & [= <-] & K). exact K.
      - subst dr. intuition lia. }
    rewrite Y. split.
    - intros [[A B] C]. split; [eauto|]. split; [now apply X|exact B].
    - intros ((anc' & E' & C) & A & B). rewrite E' in Ea. injection Ea as ->. split; [|exact C]. split; [now apply X|exact B].
  Qed.

  Lemma round_detector d0 qi ancs reset n ds L c0 cr w a ms c c3 : round_out d0 qi ancs reset n ds L c0 cr w ->
    c = c0 ++ cr ++ c3 -> mlab L = ms -> (In a ancs -> count a ms <= S n)%nat -> In a (labels d0) ->
    exists pre i, detector_in c d0 qi ms a (zq (Z.of_nat n)) pre i /\
      (In a ds /\ In a ancs -> round_parity qi reset a pre i) /\ (~ (In a ds /\ In a ancs) -> tg i = []).
  Proof.
    intros [_ (cb & cd & ls & -> & T & _ & _ & An & P & F)] -> <- Hc Ha.
    destruct (Forall2_pick _ _ _ a F) as (r1 & i & r2 & -> & (xs & X1 & X2 & X3) & _ & D & K); [apply (Permutation_in _ (Permutation_sym P)); exact Ha|].
    apply Forall_app in An as [An _].
    assert (T' : tracked qi (fst w) L ((c0 ++ cb) ++ r1)) by now apply tracked_ann.
    exists ((c0 ++ cb) ++ r1), i. split; [split; [|split; [exact X2|split]]|split].
    - exists (r2 ++ c3). now rewrite <- !app_assoc.
    - eauto.
    - exact (tracked_at _ _ _ _ T').
    - intros [D1 D2] k Hk. rewrite (K D1 D2 k Hk). apply (selT_round _ _ _ _ T'); auto.
    - intros N. destruct D as [D|D]; [contradiction|exact D].
  Qed.
  Lemma final_detector d0 qi ancs l rot reset n ds L m c0 c4 a ms c stabs :
    meas_out d0 qi ancs l rot reset n ds L m c0 c4 -> tracked qi m L c0 ->
    c = c0 ++ c4 -> mlab L = ms -> (In a ancs -> count a ms <= n)%nat -> In a (labels d0) ->
    get_stabs l (if rot then "x_type" else "z_type") = Ok stabs -> In a stabs ->
    exists pre i, detector_in c d0 qi ms a (zq (Z.of_nat n) - Q2Qc (1#2))%Qc pre i /\
      (In a ds /\ In a ancs -> exists sup s, support_from_adj l stabs = Ok sup /\ dget a sup = Some s /\
         (NoDup s -> ~ In a s -> final_parity qi reset s a pre i)) /\
      (~ (In a ds /\ In a ancs) -> tg i = []).
  Proof.
    intros [(st & sup & lq & qs & cd & o & ls & -> & _ & An & Es & Eu & _ & _ & _ & _ & _ & _ & P & F)] T -> <- Hc Ha Es' Ia.
    rewrite Es in Es'. injection Es' as ->. apply Forall_app in An as [An _].
    destruct (Forall2_pick _ _ _ a F) as (r1 & i & r2 & -> & (xs & X1 & X2 & X3) & _ & D & K).
    { apply (Permutation_in _ (Permutation_sym P)). apply filter_In. split; [exact Ha|now apply mem_In]. }
    apply Forall_app in An as [An _]. assert (T' : tracked qi m L (c0 ++ r1)) by now apply tracked_ann.
    exists (c0 ++ r1), i. split; [split; [|split; [exact X2|split]]|split].
    - exists (r2 ++ [o]). now rewrite <- !app_assoc.
    - eauto.
    - exact (tracked_at _ _ _ _ T').
    - intros [D1 D2]. destruct (K D1 D2) as (s & Hs & K'). exists sup, s. split; [exact Eu|]. split; [exact Hs|].
      intros N1 N2 k Hk. rewrite (K' k Hk). apply (selT_data _ _ _ _ T'); auto.
    - intros N. destruct D as [D|D]; [contradiction|exact D].
  Qed.
  Lemma final_observable d0 qi ancs l rot reset n ds L m c0 c4 ms c :
    meas_out d0 qi ancs l rot reset n ds L m c0 c4 -> tracked qi m L c0 ->
    c = c0 ++ c4 -> mlab L = ms ->
    exists pre o lq qs, c = pre ++ [o] /\ nm o = OBSERVABLE_INCLUDE /\ ar o = [ANum (zq 0)] /\ at_inds qi ms (measured pre) /\
      nth_error (l_logs l) 0 = Some lq /\ dget lq (if rot then l_logx l else l_logz l) = Some qs /\
      (NoDup qs -> forall k, (1 <= k)%nat -> lists o k = true <-> exists q, In q qs /\ outcome_of qi (measured pre) q 1 k).
  Proof.
    intros [(st & sup & lq & qs & cd & o & ls & -> & _ & An & _ & _ & E1 & E2 & E3 & E4 & _ & K & _)] T -> <-.
    apply Forall_app in An as [An _]. assert (T' : tracked qi m L (c0 ++ cd)) by now apply tracked_ann.
    exists (c0 ++ cd), o, lq, qs. split; [now rewrite <- app_assoc|]. repeat (split; [first [assumption|exact (tracked_at _ _ _ _ T')]|]).
    intros N k Hk. rewrite (K k Hk). now apply (selT_obs _ _ _ _ T').
  Qed.

  Lemma times_snoc {A} n (l : list A) : times (S n) l = times n l ++ l.
  Proof. induction n as [|n IH]; [cbn; now rewrite app_nil_r|]. change (times (S (S n)) l) with (l ++ times (S n) l). rewrite IH at 1. now rewrite app_assoc. Qed.
  Lemma count_times a n (l : list string) : NoDup l -> (count a (times n l) <= n)%nat.
  Proof.
    intros N. induction n as [|n IH]; [cbn; lia|]. cbn [times]. rewrite count_app, (count_nodup a l N). destruct (mem a l); lia.
  Qed.

  Lemma role_disjoint l anc data a : wf l -> get_role l "anc" = Ok anc -> get_role l "data" = Ok data -> In a anc -> ~ In a data.
  Proof.
    intros W E1 E2 I1 I2. destruct (C52_lemma _ _ _ W E1) as (p & -> & P). destruct (C52_lemma _ _ _ W E2) as (p' & -> & P').
    apply filter_In in I1 as [K1 I1], I2 as [_ I2]. apply (P _ K1) with (k := "role") (v := PStr "anc") in I1 as [I1 _]; [|now left].
    apply (P' _ K1) with (k := "role") (v := PStr "data") in I2 as [I2 _]; [|now left]. congruence.
  Qed.
  Lemma final_neighbours l stabs qi reset a pre i : wf l -> In a stabs ->
    (exists sup s, support_from_adj l stabs = Ok sup /\ dget a sup = Some s /\
         (NoDup s -> ~ In a s -> final_parity qi reset s a pre i)) ->
    ~ In a (get_neighbors l [a] None) -> final_parity qi reset (get_neighbors l [a] None) a pre i.
  Proof.
    intros W Ia (sup & s & Es & Ed & K) Na. destruct (support_lemma l stabs sup W Es a Ia) as (s' & Ed' & N & Hs).
    rewrite Ed in Ed'. injection Ed' as <-. specialize (K N). assert (~ In a s) as Nb by (rewrite Hs; exact Na).
    intros k Hk. rewrite (K Nb k Hk). split; (intros [(q & Hq & H)|H]; [left; exists q; split; [now apply Hs|exact H]|now right]).
  Qed.

  Section Memory.
    Context (k : memory_kind) (l : layout) (R : Z) (di : dict string Z) (rot reset : bool) (dets : option (list string)) (gauge : bool)
      (w w' : world) (c : circuit) (anc data : list string).
    Hypothesis Wf : SpecNoise.wf_inds (inds (fst w)).
    Hypothesis N : NoDup (labels (snd w)).
    Hypothesis Ea : get_role l "anc" = Ok anc.
    Hypothesis Ed : get_role l "data" = Ok data.
    Hypothesis H : memory ordt k l R di rot reset dets gauge w = (w', Ok c).
    Lemma C60_round_lemma r a : 0 <= r < R -> In a (labels (snd w)) ->
      exists pre i, detector_in c (snd w) (inds (fst w)) (times (S (Z.to_nat r)) anc) a (zq r) pre i /\
        (shown l rot gauge dets a (Z.to_nat r) -> round_parity (inds (fst w)) reset a pre i) /\
        (~ shown l rot gauge dets a (Z.to_nat r) -> tg i = []).
    Proof.
      intros Hr Ha. destruct (memory_any _ _ _ _ _ _ _ _ _ _ _ _ Wf N H) as (HR & anc' & data' & Ea' & Ed' & Na & M & HI & HG & HD).
      rewrite Ea in Ea'. injection Ea' as <-. destruct M as [(ancs & ds & dsf & c01 & c2 & c3 & c4 & w2 & m3 & -> & Ea' & Ds & B1 & As & Ht & B3 & T & Hm)].
      rewrite Ea in Ea'. injection Ea' as <-. assert (Hn : (Z.to_nat r < Z.to_nat R)%nat) by lia.
      destruct (trace_nth _ _ _ _ _ _ _ _ _ _ _ _ Ht Hn) as (c1 & cr & w1 & c3' & -> & Ro).
      assert (Em : mlab (lg_blocks (init_of ordt k l di rot) ++ Gn (fun r => lg_blocks (round_k ordt k r l reset)) (S (Z.to_nat r))) = times (S (Z.to_nat r)) anc).
      { rewrite mlab_app, HI. apply (mlab_Gn _ anc). intros r' Hr'. apply HG. lia. }
      destruct (round_detector _ _ _ _ _ _ _ _ _ _ a _ _ (c3' ++ c3 ++ c4) Ro eq_refl Em) as (pre & i & D1 & D2 & D3); [intros _; now apply count_times|exact Ha|].
      rewrite Z2Nat.id in D1 by lia.
      rewrite (asked_shown l rot gauge dets ds anc _ _ a Ea Ds (As _ Hn)) in D2, D3.
      exists pre, i. split; [|now split]. revert D1. unfold detector_in. rewrite <- !app_assoc. auto.
    Qed.
    Lemma memory_end : exists ds dr c0 c4 m3 L, c = c0 ++ c4 /\ default_dets l dets = Ok ds /\ NoDup anc /\ 0 <= R /\
      mlab L = times (Z.to_nat R) anc ++ data /\ tracked (inds (fst w)) m3 L c0 /\
      (dr = ds \/ asked ordt l rot gauge ds 0 dr) /\
      meas_out (snd w) (inds (fst w)) anc l rot reset (Z.to_nat R) dr L m3 c0 c4.
    Proof.
      destruct (memory_any _ _ _ _ _ _ _ _ _ _ _ _ Wf N H) as (HR & anc' & data' & Ea' & Ed' & Na & M & HI & HG & HD).
      rewrite Ea in Ea'. rewrite Ed in Ed'. injection Ea' as <-. injection Ed' as <-.
      destruct M as [(ancs & ds & dsf & c01 & c2 & c3 & c4 & w2 & m3 & -> & Ea' & Ds & B1 & As & Ht & B3 & T & Hm)].
      rewrite Ea in Ea'. injection Ea' as <-.
      eexists ds, ds, (c01 ++ c2 ++ c3), c4, m3, _. split; [now rewrite <- !app_assoc|]. split; [exact Ds|]. split; [exact Na|]. split; [exact HR|].
      split; [|split; [exact T|split; [now left|exact Hm]]]. rewrite !mlab_app, HI, HD. cbn [app]. f_equal. now apply mlab_Gn.
    Qed.
  End Memory.
  Lemma shown_zero l rot gauge dets ds dr anc stabs a : get_role l "anc" = Ok anc -> default_dets l dets = Ok ds ->
    dr = ds \/ asked ordt l rot gauge ds 0 dr -> get_stabs l (if rot then "x_type" else "z_type") = Ok stabs -> In a stabs ->
    In a dr /\ In a anc <-> shown l rot gauge dets a 0.
  Proof.
    intros Ea Ds Hd Es Ia. destruct Hd as [->|Hd]; [|exact (asked_shown l rot gauge dets ds anc 0 dr a Ea Ds Hd)].
    rewrite (asked_shown l rot true dets ds anc 0 ds a Ea Ds eq_refl). unfold shown. split; (intros (A & B & _); split; [exact A|split; [exact B|]]).
    - intros _ _. eauto.
    - discriminate.
  Qed.
  Section End_.
    Context (l : layout) (R : Z) (rot reset : bool) (dets : option (list string)) (gauge : bool) (w : world) (c : circuit) (anc data : list string).
    Hypothesis Ea : get_role l "anc" = Ok anc.
    Hypothesis Ed : get_role l "data" = Ok data.
    Hypothesis H : exists ds dr c0 c4 m3 L, c = c0 ++ c4 /\ default_dets l dets = Ok ds /\ NoDup anc /\ 0 <= R /\
      mlab L = times (Z.to_nat R) anc ++ data /\ tracked (inds (fst w)) m3 L c0 /\
      (dr = ds \/ asked ordt l rot gauge ds 0 dr) /\
      meas_out (snd w) (inds (fst w)) anc l rot reset (Z.to_nat R) dr L m3 c0 c4.
    Lemma end_detector stabs a : wf l -> get_stabs l (if rot then "x_type" else "z_type") = Ok stabs -> In a stabs -> In a (labels (snd w)) ->
      exists pre i, detector_in c (snd w) (inds (fst w)) (times (Z.to_nat R) anc ++ data) a (zq R - Q2Qc (1#2))%Qc pre i /\
        (shown l rot gauge dets a 0 -> ~ In a (get_neighbors l [a] None) ->
           final_parity (inds (fst w)) reset (get_neighbors l [a] None) a pre i) /\
        (~ shown l rot gauge dets a 0 -> tg i = []).
    Proof.
      intros W Es Ia Ha. destruct H as (ds & dr & c0 & c4 & m3 & L & -> & Ds & Na & HR & Em & T & Hd & Hm).
      destruct (final_detector _ _ _ _ _ _ _ _ _ _ _ _ a _ _ stabs Hm T eq_refl Em) as (pre & i & D1 & D2 & D3); auto.
      { intros Ic. rewrite count_app, (count_none data a), Nat.add_0_r; [now apply count_times|]. exact (role_disjoint l anc data a W Ea Ed Ic). }
      rewrite Z2Nat.id in D1 by lia. rewrite (shown_zero l rot gauge dets ds dr anc stabs a Ea Ds Hd Es Ia) in D2, D3.
      exists pre, i. split; [exact D1|]. split; [|exact D3]. intros S. apply (final_neighbours l stabs); auto.
    Qed.
    Lemma end_observable : exists pre o lq qs, c = pre ++ [o] /\ nm o = OBSERVABLE_INCLUDE /\ ar o = [ANum (zq 0)] /\
      at_inds (inds (fst w)) (times (Z.to_nat R) anc ++ data) (measured pre) /\
      nth_error (l_logs l) 0 = Some lq /\ dget lq (if rot then l_logx l else l_logz l) = Some qs /\
      (NoDup qs -> forall k, (1 <= k)%nat -> lists o k = true <-> exists q, In q qs /\ outcome_of (inds (fst w)) (measured pre) q 1 k).
    Proof.
      destruct H as (ds & dr & c0 & c4 & m3 & L & -> & Ds & Na & HR & Em & T & Hd & Hm).
      exact (final_observable _ _ _ _ _ _ _ _ _ _ _ _ _ _ Hm T eq_refl Em).
    Qed.
  End End_.
  Section Google.
    Context (l : layout) (R : Z) (di : dict string Z) (rot : bool) (dets : option (list string)) (gauge : bool)
      (w w' : world) (c : circuit) (anc data : list string).
    Hypothesis Wf : SpecNoise.wf_inds (inds (fst w)).
    Hypothesis N : NoDup (labels (snd w)).
    Hypothesis Ea : get_role l "anc" = Ok anc.
    Hypothesis Ed : get_role l "data" = Ok data.
    Hypothesis H : memory_google ordt l R di rot dets gauge w = (w', Ok c).
    Lemma C60_google_round_lemma r a : wf l -> 0 <= r < R -> In a (labels (snd w)) ->
      exists pre i, detector_in c (snd w) (inds (fst w)) (times (S (Z.to_nat r)) anc ++ if r =? R - 1 then data else []) a (zq r) pre i /\
        (shown l rot gauge dets a (Z.to_nat r) -> round_parity (inds (fst w)) true a pre i) /\
        (~ shown l rot gauge dets a (Z.to_nat r) -> tg i = []).
    Proof.
      intros W Hr Ha. destruct (google_any _ _ _ _ _ _ _ _ _ _ Wf N H) as (HR & anc' & data' & Ea' & Ed' & Na & M & HI & HG & HD).
      rewrite Ea in Ea'. rewrite Ed in Ed'. injection Ea' as <-. injection Ed' as <-.
      destruct M as [(ancs & ds & dsf & c01 & c2 & c3 & c4 & w2 & w3 & -> & Ea' & Ds & B1 & As & Ht & O & Hm)].
      rewrite Ea in Ea'. injection Ea' as <-. destruct (Z.eqb_spec r (R - 1)) as [->|Ne].
      - assert (Em : mlab (lg_blocks (init_xzzx_blocks (ordt 1%nat) l di rot) ++ Gn (fun r => lg_blocks (google_round (ordt (3 + r)%nat) l)) (Z.to_nat (R - 1)) ++ lg_blocks (google_meas (ordt 2%nat) l rot)) = times (S (Z.to_nat (R - 1))) anc ++ data).
        { rewrite !mlab_app, HI, HD, (mlab_Gn _ anc) by exact HG. rewrite times_snoc. now rewrite <- app_assoc. }
        destruct (round_detector _ _ _ _ _ _ _ _ _ _ a (times (S (Z.to_nat (R - 1))) anc ++ data) (c01 ++ c2 ++ c3 ++ c4) c4 O) as (pre & i & D1 & D2 & D3); [now rewrite <- app_assoc|exact Em| |exact Ha|].
        { intros Ic. rewrite count_app, (count_none data a), Nat.add_0_r; [now apply count_times|]. exact (role_disjoint l anc data a W Ea Ed Ic). }
        rewrite Z2Nat.id in D1 by lia. rewrite (asked_shown l rot gauge dets ds anc _ _ a Ea Ds (As _ (Nat.le_refl _))) in D2, D3.
        exists pre, i. now split.
      - assert (Hn : (Z.to_nat r < Z.to_nat (R - 1))%nat) by lia.
        destruct (trace_nth _ _ _ _ _ _ _ _ _ _ _ _ Ht Hn) as (c1 & cr & w1 & c3' & -> & Ro).
        assert (Em : mlab (lg_blocks (init_xzzx_blocks (ordt 1%nat) l di rot) ++ Gn (fun r => lg_blocks (google_round (ordt (3 + r)%nat) l)) (S (Z.to_nat r))) = times (S (Z.to_nat r)) anc).
        { rewrite mlab_app, HI. apply (mlab_Gn _ anc). intros r' Hr'. apply HG. lia. }
        destruct (round_detector _ _ _ _ _ _ _ _ _ _ a _ _ (c3' ++ c3 ++ c4) Ro eq_refl Em) as (pre & i & D1 & D2 & D3); [intros _; now apply count_times|exact Ha|].
        rewrite Z2Nat.id in D1 by lia. assert (Hn' : (Z.to_nat r <= Z.to_nat (R - 1))%nat) by lia.
        rewrite (asked_shown l rot gauge dets ds anc _ _ a Ea Ds (As _ Hn')) in D2, D3.
        exists pre, i. split; [|now split]. rewrite app_nil_r. revert D1. unfold detector_in. rewrite <- !app_assoc. auto.
    Qed.
    Lemma google_end : exists ds dr c0 c4 m3 L, c = c0 ++ c4 /\ default_dets l dets = Ok ds /\ NoDup anc /\ 0 <= R /\
      mlab L = times (Z.to_nat R) anc ++ data /\ tracked (inds (fst w)) m3 L c0 /\
      (dr = ds \/ asked ordt l rot gauge ds 0 dr) /\
      meas_out (snd w) (inds (fst w)) anc l rot true (Z.to_nat R) dr L m3 c0 c4.
    Proof.
      destruct (google_any _ _ _ _ _ _ _ _ _ _ Wf N H) as (HR & anc' & data' & Ea' & Ed' & Na & M & HI & HG & HD).
      rewrite Ea in Ea'. rewrite Ed in Ed'. injection Ea' as <-. injection Ed' as <-.
      destruct M as [(ancs & ds & dsf & c01 & c2 & c3 & c4 & w2 & w3 & -> & Ea' & Ds & B1 & As & Ht & O & Hm)].
      rewrite Ea in Ea'. injection Ea' as <-.
      eexists ds, (dsf (Z.to_nat (R - 1))), (c01 ++ c2 ++ c3), c4, (fst w3), _. split; [now rewrite <- !app_assoc|]. split; [exact Ds|]. split; [exact Na|]. split; [lia|].
      replace (Z.to_nat R) with (S (Z.to_nat (R - 1))) by lia.
      split; [|split; [|split; [|exact Hm]]].
      - rewrite !mlab_app, HI, HD, (mlab_Gn _ anc) by exact HG. rewrite times_snoc. now rewrite <- app_assoc.
      - destruct O as [_ (cb & cd & ls & -> & _ & T & _)]. rewrite <- app_assoc in T. exact T.
      - specialize (As _ (Nat.le_refl _)). destruct (Z.to_nat (R - 1)) as [|n]; [now right|left]. exact As.
    Qed.
  End Google.
End Parts.
