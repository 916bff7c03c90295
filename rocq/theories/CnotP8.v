(** The initialization of two layouts. *)
From Coq Require Import QArith Qcanon.
From Verif Require Import Base Lib StimM SetupM NoiseM SpecNoise NoiseP LayoutM SpecLayout LayoutP LayoutP2 MatM MatP DetM SpecDet DetP DetCountP DetLinP DetDetP
  SpecGen GeomP BlockM LogM SpecLog ExpM SpecTrack SpecExp TrackP LiftP ExpDetP ExpP ExpP2 ExpP3 ExpP4 ExpP5 ExpP8 ExpP9 ExpP13 ActP RoundP RoundTopP RepP RepP2 RepP3 RepP4 RepP5 RepP6
  LogP4 LogP10 MergeM SpecMerge MergeP MergeP2 MergeP3 MergeP4 MergeP5 MergeP6 MergeP7 CnotP CnotP2 CnotP3 CnotP4 CnotP5 CnotP6 CnotP7.
Open Scope Z_scope.

Lemma siter_cat {S A} (f : A -> ST S unit) a b : forall s s' s'', siter f a s = (s', Ok tt) -> siter f b s' = (s'', Ok tt) -> siter f (a ++ b) s = (s'', Ok tt).
Proof.
  induction a as [|x a IH]; intros s s' s'' H1 H2; [cbn in H1; injection H1 as <-; exact H2|]. cbn [siter app] in *.
  apply sbind_ok in H1 as (s1 & [] & H0 & H1). unfold sbind. rewrite H0. eauto.
Qed.
Lemma activate_two a b d0 d1 d2 : activate a (det_new d0) = (d1, Ok tt) -> activate b d1 = (d2, Ok tt) -> activate (a ++ b) (det_new d0) = (d2, Ok tt).
Proof.
  unfold activate. intros H1 H2. destruct (strict_superset a _); [discriminate|]. destruct (strict_superset b _); [discriminate|].
  pose proof (siter_cat _ _ _ _ _ _ H1 H2) as H. pose proof (activate_iter _ _ _ H) as (_ & K & _). unfold strict_superset.
  assert (E : subset (a ++ b) (dkeys (active (det_new d0))) = true); [|rewrite E, andb_false_r; exact H].
  apply subset_spec. intros x Hx. apply K in Hx. unfold act in Hx. exact (dget_Some_key _ _ _ Hx).
Qed.

Lemma rel_back qi g h i : gate_rel qi g h -> meets i h = true -> exists q, dget q qi = Some i /\ meets q g = true.
Proof.
  destruct g as [n q|n a b], h as [n' q'|n' a' b']; cbn; try contradiction.
  - intros [_ D] E. apply eqb_eq in E as ->. exists q. split; [exact D|apply eqb_refl].
  - intros (_ & D1 & D2) E. apply orb_true_iff in E as [E|E]; apply eqb_eq in E as ->; [exists a|exists b]; rewrite eqb_refl, ?orb_true_r; auto.
Qed.
Lemma rel_apart qi Q Q' L M L' M' i : SpecNoise.wf_inds qi -> (forall q, In q Q -> In q Q' -> False) -> lives Q L -> lives Q' L' ->
  Forall2 (gate_rel qi) L M -> Forall2 (gate_rel qi) L' M' -> filter (meets i) M = [] \/ filter (meets i) M' = [].
Proof.
  intros W D V V' F F'.
  assert (K : forall Q L M h, lives Q L -> Forall2 (gate_rel qi) L M -> In h (filter (meets i) M) -> exists q, dget q qi = Some i /\ In q Q).
  { clear. intros Q L M h V F Hh. apply filter_In in Hh as [Hh E]. induction F as [|g x L M R F IH]; [destruct Hh|]. destruct Hh as [->|Hh].
    - destruct (rel_back _ _ _ _ R E) as (q & Dq & Mq). exists q. split; [exact Dq|]. eapply V; [|exact Mq]. now left.
    - apply IH; [|exact Hh]. intros y q Hy. apply V. now right. }
  destruct (filter (meets i) M) as [|h r] eqn:E; [now left|]. right. destruct (filter (meets i) M') as [|h' r'] eqn:E'; [reflexivity|]. exfalso.
  destruct (K Q L M h V F) as (q & Dq & Hq); [rewrite E; now left|]. destruct (K Q' L' M' h' V' F') as (q' & Dq' & Hq'); [rewrite E'; now left|].
  assert (q = q') as <- by (eapply inj_inds; eauto). eauto.
Qed.
Lemma count_nil (l : list Z) : (forall q, count q l = 0%nat) -> l = [].
Proof. destruct l as [|x l]; [reflexivity|]. intros H. specialize (H x). cbn [count] in H. rewrite eqb_refl in H. lia. Qed.
(* a circuit without measurements replaced by an equivalent one *)
Lemma tracks_replace show qi m m2 bl1 bl2 m1 ic it_ c0 c1 Q Q' : tracked qi m [] c0 -> annotations c0 ->
  run_blocks bl1 m = (m1, Ok ic) -> run_blocks bl2 m1 = (m2, Ok it_) -> Forall quiet bl1 -> Forall quiet bl2 -> spaced bl1 -> spaced bl2 ->
  (forall q, In q Q -> In q Q' -> False) -> lives Q (lg_blocks bl1) -> lives Q' (lg_blocks bl2) ->
  merge_circuits show true [ic; it_] = Ok c1 -> tracks qi m2 (lg_blocks bl1 ++ lg_blocks bl2) (c0 ++ c1) /\ Forall (fun i => ~ is_check i) c1 /\ same_model m m2.
Proof.
  intros T A R1 R2 Q1 Q2 S1 S2 D V1 V2 H. destruct (quiet_blocks _ Q1) as [O1 M1]. destruct (quiet_blocks _ Q2) as [O2 M2].
  destruct (tracked_blocks _ _ _ _ _ _ _ T R1 O1) as [T1 _]. destruct (tracked_blocks _ _ _ _ _ _ _ T1 R2 O2) as [T2 _]. cbn [app] in T2.
  pose proof (blocks_gates _ _ _ _ R1 O1) as (_ & F1 & _). pose proof (blocks_gates _ _ _ _ R2 O2) as (_ & F2 & _).
  destruct (blocks_okc _ _ _ _ R1) as (K1 & E1 & Sm1). destruct (blocks_okc _ _ _ _ R2) as (K2 & E2 & Sm2).
  pose proof (tk_wf _ _ _ _ T) as W. pose proof (tk_qi _ _ _ _ T) as EQ. pose proof (tk_qi _ _ _ _ T1) as EQ1. rewrite EQ, EQ1 in *.
  assert (HT : forall t, qubit_target qi t -> tq t) by (intros t (q & i & -> & _); now exists i).
  assert (Ap : forall i, filter (meets i) (gates ic) = [] \/ filter (meets i) (gates it_) = []) by (intros i; eapply (rel_apart qi Q Q'); eauto).
  assert (One : forall k i, (length (filter (meets i) (gates (at_tick k ic) ++ gates (at_tick k it_))) <= 1)%nat).
  { intros k i. rewrite filter_app, app_length.
    assert (X1 := spaced_one bl1 S1 m m1 ic k i ltac:(rewrite EQ; exact W) O1 R1). assert (X2 := spaced_one bl2 S2 m1 m2 it_ k i ltac:(rewrite EQ1; exact W) O2 R2).
    assert (Sub : forall c, filter (meets i) (gates c) = [] -> filter (meets i) (gates (at_tick k c)) = []).
    { intros c Z. apply filter_nil_iff. intros g Hg. assert (Hg' : In g (gates c)).
      { unfold gates, ideal in *. apply in_flat_map in Hg as (a & Ha & Hg). apply in_flat_map in Ha as (j & Hj & Ha). apply in_flat_map. exists a. split; [|exact Hg].
        apply in_flat_map. exists j. split; [eapply at_tick_incl; eauto|exact Ha]. }
      exact (proj1 (filter_nil_iff _ _) Z g Hg'). }
    destruct (Ap i) as [Z|Z]; rewrite (Sub _ Z) in *; cbn [length]; lia. }
  set (N := fun g : gname => g <> DETECTOR /\ g <> OBSERVABLE_INCLUDE) in *.
  pose proof (merge_teq show N (qubit_target qi) HT ic it_ c1 K1 K2 E1 E2 One Ap H) as Te.
  assert (NT : N TICK) by (split; discriminate).
  pose proof (merge_okc show N (qubit_target qi) ic it_ c1 NT K1 K2 E1 E2 H) as Kc.
  assert (F : Forall2 (gate_rel qi) (lg_blocks bl1 ++ lg_blocks bl2) (gates ic ++ gates it_)) by now apply Forall2_app.
  destruct (teq_lift qi _ _ _ W F Te) as (L1 & FL & EL).
  assert (Z0 : mlab (gates ic ++ gates it_) = []).
  { apply mlab_rel in F. rewrite mlab_app, M1, M2 in F. now inversion F. }
  assert (Z1 : mlab (gates c1) = []) by (apply count_nil; intros q; rewrite <- (teq_count _ _ q Te), Z0; reflexivity).
  assert (Mc : measured c1 = []) by (rewrite (tqs_meas c1), Z1 by eauto using okc_tqs; reflexivity).
  assert (Mi : measured ((c0 ++ ic) ++ it_) = []).
  { rewrite (tk_meas _ _ _ _ T2), !LiftP.gates_app, (gates_ann c0 A). cbn [app]. now rewrite Z0. }
  split; [|split; [eapply okc_nocheck; eauto|]].
  - exists L1. split; [|exact EL]. destruct T2 as [W2 Q2' I2 Ky2 _ _]. constructor; auto.
    + rewrite Mi in I2. now rewrite measured_app, Mc, (measured_ann c0 A).
    + rewrite LiftP.gates_app, (gates_ann c0 A). exact FL.
    + now rewrite measured_app, Mc, (measured_ann c0 A), LiftP.gates_app, (gates_ann c0 A), mlab_app, Z1.
  - eapply MergeP3.same_trans; eauto.
Qed.
Lemma still_teq (L L' : list (gate string)) : teq L L' -> still L -> still L'.
Proof.
  assert (Z : forall L : list (gate string), still L <-> bk L (selT (mlab L) (fun _ _ => false)) identity_op identity_op).
  { intros K. unfold still. split; intros B; (eapply bk_ext; [exact B|]); intros k Hk; unfold nosel; [symmetry|]; now apply selT_false. }
  intros T S. apply Z. apply (teq_bk _ _ _ _ _ T). now apply Z.
Qed.
Lemma init_gates2 ord l di rot anc data : (forall k x, Permutation (ord k x) x) -> get_role l "anc" = Ok anc -> get_role l "data" = Ok data ->
  exists exc, incl exc (excited di) /\ lg_blocks (init_blocks ord l di rot) =
    map (G1 GR) (ord 0%nat (dedup (data ++ anc))) ++ map (G1 GX) exc ++ map (G1 GH) (if rot then data else []).
Proof.
  intros Hp Ea Ed. exists (match excited di with [] => [] | _ => ord 1%nat (excited di) end). split.
  - destruct (excited di) as [|x e]; [intros ? []|]. intros q Hq. eapply Permutation_in; [apply Hp|exact Hq].
  - unfold init_blocks. rewrite Ea, Ed. cbn [bind generator]. unfold init_start.
    destruct (excited di) as [|x e], rot; cbn [app lg_blocks lg_block flat_map lg_call std_gate is_two tick_block map]; now rewrite ?app_nil_r, <- ?app_assoc.
Qed.

Section Init.
  Context (lc : layout) (ac dc xc zc lxc lzc : list string) (lt : layout) (at_ dt xt zt lxt lzt : list string).
  Hypothesis Fc : css_facts lc ac dc xc zc lxc lzc.
  Hypothesis Ft : css_facts lt at_ dt xt zt lxt lzt.
  Hypothesis Dis : forall q, In q (dkeys (l_nodes lc)) -> In q (dkeys (l_nodes lt)) -> False.
  Lemma lives_init ord l di dic rot anc data : (forall k x, Permutation (ord k x) x) -> get_role l "anc" = Ok anc -> get_role l "data" = Ok data -> init_part l di = Ok dic ->
    exists R X H, lg_blocks (init_blocks ord l dic rot) = map (G1 GR) R ++ map (G1 GX) X ++ map (G1 GH) H /\ H = (if rot then data else []) /\
      (forall q, In q R <-> In q data \/ In q anc) /\ incl R (dkeys (l_nodes l)) /\ incl X (dkeys (l_nodes l)) /\ incl H (dkeys (l_nodes l)).
  Proof.
    intros Hp Ea Ed Ei. destruct (init_gates2 ord l dic rot anc data Hp Ea Ed) as (exc & Ie & E). exists (ord 0%nat (dedup (data ++ anc))), exc, (if rot then data else []).
    split; [exact E|]. split; [reflexivity|].
    assert (R : forall q, In q (ord 0%nat (dedup (data ++ anc))) <-> In q data \/ In q anc).
    { intros q. rewrite <- in_app_iff, <- (dedup_In (data ++ anc) q). split; apply Permutation_in; [apply Hp|symmetry; apply Hp]. }
    split; [exact R|]. split; [|split].
    - intros q Hq. apply R in Hq as [Hq|Hq]; [eapply role_incl, Hq; exact Ed|eapply role_incl, Hq; exact Ea].
    - intros q Hq. apply Ie in Hq. unfold excited in Hq. apply dedup_In, in_map_iff in Hq as ([k v] & <- & Hq). apply filter_In in Hq as [Hq _].
      unfold init_part, get_qubits in Ei. cbn [bind] in Ei. injection Ei as <-. apply filter_In in Hq as [_ Hq]. now apply mem_In in Hq.
    - destruct rot; [eapply role_incl; exact Ed|intros ? []].
  Qed.
  Lemma jinit show ord1 ord2 di dic dit rot qi d0 w1 w2 w3 ic it_ c0 c1 :
    (forall k x, Permutation (ord1 k x) x) -> (forall k x, Permutation (ord2 k x) x) ->
    init_part lc di = Ok dic -> init_part lt di = Ok dit -> NoDup (labels d0) -> snd w1 = det_new d0 ->
    tracked qi (fst w1) [] c0 -> annotations c0 ->
    init_qubits ord1 lc dic rot w1 = (w2, Ok ic) -> init_qubits ord2 lt dit rot w2 = (w3, Ok it_) -> merge_circuits show true [ic; it_] = Ok c1 ->
    exists I, tracks qi (fst w3) I (c0 ++ c1) /\ (forall sel p, Iok (jancs ac at_) (jdata dc dt) (jh dc dt rot) p -> bk I sel p identity_op) /\ mlab I = [] /\ still I /\
      Forall (fun i => ~ is_check i) c1 /\ same_model (fst w1) (fst w3) /\
      dst2 d0 (jancs ac at_) eqb 0 0 (snd w3) /\ isgen (labels (snd w3)) (prev_gen (snd w3)) eqb /\ isgen (labels (snd w3)) (curr_gen (snd w3)) eqb.
  Proof.
    intros Hp1 Hp2 Pc Pt N Ew T0 A0 H1 H2 Hm.
    assert (Eac := cf_anc _ _ _ _ _ _ _ Fc). assert (Eat := cf_anc _ _ _ _ _ _ _ Ft). assert (Edc := css_data _ _ _ _ _ _ _ Fc). assert (Edt := css_data _ _ _ _ _ _ _ Ft).
    unfold init_qubits, init_with in H1, H2.
    apply sbind_ok in H1 as (x1 & anc' & G1 & H1). unfold slift in G1. injection G1 as <- G1. rewrite Eac in G1. injection G1 as <-.
    apply sbind_ok in H1 as (x2 & [] & G2 & H1). apply ond_ok in G2 as (d1 & G2 & ->). apply onm_ok in H1 as (m1 & H1 & ->). cbn [fst snd] in *.
    apply sbind_ok in H2 as (x3 & anc' & G3 & H2). unfold slift in G3. injection G3 as <- G3. rewrite Eat in G3. injection G3 as <-.
    apply sbind_ok in H2 as (x4 & [] & G4 & H2). apply ond_ok in G4 as (d2 & G4 & ->). apply onm_ok in H2 as (m2 & H2 & ->). cbn [fst snd] in *.
    rewrite Ew in G2. pose proof (activate_two _ _ _ _ _ G2 G4) as Ga.
    destruct (lives_init ord1 lc di dic rot ac dc Hp1 Eac Edc Pc) as (R1 & X1 & Y1 & E1 & EY1 & K1 & IR1 & IX1 & IY1).
    destruct (lives_init ord2 lt di dit rot at_ dt Hp2 Eat Edt Pt) as (R2 & X2 & Y2 & E2 & EY2 & K2 & IR2 & IX2 & IY2).
    assert (Lm : forall l n (s : list string), incl s (dkeys (l_nodes l)) -> lives (dkeys (l_nodes l)) (map (G1 n) s)) by (intros l n s I; eapply lives_incl; [exact I|apply lives_map]).
    assert (V1 : lives (dkeys (l_nodes lc)) (lg_blocks (init_blocks ord1 lc dic rot))) by (rewrite E1; repeat (apply lives_app; split); auto).
    assert (V2 : lives (dkeys (l_nodes lt)) (lg_blocks (init_blocks ord2 lt dit rot))) by (rewrite E2; repeat (apply lives_app; split); auto).
    assert (S1 : spaced (init_blocks ord1 lc dic rot)).
    { apply (init_spaced ord1 lc dic rot dc Hp1 Edc (css_ndata _ _ _ _ _ _ _ Fc)). do 3 eexists; eassumption. }
    assert (S2 : spaced (init_blocks ord2 lt dit rot)).
    { apply (init_spaced ord2 lt dit rot dt Hp2 Edt (css_ndata _ _ _ _ _ _ _ Ft)). do 3 eexists; eassumption. }
    destruct (tracks_replace show qi _ _ _ _ _ _ _ _ _ _ _ T0 A0 H1 H2 (init_measures ord1 lc dic rot) (init_measures ord2 lt dit rot) S1 S2 Dis V1 V2 Hm) as (Tr & Nc & Sm).
    set (I := map (G1 GR) (R1 ++ R2) ++ map (G1 GX) (X1 ++ X2) ++ map (G1 GH) (Y1 ++ Y2)).
    assert (Te : teq I (lg_blocks (init_blocks ord1 lc dic rot) ++ lg_blocks (init_blocks ord2 lt dit rot))).
    { rewrite E1, E2. unfold I. rewrite !map_app. apply (teq_mix3 (dkeys (l_nodes lc)) (dkeys (l_nodes lt)) Dis); auto. }
    exists I. split; [eapply tracks_eq; [exact Tr|exact Te]|].
    split; [|split; [|split; [|split; [exact Nc|split; [exact Sm|]]]]].
    - intros sel p Ip. eapply init_bk; [| |apply (hset_incl (jdata dc dt) rot)| |exact Ip].
      + subst Y1 Y2. destruct rot; [|constructor]. exact (jNd lc ac dc xc zc lxc lzc lt at_ dt xt zt lxt lzt Fc Ft Dis).
      + intros q. subst Y1 Y2. destruct rot; reflexivity.
      + intros q. unfold jdata, jancs. rewrite !in_app_iff, K1, K2. tauto.
    - unfold I. rewrite !mlab_app, !mlab_map. reflexivity.
    - apply (still_teq _ _ (teq_sym _ _ Te)). apply still_app; apply still_blocks.
    - assert (Ds : dst2 d0 (jancs ac at_) eqb 0 0 d2) by (eapply dst2_start; eauto). split; [exact Ds|].
      unfold activate in Ga. destruct (strict_superset _ _); [discriminate|]. apply activate_iter in Ga as (_ & _ & _ & Ep & Ec & _).
      rewrite (proj1 (d2_same _ _ _ _ _ _ Ds)), Ep, Ec. cbn [det_new prev_gen curr_gen]. split; now apply isgen_identity.
  Qed.
End Init.
