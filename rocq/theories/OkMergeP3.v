(** Merged rounds, merged measurements and initializations of two layouts do not raise. *)
From Coq Require Import QArith Qcanon.
From Verif Require Import Base Lib StimM SetupM MatM MatP DetM SpecDet DetP DetCountP NoiseM SpecNoise NoiseP LayoutM LayoutP BlockM ExpM MergeM SpecMerge MergeP SpecTrack SpecExp TrackP LiftP ExpP ExpP2 ExpP3 ExpP4 ExpP5
  CnotP7 CnotP8 SpecOk OkP OkP2 OkP3 OkRepP OkRepP2 OkMergeP.
Open Scope Z_scope.

(** * Two generators in turn *)
Lemma weave_fine qi A B : allfine qi A -> allfine qi B -> allfine qi (weave A B).
Proof.
  unfold allfine. revert B. induction A as [|a A IH]; intros B FA FB; [constructor|]. destruct B as [|b B]; [constructor|]. cbn [weave].
  inversion FA; inversion FB; subst. repeat constructor; auto.
Qed.
Lemma weave_ok A B : ok_blocks A -> ok_blocks B -> ok_blocks (weave A B).
Proof.
  unfold ok_blocks. revert B. induction A as [|a A IH]; intros B FA FB; [constructor|]. destruct B as [|b B]; [constructor|]. cbn [weave].
  inversion FA; inversion FB; subst. repeat constructor; auto.
Qed.
Lemma lg_cons b (bl : blocks) : lg_blocks (b :: bl) = lg_blocks [b] ++ lg_blocks bl.
Proof. unfold lg_blocks. cbn [flat_map]. now rewrite app_nil_r. Qed.
Lemma weave_count a A B : length A = length B -> count a (mlab (lg_blocks (weave A B))) = (count a (mlab (lg_blocks A)) + count a (mlab (lg_blocks B)))%nat.
Proof.
  revert B. induction A as [|x A IH]; intros [|y B] E; try discriminate E; [reflexivity|]. cbn [weave].
  rewrite (lg_cons x), (lg_cons y), (lg_cons x A), (lg_cons y B), !mlab_app, !count_app', IH by (cbn in E; lia). lia.
Qed.
Lemma fine_of qi b : fine_block qi b -> forall l, b = Ok l -> Forall of_block l.
Proof.
  intros (l & -> & F) l' [= <-]. eapply Forall_impl; [|exact F]. intros [o qs|]; cbn; [|auto]. now intros [B _].
Qed.
Lemma F2_len {A B} (R : A -> B -> Prop) x y : Forall2 R x y -> length x = length y.
Proof. induction 1; cbn; congruence. Qed.

Section Two.
  Context (qi : dict string Z) (W : SpecNoise.wf_inds qi) (d0 : detectors) (ancs : list string).
  Context (k : mkind) (sp : setup).
  Hypothesis U1 : forall p q q', param sp p [q] = param sp p [q'].
  Hypothesis U2 : forall p q q' r r', param sp p [q; q'] = param sp p [r; r'].
  Context (fuse : bool) (show : arg -> arg).
  Context (Ka : incl ancs (dkeys qi)) (Na : NoDup ancs).
  Definition st3 (n : nat) (w : world) : Prop := st2 qi d0 ancs n w /\ kind (fst w) = k /\ stp (fst w) = sp.
  Lemma ready_kind m : ready m -> match kind m with Exper | Decoh _ => False | _ => True end.
  Proof. unfold ready. destruct (kind m); auto. Qed.

  Lemma zip_step A B m L c0 : tracked qi m L c0 -> ready m -> kind m = k -> stp m = sp -> allfine qi A -> allfine qi B -> ok_blocks A -> ok_blocks B -> Forall2 alike A B ->
    exists m' c x, merged_blocks fuse [A; B] m = (m', Ok c) /\ tracked qi m' (L ++ lg_blocks (weave A B)) (c0 ++ x) /\ ready m' /\ kind m' = k /\ stp m' = sp.
  Proof.
    intros T R Hk Hs FA FB OA OB Al.
    destruct (run_blocks_total qi W (weave A B) m (measured c0) (tk_qi _ _ _ _ T) (tk_inv _ _ _ _ T) R (weave_fine _ _ _ FA FB)) as (m' & x & E & Ss & _).
    pose proof (ready_kind _ R) as Rk. rewrite Hk in Rk.
    destruct (zip_total k sp U1 U2 Rk fuse A B Al) with (n := S (length A)) (acc := @nil instr) (m := m) (m' := m') (x := x) as [c Ec]; auto.
    { eapply Forall_impl; [|exact FA]. intros b. apply fine_of. }
    exists m', c, x. split; [exact Ec|]. split; [eapply tracked_blocks; eauto using weave_ok|]. split; [eapply ready_static; eauto|]. destruct Ss as (S1 & S2 & _). split; congruence.
  Qed.
  Lemma fine_ran bl m L c0 : tracked qi m L c0 -> ready m -> allfine qi bl -> ok_blocks bl -> ran bl.
  Proof. intros T R F O. now destruct (blocks_step qi W bl m L c0 T R F O) as (? & ? & _ & _ & _ & H). Qed.

  Lemma dets_two l1 l2 a1 a2 ds : get_role l1 "anc" = Ok a1 -> get_role l2 "anc" = Ok a2 -> incl ds (a1 ++ a2) -> dets_ok [l1; l2] (Some ds) = Ok true.
  Proof. intros E1 E2 H. unfold dets_ok. cbn [mapM]. rewrite E1, E2. cbn [bind concat app]. rewrite app_nil_r, not_superset by exact H. reflexivity. Qed.

  Lemma round3 it l1 l2 a1 a2 reset ds n w : st3 n w -> incl ds ancs -> get_role l1 "anc" = Ok a1 -> get_role l2 "anc" = Ok a2 ->
    (forall a, In a ancs -> In a (a1 ++ a2)) ->
    allfine qi (it 0%nat l1 reset) -> allfine qi (it 1%nat l2 reset) -> only (it 0%nat l1 reset) a1 -> only (it 1%nat l2 reset) a2 ->
    Forall2 alike (it 0%nat l1 reset) (it 1%nat l2 reset) ->
    exists w' c, merge_qec_rounds fuse it [l1; l2] reset (Some ds) w = (w', Ok c) /\ st3 (S n) w'.
  Proof.
    intros ((L & c0 & T & R & D & C) & Hk & Hs) Hd E1 E2 Hi F1 F2 [O1 M1] [O2 M2] Al. destruct w as [m dd]. cbn [fst snd] in *.
    specialize (M1 (fine_ran _ _ _ _ T R F1 O1)). specialize (M2 (fine_ran _ _ _ _ T R F2 O2)).
    destruct (zip_step _ _ m L c0 T R Hk Hs F1 F2 O1 O2 Al) as (m' & c & x & E & T' & R' & Hk' & Hs').
    assert (C' : forall a, In a ancs -> (S n <= count a (mlab (L ++ lg_blocks (weave (it 0%nat l1 reset) (it 1%nat l2 reset)))))%nat).
    { intros a H. rewrite mlab_app, count_app', (weave_count a _ _ (F2_len _ _ _ Al)), M1, M2. specialize (C a H). specialize (Hi a H). pose proof (count_own a _ Hi) as Q. rewrite count_app' in Q. lia. }
    destruct (live_anc d0 ancs n dd (meas_target m') reset ds D Hd) as (d' & y & B & D').
    { intros a j H Hj. eapply target_total; [exact W|eassumption|auto|]. specialize (C' a H). lia. }
    exists (m', d'), (cat fuse c y). split.
    - unfold merge_qec_rounds. unfold slift at 1, sbind at 1. rewrite (dets_two _ _ _ _ _ E1 E2) by (intros a Ha; auto). cbv beta iota. cbn [negb].
      unfold enumerate. cbn [enumerate_from map fst snd]. unfold sbind at 1, onm. cbn [fst snd]. rewrite E. unfold sbind, ond. cbn [fst snd]. now rewrite B.
    - split; [|cbn [fst]; auto]. exists (L ++ lg_blocks (weave (it 0%nat l1 reset) (it 1%nat l2 reset))), (c0 ++ x). auto.
  Qed.

  (* what a layout must have for its measurement *)
  Definition measurable (l : layout) (data : list string) (rot : bool) : Prop :=
    (exists stabs, get_stabs l (basis_type rot) = Ok stabs /\ incl stabs ancs /\
       exists sup, support_from_adj l stabs = Ok sup /\ incl stabs (dkeys sup) /\ forall a qs, dget a sup = Some qs -> incl qs data) /\
    (forall lq, In lq (l_logs l) -> exists qs, dget lq (if rot then l_logx l else l_logz l) = Some qs /\ incl qs data).
  Lemma dupdate_dec {V} (d d' : dict string V) a v : dget a (dupdate d d') = Some v -> dget a d = Some v \/ exists v', In (a, v') d' /\ v' = v.
  Proof.
    unfold dupdate. revert d. induction d' as [|[x y] d' IH]; intros d H; cbn [fold_left] in H; [now left|]. apply IH in H as [H|(v' & H & E)].
    - cbn [fst snd] in H. rewrite dget_dset in H. destruct (eqb_spec x a) as [->|]; [injection H as ->; right; exists v; split; [now left|reflexivity]|now left].
    - right. exists v'. split; [now right|exact E].
  Qed.
  Lemma dupdate_key {V} (d d' : dict string V) a : In a (dkeys d) \/ In a (dkeys d') -> In a (dkeys (dupdate d d')).
  Proof.
    unfold dupdate. revert d. induction d' as [|[x y] d' IH]; intros d H; cbn [fold_left]; [destruct H as [H|[]]; exact H|]. apply IH. cbn [fst snd].
    destruct (eqb_spec x a) as [->|N].
    - left. eapply dget_Some_key. rewrite dget_dset, eqb_refl. reflexivity.
    - destruct H as [H|[H|H]]; [|contradiction|now right]. left. destruct (key_get a d H) as [v E]. eapply dget_Some_key. rewrite dget_dset. destruct (eqb_spec x a); [contradiction|exact E].
  Qed.
  Lemma observables_total m L c0 data j l rot : tracked qi m L c0 -> incl data (dkeys qi) -> (forall q, In q data -> (1 <= count q (mlab L))%nat) -> measurable l data rot ->
    exists os, layout_observables m j (l, rot) = Ok os.
  Proof.
    intros T Kd C [_ Lg]. unfold layout_observables. apply mapM_total. intros [i lq] H.
    assert (Hl : In lq (l_logs l)).
    { apply (in_map snd) in H. cbn [snd] in H. assert (X : forall n (x : list string), map snd (enumerate_from n x) = x) by (clear; intros n x; revert n; induction x; intros; cbn; congruence).
      unfold enumerate in H. now rewrite X in H. }
    cbn [fst snd]. destruct (Lg lq Hl) as (qs & E & Hq). unfold dget_err. rewrite E. cbn [of_opt bind].
    destruct (mapM_total (fun q => meas_target m q (-1)) qs) as [ts Et]; [|rewrite Et; cbn; eauto].
    { intros q Hin. change (-1) with (- Z.of_nat 1). eapply target_total; [exact W|eassumption|auto|]. specialize (C q (Hq q Hin)). lia. }
  Qed.
  Lemma meas3 l1 l2 a1 a2 data1 data2 rot reset ds n w : st3 n w -> incl ds ancs -> get_role l1 "anc" = Ok a1 -> get_role l2 "anc" = Ok a2 ->
    (forall a, In a ancs -> In a (a1 ++ a2)) ->
    get_role l1 "data" = Ok data1 -> get_role l2 "data" = Ok data2 -> incl data1 (dkeys qi) -> incl data2 (dkeys qi) ->
    allfine qi (log_meas_blocks l1 rot) -> allfine qi (log_meas_blocks l2 rot) -> Forall2 alike (log_meas_blocks l1 rot) (log_meas_blocks l2 rot) ->
    measurable l1 data1 rot -> measurable l2 data2 rot ->
    exists w' c, merge_log_meas fuse (fun _ => log_meas_blocks) [l1; l2] [rot; rot] reset (Some ds) w = (w', Ok c).
  Proof.
    intros ((L & c0 & T & R & D & C) & Hk & Hs) Hd E1 E2 Hi D1 D2 K1 K2 F1 F2 Al M1 M2. destruct w as [m dd]. cbn [fst snd] in *.
    destruct (only_ok _ _ (log_measures l1 rot data1 D1)) as [O1 N1]. destruct (only_ok _ _ (log_measures l2 rot data2 D2)) as [O2 N2].
    specialize (N1 (fine_ran _ _ _ _ T R F1 O1)). specialize (N2 (fine_ran _ _ _ _ T R F2 O2)).
    destruct (zip_step _ _ m L c0 T R Hk Hs F1 F2 O1 O2 Al) as (m' & c & x & E & T' & R' & _).
    set (L' := L ++ lg_blocks (weave (log_meas_blocks l1 rot) (log_meas_blocks l2 rot))) in *.
    assert (Cn : forall q, count q (mlab L') = (count q (mlab L) + (count q data1 + count q data2))%nat).
    { intros q. unfold L'. now rewrite mlab_app, count_app', (weave_count q _ _ (F2_len _ _ _ Al)), N1, N2. }
    assert (C1 : forall q, In q data1 -> (1 <= count q (mlab L'))%nat) by (intros q Hq; rewrite Cn; pose proof (count_own q data1 Hq); lia).
    assert (C2 : forall q, In q data2 -> (1 <= count q (mlab L'))%nat) by (intros q Hq; rewrite Cn; pose proof (count_own q data2 Hq); lia).
    pose proof M1 as [(s1 & S1 & I1 & sup1 & P1 & Q1 & V1) _]. pose proof M2 as [(s2 & S2 & I2 & sup2 & P2 & Q2 & V2) _].
    destruct (live_data d0 ancs n dd (meas_target m') (dupdate (dupdate [] sup1) sup2) reset (s1 ++ s2) ds D Hd) as [y B].
    { intros a Ha. apply in_app_or in Ha as [Ha|Ha]; auto. }
    { intros a Ha. apply in_app_or in Ha as [Ha|Ha]; apply dupdate_key; [left; apply dupdate_key|]; right; auto. }
    { intros a j H Hj. eapply target_total; [exact W|eassumption|auto|]. specialize (C a H). rewrite Cn. lia. }
    { intros a qs q Ha Eq Hq. change (-1) with (- Z.of_nat 1).
      assert (Hx : In q data1 \/ In q data2).
      { apply dupdate_dec in Eq as [Eq|(v & Hv & ->)].
        - apply dupdate_dec in Eq as [Eq|(v & Hv & ->)]; [discriminate|]. left. eapply (V1 a qs); [apply In_dget; [apply (sup_keys _ _ _ P1)|exact Hv]|exact Hq].
        - right. eapply (V2 a qs); [apply In_dget; [apply (sup_keys _ _ _ P2)|exact Hv]|exact Hq]. }
      destruct Hx as [Hx|Hx]; (eapply target_total; [exact W|eassumption|auto|]); [specialize (C1 q Hx)|specialize (C2 q Hx)]; lia. }
    destruct (observables_total m' _ _ data1 0%nat l1 rot T' K1 C1 M1) as [o1 Eo1]. destruct (observables_total m' _ _ data2 1%nat l2 rot T' K2 C2 M2) as [o2 Eo2].
    eexists _, _. unfold merge_log_meas. cbn [length Nat.eqb negb]. unfold slift at 1, sbind at 1. rewrite (dets_two _ _ _ _ _ E1 E2) by (intros a Ha; auto). cbv beta iota. cbn [negb].
    unfold enumerate at 1. cbn [combine enumerate_from map fst snd]. unfold sbind at 1, onm at 1. cbn [fst snd]. rewrite E. cbv beta iota.
    unfold slift at 1, sbind at 1. unfold all_stabs. cbn [foldM fst snd]. rewrite S1. cbn [bind]. rewrite P1. cbn [bind]. rewrite S2. cbn [bind]. rewrite P2. cbn [bind app].
    unfold sbind at 1, ond at 1. cbn [fst snd]. rewrite B. cbv beta iota. unfold sbind, onm, sread. cbn [fst snd]. unfold all_observables, enumerate at 1. cbn [enumerate_from mapM fst snd].
    rewrite Eo1. cbn [bind]. rewrite Eo2. cbn [bind]. reflexivity.
  Qed.
End Two.
