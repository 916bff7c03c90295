(** The six memory experiments on any layout. *)
From Coq Require Import QArith Qcanon.
From Verif Require Import Base Lib StimM SetupM NoiseM SpecNoise NoiseP LayoutM DetM SpecDet DetP DetCountP
  BlockM ExpM SpecTrack SpecExp TrackP LiftP ExpDetP ExpP ExpP3 ExpP4 ExpP5 ExpP6.
Open Scope Z_scope.

Lemma xzzx_meas_eq ordt (init : layout -> dict string Z -> bool -> ST world circuit) round ord l R di rot reset dets gauge w w' c :
  memory_with ordt init round (log_meas_xzzx ord) l R di rot reset dets gauge w = (w', Ok c) ->
  memory_with ordt init round (log_meas_with (log_meas_xzzx_blocks ord)) l R di rot reset dets gauge w = (w', Ok c).
Proof.
  unfold memory_with, log_meas_xzzx. destruct (R <? 0); [auto|]. destruct (negb (eqb (l_code l) "rotated_surface_code")); [|auto]. intros H.
  apply sbind_ok in H as (w1 & ds & _ & H). apply sbind_ok in H as (w2 & c0 & _ & H). apply sbind_ok in H as (w3 & c1 & _ & H).
  apply sbind_ok in H as (w4 & c2 & _ & H). apply sbind_ok in H as (w5 & c3 & H & _). discriminate.
Qed.

Section Any.
  Context (ordt : nat -> nat -> list string -> list string).
  Definition init_of (k : memory_kind) : layout -> dict string Z -> bool -> blocks :=
    match k with RotCss | UnrotCss | CssPipelined => init_blocks (ordt 1%nat) | _ => init_xzzx_blocks (ordt 1%nat) end.
  Definition meas_of (k : memory_kind) : layout -> bool -> blocks :=
    match k with RotCss | UnrotCss | CssPipelined => log_meas_blocks | _ => log_meas_xzzx_blocks (ordt 2%nat) end.
  Definition round_k (k : memory_kind) (r : nat) : layout -> bool -> blocks :=
    match k with
    | RotCss => css_round (ordt (3 + r)%nat) "rotated_surface_code" | UnrotCss => css_round (ordt (3 + r)%nat) "unrotated_surface_code"
    | CssPipelined => css_pipe_round (ordt (3 + r)%nat) | Xzzx => xzzx_round (ordt (3 + r)%nat) | XzzxPipelined => xzzx_pipe_round (ordt (3 + r)%nat)
    end.
  Lemma round_k_measures k r l reset anc : get_role l "anc" = Ok anc -> measures_only (round_k k r l reset) anc.
  Proof. intros E. destruct k; cbn [round_k]; [now apply css_measures|now apply css_measures|now apply pipe_measures|now apply xzzx_measures|now apply pipe_measures]. Qed.
  Lemma init_of_quiet k l di rot : Forall quiet (init_of k l di rot).
  Proof. destruct k; cbn [init_of]; (apply init_measures || apply init_xzzx_measures). Qed.
  Lemma meas_of_measures k l rot data : get_role l "data" = Ok data -> measures_only (meas_of k l rot) data.
  Proof. intros E. destruct k; cbn [meas_of]; (now apply log_measures) || now apply log_xzzx_measures. Qed.
  Lemma init_of_roles k l di rot : ran (init_of k l di rot) -> exists anc data, get_role l "anc" = Ok anc /\ get_role l "data" = Ok data.
  Proof.
    intros H. destruct k; cbn [init_of] in H; unfold init_blocks, init_xzzx_blocks in H; try (destruct (negb _); [now apply ran_err in H|]);
      (destruct (get_role l "anc") as [anc|]; [|now apply ran_err in H]); (destruct (get_role l "data") as [data|]; [|now apply ran_err in H]); eauto.
  Qed.

  Lemma memory_any k l R di rot reset dets gauge w w' c : wf_inds (inds (fst w)) -> NoDup (labels (snd w)) ->
    memory ordt k l R di rot reset dets gauge w = (w', Ok c) ->
    0 <= R /\ exists anc data, get_role l "anc" = Ok anc /\ get_role l "data" = Ok data /\ NoDup anc /\
    memory_out ordt (snd w) (inds (fst w)) l rot reset gauge dets (Z.to_nat R)
      (lg_blocks (init_of k l di rot)) (fun r => lg_blocks (round_k k r l reset)) (lg_blocks (meas_of k l rot)) c /\
    mlab (lg_blocks (init_of k l di rot)) = [] /\ (forall r, (r < Z.to_nat R)%nat -> mlab (lg_blocks (round_k k r l reset)) = anc) /\
    mlab (lg_blocks (meas_of k l rot)) = data.
  Proof.
    intros W N H.
    assert (E : memory_with ordt (init_with (init_of k)) (fun r => qec_round (round_k k r)) (log_meas_with (meas_of k)) l R di rot reset dets gauge w = (w', Ok c)).
    { destruct k; cbn [memory] in H; try exact H; now apply xzzx_meas_eq. }
    clear H. pose proof (init_of_quiet k l di rot) as Q. apply quiet_blocks in Q as [Q1 Q2].
    assert (exists anc data, get_role l "anc" = Ok anc /\ get_role l "data" = Ok data) as (anc & data & Ea & Ed).
    { unfold memory_with in E. destruct (R <? 0); [discriminate|]. apply sbind_ok in E as (w1 & ds & _ & E). apply sbind_ok in E as (w2 & c0 & _ & E).
      apply sbind_ok in E as (w3 & c1 & E & _). apply init_ran in E. eapply init_of_roles; eauto. }
    destruct (only_ok _ _ (meas_of_measures k l rot data Ed)) as [Om Hm].
    pose proof (fun r => only_ok _ _ (round_k_measures k r l reset anc Ea)) as Hr.
    destruct (memory_parts ordt _ _ _ _ _ _ _ _ _ _ _ _ _ W N Q1 (fun r => proj1 (Hr r)) Om E) as (HR & M & _ & Rr & Rm).
    split; [exact HR|]. exists anc, data. split; [exact Ea|]. split; [exact Ed|]. split.
    { destruct M as [(ancs & ds & dsf & c01 & c2 & c3 & c4 & w2 & m3 & _ & Ea' & _ & _ & _ & Ht & _)]. rewrite Ea in Ea'. injection Ea' as <-.
      apply trace_state in Ht as [_ D]. apply D. }
    split; [exact M|]. split; [exact Q2|]. split; [intros r Hi; apply Hr; auto|auto].
  Qed.
  Lemma google_any l R di rot dets gauge w w' c : wf_inds (inds (fst w)) -> NoDup (labels (snd w)) ->
    memory_google ordt l R di rot dets gauge w = (w', Ok c) ->
    1 <= R /\ exists anc data, get_role l "anc" = Ok anc /\ get_role l "data" = Ok data /\ NoDup anc /\
    google_out ordt (snd w) (inds (fst w)) l rot gauge dets (Z.to_nat (R - 1))
      (lg_blocks (init_xzzx_blocks (ordt 1%nat) l di rot)) (fun r => lg_blocks (google_round (ordt (3 + r)%nat) l))
      (lg_blocks (google_meas (ordt 2%nat) l rot)) c /\
    mlab (lg_blocks (init_xzzx_blocks (ordt 1%nat) l di rot)) = [] /\
    (forall r, (r < Z.to_nat (R - 1))%nat -> mlab (lg_blocks (google_round (ordt (3 + r)%nat) l)) = anc) /\
    mlab (lg_blocks (google_meas (ordt 2%nat) l rot)) = anc ++ data.
  Proof.
    intros W N H. destruct (google_parts _ _ _ _ _ _ _ _ _ _ W N H) as (HR & M & Rr & Rm). split; [exact HR|].
    assert (exists anc data, get_role l "anc" = Ok anc /\ get_role l "data" = Ok data) as (anc & data & Ea & Ed).
    { unfold memory_google in H. destruct (R <=? 0); [discriminate|]. apply sbind_ok in H as (w1 & ds & _ & H). apply sbind_ok in H as (w2 & c0 & _ & H).
      apply sbind_ok in H as (w3 & c1 & H & _). apply init_ran in H. apply (init_of_roles Xzzx l di rot H). }
    exists anc, data. split; [exact Ea|]. split; [exact Ed|]. split.
    { destruct M as [(ancs & ds & dsf & c01 & c2 & c3 & c4 & w2 & m3 & _ & Ea' & _ & _ & _ & Ht & _)]. rewrite Ea in Ea'. injection Ea' as <-.
      apply trace_state in Ht as [_ D]. apply D. }
    split; [exact M|]. split; [apply quiet_blocks, init_xzzx_measures|]. split.
    - intros r Hi. apply google_measures; auto.
    - apply (google_meas_measures _ l rot anc data Ea Ed). exact Rm.
  Qed.

  Lemma C38_lemma k l R di rot reset dets gauge w w' c : wf_inds (inds (fst w)) -> NoDup (labels (snd w)) ->
    memory ordt k l R di rot reset dets gauge w = (w', Ok c) ->
    exists anc data, get_role l "anc" = Ok anc /\ get_role l "data" = Ok data /\ NoDup anc /\
      at_inds (inds (fst w)) (times (Z.to_nat R) anc ++ data) (measured c).
  Proof.
    intros W N H. destruct (memory_any _ _ _ _ _ _ _ _ _ _ _ W N H) as (_ & anc & data & Ea & Ed & Nd & M & HI & HG & HD).
    exists anc, data. repeat (split; [assumption|]). eapply memory_measured; eauto.
  Qed.
  Lemma C38_google_lemma l R di rot dets gauge w w' c : wf_inds (inds (fst w)) -> NoDup (labels (snd w)) ->
    memory_google ordt l R di rot dets gauge w = (w', Ok c) ->
    exists anc data, get_role l "anc" = Ok anc /\ get_role l "data" = Ok data /\ NoDup anc /\
      at_inds (inds (fst w)) (times (Z.to_nat R) anc ++ data) (measured c).
  Proof.
    intros W N H. destruct (google_any _ _ _ _ _ _ _ _ _ W N H) as (HR & anc & data & Ea & Ed & Nd & M & HI & HG & HD).
    exists anc, data. repeat (split; [assumption|]). replace (Z.to_nat R) with (S (Z.to_nat (R - 1))) by lia. eapply google_measured; eauto.
  Qed.
  Lemma C39_lemma k l R di rot reset dets gauge w w' c anc : wf_inds (inds (fst w)) -> NoDup (labels (snd w)) ->
    get_role l "anc" = Ok anc -> Permutation (labels (snd w)) anc ->
    memory ordt k l R di rot reset dets gauge w = (w', Ok c) ->
    exists stabs, get_stabs l (basis_type rot) = Ok stabs /\
      number DETECTOR c = (Z.to_nat R * length anc + length stabs)%nat /\ number OBSERVABLE_INCLUDE c = 1%nat.
  Proof.
    intros W N Ea P H. destruct (memory_any _ _ _ _ _ _ _ _ _ _ _ W N H) as (_ & anc' & data & Ea' & Ed & Nd & M & _).
    destruct (memory_count _ _ _ _ _ _ _ _ _ _ _ _ _ M) as (stabs & Es & E1 & E2). exists stabs. split; [exact Es|].
    destruct (count_stabs _ _ _ _ _ Es Ea N P) as [L1 L2]. rewrite E1, L1, L2. now split.
  Qed.
  Lemma C39_google_lemma l R di rot dets gauge w w' c anc : wf_inds (inds (fst w)) -> NoDup (labels (snd w)) ->
    get_role l "anc" = Ok anc -> Permutation (labels (snd w)) anc ->
    memory_google ordt l R di rot dets gauge w = (w', Ok c) ->
    exists stabs, get_stabs l (basis_type rot) = Ok stabs /\
      number DETECTOR c = (Z.to_nat R * length anc + length stabs)%nat /\ number OBSERVABLE_INCLUDE c = 1%nat.
  Proof.
    intros W N Ea P H. destruct (google_any _ _ _ _ _ _ _ _ _ W N H) as (HR & anc' & data & Ea' & Ed & Nd & M & _).
    destruct (google_count _ _ _ _ _ _ _ _ _ _ _ _ M) as (stabs & Es & E1 & E2). exists stabs. split; [exact Es|].
    destruct (count_stabs _ _ _ _ _ Es Ea N P) as [L1 L2]. rewrite E1, L1, L2. split; [|exact E2].
    replace (Z.to_nat R) with (S (Z.to_nat (R - 1))) by lia. reflexivity.
  Qed.
End Any.
