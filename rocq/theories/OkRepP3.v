(** Experiments with repeated transversal gates on the generated layouts return a circuit. *)
From Coq Require Import QArith Qcanon.
From Verif Require Import Base Lib StimM SetupM NoiseM SpecNoise NoiseP LayoutM SpecLayout LayoutP LayoutP2 MatM DetM SpecDet DetP DetCountP
  GenM GenP SpecGen GeomP RotP RotP2 UnrotP BlockM LogM SpecLog ExpM SpecTrack TrackP ActP RoundP RoundTopP OneP LiftP ExpP ExpP2 ExpP3 ExpP4 ExpP5 RepP5 RepP6 RepP7 RepP8
  LogP LogP2 LogP4 LogP7 LogP8 LogP12 LogP13 SignP3 SpecOk OkP OkP2 OkP3 OkP4 OkP5 OkRepP OkRepP2.
Open Scope Z_scope.
Local Opaque rot_ps unrot_ps.

Section Planar.
  Context (l : layout) (shifts : list (Z * Z)) (dirn : Z * Z -> string) (pt : Qc * Qc) (ps : list placed).
  Hypothesis P : planar l shifts dirn pt ps.
  Hypothesis Hs : NoDup shifts.
  Hypothesis Ho : l_order l = rot_order \/ l_order l = unrot_order.
  Hypothesis Logs : forall rot : bool, exists lq qs, first_log l = Ok lq /\ dget lq (if rot then l_logx l else l_logz l) = Some qs /\ incl qs (labs ps KD).
  Context (ordt : nat -> nat -> list string -> list string) (ordp : nat -> nat -> list (string * string) -> list (string * string)).
  Hypothesis Hord : forall t k s, Permutation (ordt t k s) s.
  Context (di : dict string Z) (dets : option (list string)) (m : model) (d : detectors).
  Hypothesis F : fits l di dets m d.
  Context (k : repeated_kind) (lq : string) (nd : dict string (list string)).
  Hypothesis El : first_log l = Ok lq.
  Hypothesis En : new_stab_dict l (rep_prefix k ++ lq) = Ok nd.
  Hypothesis Sh : shape nd.
  Hypothesis Dom : forall x, In x (ancs ps) <-> dmem x nd = true.
  Hypothesis Fg : incl (dkeys (l_nodes l)) (dkeys (inds m)) -> incl (labs ps KD) (dkeys (inds m)) -> forall t, allfine (inds m) (rep_bl k (ordt t) (ordp t) l).
  Hypothesis Hc : l_code l = (match k with SRot | SPipelined => "rotated_surface_code" | _ => "unrotated_surface_code" end)%string.
  Lemma rep_kind_total n R rot reset gauge : 0 <= R -> gates_ok k n -> returns (repeated ordt ordp k l n R di rot reset dets gauge (m, d)).
  Proof.
    intros HR [Hn He]. pose proof (fit_all l _ _ _ _ P _ _ _ _ F) as Hq. pose proof (fit_wf l _ _ _ _ F) as W. destruct (fit_ancs l _ _ _ _ P _ _ _ _ F) as [Ka Kd].
    destruct (made_ok _ (ft_made _ _ _ _ _ F)) as [Nl Cl]. pose proof (pn_anc _ _ _ _ _ P) as Ea. pose proof (pn_data _ _ _ _ _ P) as Ed.
    assert (Ia : incl (ancs ps) (dkeys (inds m))) by (eapply in_ancs; eauto). assert (Id : incl (labs ps KD) (dkeys (inds m))) by (eapply in_kind; eauto).
    assert (Sb := stab_ok l shifts dirn pt ps P Hs). assert (Co := coords_ok l shifts dirn pt ps P (inds m) Hq).
    rewrite rep_eq.
    apply (repeated_total (inds m) W d l (ancs ps) (labs ps KD) Ea Ed Ia Id (nodup_ancs l _ _ _ _ P) Sb Logs Nl Ka Cl Co m eq_refl (ft_ready _ _ _ _ _ F) ordt Hord); auto.
    - destruct k; auto.
    - eapply init_fine; eauto. apply (ft_init _ _ _ _ _ F).
    - intros t. split; [|now apply rep_meas]. destruct k; cbn [rep_it]; [eapply css_fine|eapply css_pipe_fine|eapply css_fine|eapply css_fine]; eauto.
    - intros b. eapply log_meas_fine; eauto.
    - intros t r w S. rewrite rep_gate_eq.
      assert (In2 : forall x v, In (x, v) nd -> In x (ancs ps) /\ incl v (ancs ps)) by (apply shape_inside; auto; eapply new_stab_keys; eauto).
      assert (Rg : ~ singular_map (labels d) (DUpdD nd)) by (apply shape_regular; [exact Sh|]; intros x Hx; apply Ka; now apply Dom).
      eapply gate2; [..|exact S]; eauto.
      + exact (labs ps KD).
      + apply Fg; [apply (ft_qubits _ _ _ _ _ F)|exact Id].
      + apply unit_quiet, rep_unit.
  Qed.
End Planar.

Lemma C80_lemma ordt ordp k a l0 l l1 l2 dq n R di rot reset dets gauge w :
  (forall t i s, Permutation (ordt t i s) s) -> (forall t i s, Permutation (ordp t i s) s) ->
  rep_generates k a = Ok l0 -> annotated structure l0 l -> rep_sets k l dq = Ok l1 -> annotated (rep_label k a :: structure) l1 l2 ->
  fits l2 di dets (fst w) (snd w) -> 0 <= R -> gates_ok k n -> returns (repeated ordt ordp k l2 n R di rot reset dets gauge w).
Proof.
  intros Hp Hpp G A S B F HR Hn. destruct w as [m d]. cbn [fst snd] in F.
  assert (Rot : rot_surface_code_rectangle a = Ok l0 -> set_trans_s_rot l dq = Ok l1 -> annotated (("trans-s_" ++ ga_log a) :: structure)%string l1 l2 -> k = SRot \/ k = SPipelined ->
    returns (repeated ordt ordp k l2 n R di rot reset dets gauge (m, d))).
  { clear G S B. intros G S B Ek. pose proof (after_all l0 l l1 l2 A _ (s_rot_touched _ _ _ S) B) as T. destruct (rot_big a l0 l l1 dq A G S) as [Hx Hz].
    destruct (rot_after _ _ _ G (annotated_touched _ _ _ A)) as (P & Hlog & Hc & Edx & Edz & _). destruct (rot_after _ _ _ G T) as (P2 & Hlog2 & Hc2 & _).
    destruct (rot_s_labels_at (ordt 0%nat) (Hp 0%nat) a l l1 l2 dq P Hlog Hc Edx Edz S (annotated_touched _ _ _ B)) as (pf & loc & nd & Hpf & El & End & LA & At & _).
    destruct (rot_planar a ltac:(lia) ltac:(lia)) as (l' & r & E' & _ & _ & P' & L1 & L2 & L3 & _ & _ & L6 & L7). rewrite G in E'. injection E' as <-.
    destruct (touched_fields _ _ _ T) as (_ & F2 & _ & _ & F5 & F6 & _ & _ & F9).
    eapply (rep_kind_total l2 _ _ _ _ P2) with (lq := ga_log a) (nd := nd); eauto; try (destruct Ek as [-> | ->]; assumption).
    - repeat constructor; cbn; intuition congruence.
    - left. congruence.
    - intros b. exists (ga_log a). rewrite F5, F6. destruct b; rewrite ?L2, ?L3; eexists; (split; [exact El|]); cbn [dget]; rewrite eqb_refl; (split; [reflexivity|]);
        [apply logx_data|apply logz_data]; lia.
    - apply LA.
    - apply LA.
    - intros Hq Hd t. assert (X : allfine (inds m) (trans_s_blocks (ordt t) (ordp t) l2)); [|destruct Ek as [-> | ->]; exact X].
      eapply s_fine; eauto; [apply P2|]. unfold trans_code_ok. now rewrite Hc2. }
  assert (Uns : unrot_surface_code_rectangle a = Ok l0 -> set_trans_s_unrot l dq = Ok l1 -> annotated (("trans-s_" ++ ga_log a) :: structure)%string l1 l2 -> k = SUnrot ->
    returns (repeated ordt ordp k l2 n R di rot reset dets gauge (m, d))).
  { clear G S B Rot. intros G S B ->. pose proof (after_all l0 l l1 l2 A _ (s_unrot_touched _ _ _ S) B) as T. destruct (unrot_s_big a l0 l l1 dq A G S) as [Hx Hz].
    destruct (unrot_after _ _ _ G (annotated_touched _ _ _ A)) as (P & Hlog & Hc & Edx & Edz & _). destruct (unrot_after _ _ _ G T) as (P2 & Hlog2 & Hc2 & _).
    destruct (unrot_s_facts a l l1 l2 dq P Hlog Hc Edx Edz (annotated_touched _ _ _ B) S) as (c0 & e & tab & cz & s & nd & _ & _ & _ & _ & _ & _ & _ & Hpf & El & End & LA & At & _).
    destruct (unrot_planar a ltac:(lia) ltac:(lia)) as (l' & r & E' & _ & _ & P' & L1 & L2 & L3 & _ & _ & L6 & L7). rewrite G in E'. injection E' as <-.
    destruct (touched_fields _ _ _ T) as (_ & F2 & _ & _ & F5 & F6 & _ & _ & F9).
    eapply (rep_kind_total l2 _ _ _ _ P2) with (lq := ga_log a) (nd := nd); eauto.
    - repeat constructor; cbn; intuition congruence.
    - right. congruence.
    - intros b. exists (ga_log a). rewrite F5, F6. destruct b; rewrite ?L2, ?L3; eexists; (split; [exact El|]); cbn [dget]; rewrite eqb_refl; (split; [reflexivity|]);
        [apply ulogx_data|apply ulogz_data]; lia.
    - apply LA.
    - apply LA.
    - intros Hq Hd t. eapply s_fine; eauto; [apply P2|]. unfold trans_code_ok. now rewrite Hc2. }
  assert (Unh : unrot_surface_code_rectangle a = Ok l0 -> set_trans_h l dq = Ok l1 -> annotated (("trans-h_" ++ ga_log a) :: structure)%string l1 l2 -> k = HUnrot ->
    returns (repeated ordt ordp k l2 n R di rot reset dets gauge (m, d))).
  { clear G S B Rot Uns. intros G S B ->. pose proof (after_all l0 l l1 l2 A _ (h_touched _ _ _ S) B) as T. destruct (unrot_h_big a l0 l l1 dq A G S) as [Hx Hz].
    destruct (unrot_after _ _ _ G (annotated_touched _ _ _ A)) as (P & Hlog & Hc & Edx & Edz & _). destruct (unrot_after _ _ _ G T) as (P2 & Hlog2 & Hc2 & _).
    destruct (unrot_h_labels_at a l l1 l2 dq P Hlog Hc S (annotated_touched _ _ _ B)) as (pf & nd & Hpf & El & End & LA & _ & _ & At & _).
    destruct (unrot_planar a ltac:(lia) ltac:(lia)) as (l' & r & E' & _ & _ & P' & L1 & L2 & L3 & _ & _ & L6 & L7). rewrite G in E'. injection E' as <-.
    destruct (touched_fields _ _ _ T) as (_ & F2 & _ & _ & F5 & F6 & _ & _ & F9).
    eapply (rep_kind_total l2 _ _ _ _ P2) with (lq := ga_log a) (nd := nd); eauto.
    - repeat constructor; cbn; intuition congruence.
    - right. congruence.
    - intros b. exists (ga_log a). rewrite F5, F6. destruct b; rewrite ?L2, ?L3; eexists; (split; [exact El|]); cbn [dget]; rewrite eqb_refl; (split; [reflexivity|]);
        [apply ulogx_data|apply ulogz_data]; lia.
    - apply LA.
    - apply LA.
    - intros Hq Hd t. cbn [rep_bl]. eapply (h_fine (inds m) l2 _ _ _ _ (Hp t) (Hpp t)) with (loc := fun _ => "H"%string); eauto. apply P2. }
  destruct k; cbn [rep_generates rep_sets rep_label] in *; auto.
Qed.

Lemma rep_raises ordt ordp k l n R di rot reset dets gauge w : R < 0 \/ ~ gates_ok k n -> repeated ordt ordp k l n R di rot reset dets gauge w = (w, Err ValueError).
Proof.
  intros H. rewrite rep_eq. unfold repeated_with. destruct (Z.ltb_spec R 0) as [|HR]; [reflexivity|]. destruct H as [H|H]; [lia|].
  assert (G : ((n <? 0) || (negb (swaps_basis k) && (n mod 2 =? 1)))%bool = true); [|now rewrite G].
  destruct (Z.ltb_spec n 0) as [|Hn]; [reflexivity|]. cbn [orb]. unfold gates_ok in H.
  assert (E : k <> HUnrot /\ Z.even n = false).
  { destruct k; (split; [try discriminate|destruct (Z.even n); [exfalso; apply H; auto|reflexivity]]); exfalso; apply H; auto. }
  destruct E as [K E]. replace (swaps_basis k) with false by (destruct k; [reflexivity..|congruence]). cbn [negb andb]. rewrite Zmod_even, E. reflexivity.
Qed.
Lemma rep_timed ordt ordp k l n R di rot reset dets gauge w : timed (fst w) -> raises (repeated ordt ordp k l n R di rot reset dets gauge w).
Proof.
  intros T. destruct (repeated ordt ordp k l n R di rot reset dets gauge w) as [w' [c|e]] eqn:E; [|exists e; reflexivity]. exfalso.
  rewrite rep_eq in E. unfold repeated_with in E. destruct (R <? 0); [discriminate|]. destruct (_ || _)%bool; [discriminate|].
  apply sbind_ok in E as (w1 & ds & H1 & E). unfold slift in H1. injection H1 as <- _.
  apply sbind_ok in E as (w2 & c0 & H2 & E). apply sbind_ok in E as (w3 & c1 & H3 & E). unfold init_qubits in H3.
  destruct (init_raises (init_blocks (ordt 1%nat)) l di rot w2) as [e He]; [eapply start_static; eauto|apply init_blocks_idle|]. rewrite H3 in He. discriminate.
Qed.
