(** From the circuits of the QEC rounds to the functions that add the detectors. *)
From Coq Require Import QArith Qcanon.
From Verif Require Import Base Lib StimM SetupM NoiseM SpecNoise NoiseP LayoutM SpecLayout LayoutP LayoutP2 DetM DetP
  GenM GenP SpecGen GeomP RotP RotP2 UnrotP BlockM SpecTrack TrackP ActP RoundP CssP CssP2 PipeP RoundTopP XzzxP GoogleP.
Open Scope Z_scope.
Local Opaque rot_ps unrot_ps.

Lemma gates_app a b : gates (a ++ b) = gates a ++ gates b.
Proof. unfold gates, ideal. now rewrite !flat_map_app. Qed.
Definition annotations (c : circuit) : Prop := Forall (fun i => is_annotation (nm i) = true) c.
Lemma gates_ann c : annotations c -> gates c = [].
Proof.
  induction 1 as [|i c Hi _ IH]; [reflexivity|]. change (i :: c) with ([i] ++ c). rewrite gates_app, IH, app_nil_r.
  unfold gates, ideal, instr_atoms. cbn [flat_map]. destruct (is_noise (nm i) || eqb (nm i) GI); [reflexivity|]. rewrite Hi. reflexivity.
Qed.
Lemma append_ann c i : annotations c -> is_annotation (nm i) = true -> annotations (append c i).
Proof.
  unfold annotations. induction c as [|j c IH]; intros A H; [repeat constructor; exact H|]. inversion A as [|? ? Hj A']; subst.
  destruct c as [|k c]; [|constructor; [exact Hj|apply IH; assumption]]. cbn [append].
  destruct (_ && _); repeat constructor; auto.
Qed.
Lemma appends_ann c : forall acc, annotations acc -> annotations c -> annotations (appends acc c).
Proof.
  unfold appends. induction c as [|i c IH]; intros acc A F; [exact A|]. inversion F; subst. cbn [fold_left]. apply IH; [|assumption].
  apply append_ann; assumption.
Qed.
Lemma det_instrs d g ancs t dets c : mapM (det_instr d g ancs t) dets = Ok c -> annotations c.
Proof.
  revert c. induction dets as [|x dets IH]; intros c H; [injection H as <-; constructor|]. cbn [mapM] in H.
  apply bind_ok in H as (i & Hi & H). apply bind_ok in H as (r & Hr & H). injection H as <-. constructor; [|now apply IH].
  unfold det_instr in Hi. apply bind_ok in Hi as (recs & _ & Hi). apply bind_ok in Hi as (cs & _ & Hi). unfold StimM.mk in Hi.
  match type of Hi with (if ?b then _ else _) = _ => destruct b end; [injection Hi as <-; reflexivity|discriminate].
Qed.
Lemma build_anc_ann g reset req d d' c : build_from_anc g reset req d = (d', Ok c) -> annotations c.
Proof.
  intros H. apply build_from_anc_inv in H as [[_ (e & E)]|(ancs & nr & _ & _ & [[_ (e & E)]|(dets & c' & _ & M & _ & E)])]; try discriminate.
  injection E as ->. apply appends_ann; [constructor|]. eapply det_instrs; exact M.
Qed.
Lemma onm_ok {A} (x : ST model A) w w' r : onm x w = (w', r) -> exists m', x (fst w) = (m', r) /\ w' = (m', snd w).
Proof. unfold onm. destruct (x (fst w)) as [m' r'] eqn:E. intros [= <- <-]. eauto. Qed.
Lemma ond_ok {A} (x : model -> ST detectors A) w w' r : ond x w = (w', r) -> exists d', x (fst w) (snd w) = (d', r) /\ w' = (fst w, d').
Proof. unfold ond. destruct (x (fst w) (snd w)) as [d' r'] eqn:E. intros [= <- <-]. eauto. Qed.
Lemma qec_round_circuit it l reset dets w w' c : qec_round it l reset dets w = (w', Ok c) ->
  exists m' c0, run_blocks (it l reset) (fst w) = (m', Ok c0) /\ gates c = gates c0.
Proof.
  intros H. unfold qec_round in H. apply sbind_ok in H as (w1 & c0 & H1 & H). apply onm_ok in H1 as (m1 & H1 & ->).
  apply sbind_ok in H as (w2 & anc & H2 & H). unfold slift in H2. destruct (get_role l "anc"); [|discriminate]. injection H2 as <- ->.
  destruct (strict_superset _ _); [discriminate|]. apply sbind_ok in H as (w3 & d & H3 & H). apply ond_ok in H3 as (d3 & H3 & ->).
  injection H as <- <-. exists m1, c0. split; [exact H1|]. apply build_anc_ann in H3. now rewrite gates_app, (gates_ann d), app_nil_r.
Qed.
Lemma google_qec_circuit ord l dets w w' c : google_qec_round ord l dets w = (w', Ok c) ->
  exists m' c0, run_blocks (google_round ord l) (fst w) = (m', Ok c0) /\ gates c = gates c0.
Proof.
  intros H. unfold google_qec_round in H. apply sbind_ok in H as (w1 & c0 & H1 & H). apply onm_ok in H1 as (m1 & H1 & ->).
  apply sbind_ok in H as (w3 & d & H3 & H). apply ond_ok in H3 as (d3 & H3 & ->).
  injection H as <- <-. exists m1, c0. split; [exact H1|]. apply build_anc_ann in H3. now rewrite gates_app, (gates_ann d), app_nil_r.
Qed.
Section Lift.
  Context (l : layout) (st : stabilizers) (bl : blocks) (f : ST world circuit).
  Hypothesis H : forall w w' c, f w = (w', Ok c) -> exists m' c0, run_blocks bl (fst w) = (m', Ok c0) /\ gates c = gates c0.
  Lemma lift_measures pre : measures_with id pre l st (run_blocks bl) -> measures_with fst pre l st f.
  Proof. intros M w w' c ancs a i Ea W E Ha Hi. apply H in E as (m' & c0 & E & ->). eapply (M (fst w)); eauto. Qed.
  Lemma lift_preserves : preserves id l st (run_blocks bl) -> preserves fst l st f.
  Proof. intros M w w' c ancs xs zs P Ea W E H0 C R. apply H in E as (m' & c0 & E & ->). eapply (M (fst w)); eauto. Qed.
  Lemma lift_destroys : destroys id l st (run_blocks bl) -> destroys fst l st f.
  Proof. intros M w w' c ancs a xs zs P Ea W E H0 Ha C R. apply H in E as (m' & c0 & E & ->). eapply (M (fst w)); eauto. Qed.
End Lift.

(* the public functions *)
Section Api.
  Context (ord : nat -> list string -> list string).
  Hypothesis Hp : forall k s, Permutation (ord k s) s.
  Definition is_round (it : layout -> bool -> blocks) (l : layout) (st : stabilizers) : Prop :=
    forall dets, (forall reset, measures_with fst (negb reset) l st (qec_round it l reset dets)) /\
      (forall reset, preserves fst l st (qec_round it l reset dets)) /\ destroys fst l st (qec_round it l true dets).
  Lemma is_round_of it l st ancs g : round_of l st (it l) ancs g -> is_round it l st.
  Proof.
    intros R dets. apply round_spec in R as (M & K & D). split; [|split].
    - intros reset. eapply lift_measures; [|apply M]. apply qec_round_circuit.
    - intros reset. eapply lift_preserves; [|apply K]. apply qec_round_circuit.
    - eapply lift_destroys; [|apply D]. apply qec_round_circuit.
  Qed.
  Lemma rot_css_is a l : 1 <= ga_dx a -> 2 <= ga_dz a -> rot_surface_code_rectangle a = Ok l ->
    is_round (css_round ord "rotated_surface_code") l (css l).
  Proof. intros Hx Hz E. destruct (rot_css_round a l ord Hp Hx Hz E) as [g R]. eapply is_round_of; exact R. Qed.
  Lemma unrot_css_is a l : 1 <= ga_dx a -> 2 <= ga_dz a -> unrot_surface_code_rectangle a = Ok l ->
    is_round (css_round ord "unrotated_surface_code") l (css l).
  Proof. intros Hx Hz E. destruct (unrot_css_round a l ord Hp Hx Hz E) as [g R]. eapply is_round_of; exact R. Qed.
  Lemma css_pipe_is a l : 1 <= ga_dx a -> 1 <= ga_dz a -> rot_surface_code_rectangle a = Ok l ->
    is_round (css_pipe_round ord) l (css l).
  Proof. intros Hx Hz E. destruct (rot_css_pipe a l ord Hp Hx Hz E) as [g R]. eapply is_round_of; exact R. Qed.
  Lemma xzzx_pipe_is a l : 2 <= ga_dx a -> 2 <= ga_dz a -> rot_surface_code_rectangle a = Ok l ->
    is_round (xzzx_pipe_round ord) l (xzzx l).
  Proof. intros Hx Hz E. destruct (rot_xzzx_pipe a l ord Hp Hx Hz E) as [g R]. eapply is_round_of; exact R. Qed.
  Lemma google_is a l dets : 0 <= ga_dx a -> 0 <= ga_dz a -> rot_surface_code_rectangle a = Ok l ->
    measures_with fst true l (xzzx l) (google_qec_round ord l dets) /\ preserves fst l (xzzx l) (google_qec_round ord l dets).
  Proof.
    intros Hx Hz E. destruct (rot_google a l ord Hp Hx Hz E) as [M K]. split.
    - eapply lift_measures; [|apply M]. apply google_qec_circuit.
    - eapply lift_preserves; [|apply K]. apply google_qec_circuit.
  Qed.
End Api.
