(** The noise of an experiment only causes possible faults (C75): blocks and experiments. *)
From Coq Require Import QArith Qcanon.
From Verif Require Import Base Lib StimM SetupM NoiseM SpecNoise NoiseP LayoutM SpecLayout DetM BlockM GenM ExpM SpecGen SpecTrack SpecExp SpecFault TrackP LiftP
  ExpDetP ExpP3 ExpP4 ExpP5 ExpP13 RotP OneP FaultP8 FaultP9 FaultP10.
Open Scope Z_scope.

(** * Blocks *)
Definition distinct (b : res block) : Prop :=
  match b with Ok b => Forall (fun c => match c with Call o qs => pair_op o = true -> NoDup qs | CTick => True end) b | Err _ => True end.
Lemma run_block_sound b : distinct (Ok b) -> forall m m' c, wf_inds (inds m) -> run_block b m = (m', Ok c) -> sound (evs c) /\ inds m' = inds m.
Proof.
  induction 1 as [|k b Hk _ IH]; intros m m' c W H; cbn [run_block] in H.
  - injection H as <- <-. split; [apply sound_nil|reflexivity].
  - apply sbind_ok in H as (m1 & x & H1 & H). apply sbind_ok in H as (m2 & y & H2 & H). injection H as <- <-.
    assert (S1 : sound (evs x) /\ inds m1 = inds m).
    { destruct k as [o qs|]; cbn [run_call] in H1.
      - split; [exact (apply_sound o qs m m1 x W Hk H1)|]. apply apply_static in H1. unfold same_static in H1. tauto.
      - injection H1 as <- <-. split; [apply calm_sound; repeat constructor|reflexivity]. }
    destruct S1 as [S1 E1]. destruct (IH m1 m2 y) as [S2 E2]; [now rewrite E1|exact H2|]. split; [unfold evs; rewrite flat_map_app; now apply sound_app|congruence].
Qed.
Lemma run_blocks_sound l : Forall distinct l -> forall m m' c, wf_inds (inds m) -> run_blocks l m = (m', Ok c) -> sound (evs c) /\ inds m' = inds m.
Proof.
  induction 1 as [|b l Hb _ IH]; intros m m' c W H; cbn [run_blocks] in H.
  - injection H as <- <-. split; [apply sound_nil|reflexivity].
  - apply sbind_ok in H as (m0 & b' & H0 & H). unfold slift in H0. destruct b as [b|]; [|discriminate H0]. injection H0 as <- <-.
    apply sbind_ok in H as (m1 & x & H1 & H). apply sbind_ok in H as (m2 & y & H2 & H). injection H as <- <-.
    destruct (run_block_sound b Hb m m1 x W H1) as [S1 E1]. destruct (IH m1 m2 y) as [S2 E2]; [now rewrite E1|exact H2|].
    split; [unfold evs; rewrite flat_map_app; now apply sound_app|congruence].
Qed.

(** * Experiments *)
Definition keeps {A} (x : ST world A) (P : A -> Prop) : Prop :=
  forall w w' a, wf_inds (inds (fst w)) -> x w = (w', Ok a) -> P a /\ inds (fst w') = inds (fst w).
Definition ssound (c : circuit) : Prop := sound (evs c).
Lemma ssound_app a b : ssound a -> ssound b -> ssound (a ++ b).
Proof. intros Ha Hb. unfold ssound, evs. rewrite flat_map_app. now apply sound_app. Qed.
Lemma ann_sound c : annotations c -> ssound c.
Proof.
  intros H. apply calm_sound. unfold calm, annotations in *. eapply Forall_impl; [|exact H]. intros i Hi. cbn beta in Hi.
  unfold pair_noise. destruct (nm i); try discriminate Hi; reflexivity.
Qed.
Lemma keeps_bind {A B} (x : ST world A) (f : A -> ST world B) P Q : keeps x P -> (forall a, P a -> keeps (f a) Q) -> keeps (sbind x f) Q.
Proof.
  intros Hx Hf w w' b W H. apply sbind_ok in H as (w1 & a & H1 & H). apply (Hx w w1 a W) in H1 as [Pa E1]. destruct (Hf a Pa w1 w' b) as [Qb E2]; [now rewrite E1|exact H|].
  split; [exact Qb|congruence].
Qed.
Lemma keeps_ret {A} (a : A) (P : A -> Prop) : P a -> keeps (sret a) P.
Proof. intros H w w' b _ E. injection E as <- <-. auto. Qed.
Lemma keeps_lift {A} (x : res A) : keeps (slift x) (fun _ => True).
Proof. intros w w' a _ E. unfold slift in E. injection E as <- _. auto. Qed.
Lemma keeps_fail {A} e (P : A -> Prop) : keeps (sfail e) P.
Proof. intros w w' a _ E. discriminate E. Qed.
Lemma keeps_ond {A} (x : model -> ST detectors A) (P : A -> Prop) : (forall m d d' a, x m d = (d', Ok a) -> P a) -> keeps (ond x) P.
Proof. intros H w w' a _ E. apply ond_ok in E as (d & E & ->). split; [eapply H; exact E|reflexivity]. Qed.
Lemma keeps_blocks l : Forall distinct l -> keeps (onm (run_blocks l)) ssound.
Proof. intros H w w' c W E. apply onm_ok in E as (m & E & ->). cbn [fst]. now apply (run_blocks_sound l H _ _ _ W). Qed.
Lemma keeps_sfold {A} (f : circuit -> A -> ST world circuit) l : (forall acc x, In x l -> ssound acc -> keeps (f acc x) ssound) -> forall acc, ssound acc -> keeps (sfold f l acc) ssound.
Proof.
  induction l as [|x l IH]; intros Hf acc Ha; cbn [sfold]; [now apply keeps_ret|]. eapply keeps_bind; [apply Hf; [now left|exact Ha]|].
  intros b Hb. apply IH; [|exact Hb]. intros acc' y Hy. apply Hf. now right.
Qed.
Lemma start_keeps ls : keeps (exp_start ls) ssound.
Proof. intros w w' c W E. apply start_ok in E as (-> & A & _); [|exact W]. split; [now apply ann_sound|reflexivity]. Qed.
Lemma end_keeps l rot reset ds : keeps (log_meas_end l rot reset ds) ssound.
Proof.
  intros w w' c W E. split; [apply ann_sound; eapply log_end_ann; exact E|]. unfold log_meas_end in E.
  apply sbind_ok in E as (w1 & st & H1 & E). unfold slift in H1. injection H1 as <- _. apply sbind_ok in E as (w2 & su & H2 & E). unfold slift in H2. injection H2 as <- _.
  apply sbind_ok in E as (w3 & x & H3 & E). apply ond_ok in H3 as (d3 & H3 & ->). apply sbind_ok in E as (w4 & y & H4 & E). apply onm_ok in H4 as (m4 & H4 & ->).
  apply sbind_ok in E as (w5 & anc & H5 & E). unfold slift in H5. injection H5 as <- _. apply sbind_ok in E as (w6 & u & H6 & E). apply ond_ok in H6 as (d6 & H6 & ->). injection E as <- _.
  unfold sread in H4. injection H4 as <- _. reflexivity.
Qed.
Lemma qec_keeps it l reset dets : Forall distinct (it l reset) -> keeps (qec_round it l reset dets) ssound.
Proof.
  intros H. unfold qec_round. eapply keeps_bind; [now apply keeps_blocks|]. intros c Hc. eapply keeps_bind; [apply keeps_lift|]. intros anc _. destruct (strict_superset _ _); [apply keeps_fail|].
  eapply keeps_bind; [apply keeps_ond; intros m d d' a E; apply build_anc_ann in E; exact (ann_sound _ E)|]. intros d Hd. apply keeps_ret. now apply ssound_app.
Qed.
Lemma google_qec_keeps o l dets : Forall distinct (google_round o l) -> keeps (google_qec_round o l dets) ssound.
Proof.
  intros H. unfold google_qec_round. eapply keeps_bind; [now apply keeps_blocks|]. intros c Hc.
  eapply keeps_bind; [apply keeps_ond; intros m d d' a E; apply build_anc_ann in E; exact (ann_sound _ E)|]. intros d Hd. apply keeps_ret. now apply ssound_app.
Qed.
Lemma meas_keeps it l rot reset dets : Forall distinct (it l rot) -> keeps (log_meas_with it l rot reset dets) ssound.
Proof.
  intros H. unfold log_meas_with. eapply keeps_bind; [apply keeps_lift|]. intros anc _. destruct (strict_superset _ _); [apply keeps_fail|].
  eapply keeps_bind; [now apply keeps_blocks|]. intros c Hc. eapply keeps_bind; [apply end_keeps|]. intros d Hd. apply keeps_ret. now apply ssound_app.
Qed.
Lemma google_meas_keeps o l rot dets : Forall distinct (google_meas o l rot) -> keeps (google_log_meas o l rot dets) ssound.
Proof.
  intros H. unfold google_log_meas. destruct (negb _); [apply keeps_fail|]. eapply keeps_bind; [apply keeps_lift|]. intros anc _. destruct (strict_superset _ _); [apply keeps_fail|].
  eapply keeps_bind; [now apply keeps_blocks|]. intros c Hc. eapply keeps_bind; [apply keeps_ond; intros m d d' a E; apply build_anc_ann in E; exact (ann_sound _ E)|]. intros d Hd.
  eapply keeps_bind; [apply end_keeps|]. intros e He. apply keeps_ret. repeat apply ssound_app; assumption.
Qed.
Lemma init_keeps it l di rot : Forall distinct (it l di rot) -> keeps (init_with it l di rot) ssound.
Proof.
  intros H. unfold init_with. eapply keeps_bind; [apply keeps_lift|]. intros anc _. eapply keeps_bind; [apply (keeps_ond _ (fun _ => True)); auto|]. intros _ _. now apply keeps_blocks.
Qed.
Lemma rounds_keeps ordt f l rot gauge dets n : (forall r ds, keeps (f r ds) ssound) -> keeps (exp_rounds ordt f l rot gauge dets n) ssound.
Proof.
  intros H. unfold exp_rounds. apply keeps_sfold; [|apply sound_nil]. intros acc r _ Ha. eapply keeps_bind; [apply keeps_lift|]. intros ds _.
  eapply keeps_bind; [apply H|]. intros c Hc. apply keeps_ret. now apply ssound_app.
Qed.
Lemma memory_keeps ordt init round meas l R di rot reset dets gauge : keeps (init l di rot) ssound -> (forall r ds, keeps (round r l reset ds) ssound) ->
  (forall ds, keeps (meas l rot reset ds) ssound) -> keeps (memory_with ordt init round meas l R di rot reset dets gauge) ssound.
Proof.
  intros Hi Hr Hm. unfold memory_with. destruct (R <? 0); [apply keeps_fail|]. eapply keeps_bind; [apply keeps_lift|]. intros ds _.
  eapply keeps_bind; [apply start_keeps|]. intros c0 H0. eapply keeps_bind; [apply Hi|]. intros c1 H1. eapply keeps_bind; [apply rounds_keeps; intros; apply Hr|]. intros c2 H2.
  eapply keeps_bind; [apply Hm|]. intros c3 H3. apply keeps_ret. repeat apply ssound_app; assumption.
Qed.
Lemma google_keeps ordt l R di rot dets gauge : keeps (init_qubits_xzzx (ordt 1%nat) l di rot) ssound -> (forall r ds, keeps (google_qec_round (ordt (3 + r)%nat) l ds) ssound) ->
  (forall ds, keeps (google_log_meas (ordt 2%nat) l rot ds) ssound) -> keeps (memory_google ordt l R di rot dets gauge) ssound.
Proof.
  intros Hi Hr Hm. unfold memory_google. destruct (R <=? 0); [apply keeps_fail|]. eapply keeps_bind; [apply keeps_lift|]. intros ds _.
  eapply keeps_bind; [apply start_keeps|]. intros c0 H0. eapply keeps_bind; [apply Hi|]. intros c1 H1. destruct (R =? 1).
  - eapply keeps_bind; [apply keeps_lift|]. intros ds1 _. eapply keeps_bind; [apply Hm|]. intros c2 H2. apply keeps_ret. repeat apply ssound_app; assumption.
  - eapply keeps_bind; [apply rounds_keeps; intros; apply Hr|]. intros c2 H2.
    eapply keeps_bind; [apply Hm|]. intros c3 H3. apply keeps_ret. repeat apply ssound_app; assumption.
Qed.

(** * The blocks of the experiments *)
Ltac dists := repeat first [ exact I | discriminate | apply Forall_nil | apply Forall_cons ]; cbn; repeat constructor; try discriminate.
Lemma init_start_distinct ord qs di : Forall distinct (init_start ord qs di).
Proof. unfold init_start. destruct (excited di); dists. Qed.
Lemma init_distinct ord l di rot : Forall distinct (init_blocks ord l di rot).
Proof.
  unfold init_blocks. destruct (get_role l "anc") as [anc|]; [|dists]. destruct (get_role l "data") as [data|]; [|dists].
  cbn [bind generator]. apply Forall_app. split; [apply init_start_distinct|]. destruct rot; dists.
Qed.
Lemma init_xzzx_distinct ord l di rot : Forall distinct (init_xzzx_blocks ord l di rot).
Proof.
  unfold init_xzzx_blocks. destruct (negb _); [dists|]. destruct (get_role l "anc") as [anc|]; [|dists]. destruct (get_role l "data") as [data|]; [|dists].
  cbn [bind generator]. apply Forall_app. split; [apply init_start_distinct|]. destruct (get_stabs l _); dists.
Qed.
Lemma meas_distinct l rot : Forall distinct (log_meas_blocks l rot).
Proof.
  unfold log_meas_blocks. destruct (get_role l "anc") as [anc|]; [|dists]. destruct (get_role l "data") as [data|]; [|dists]. cbn [bind generator]. destruct rot; dists.
Qed.
Lemma meas_xzzx_distinct ord l rot : Forall distinct (log_meas_xzzx_blocks ord l rot).
Proof.
  unfold log_meas_xzzx_blocks. destruct (get_role l "anc") as [anc|]; [|dists]. destruct (get_role l "data") as [data|]; [|dists]. cbn [bind generator]. destruct (get_stabs l _); dists.
Qed.
Lemma one_distinct l bl : one_each l bl -> Forall distinct bl.
Proof.
  intros (qs & inc & steps & _ & N & -> & F). apply Forall_forall. intros b Hb. apply in_flat_map in Hb as (s & Hs & [<-|[<-|[]]]); [|repeat constructor].
  destruct Hs as [<-|Hs]; [repeat constructor; discriminate|]. rewrite Forall_forall in F. destruct (F s Hs) as [_ P]. cbn. apply Forall_forall. intros [o q|] Hk; [|exact I]. intros _.
  apply in_split in Hk as (a & b & ->). unfold operands in P. rewrite flat_map_app in P. cbn [flat_map] in P. symmetry in P. apply (Permutation_NoDup P) in N. apply nodup_r in N.
  clear -N. induction q as [|x q IH]; [constructor|]. cbn [app] in N. inversion N as [|? ? Nx Nq]. constructor; [|now apply IH]. intros K. apply Nx, in_or_app. now left.
Qed.
Lemma google_meas_distinct ord l rot : Forall distinct (google_round ord l) -> l_code l = "rotated_surface_code" -> Forall distinct (google_meas ord l rot).
Proof.
  unfold google_round, google_meas. intros H Hc. rewrite Hc, eqb_refl in H. cbn [negb] in H. destruct (get_role l "data") as [data|]; cbn [bind generator] in *; [|destruct (get_role l "anc"); dists].
  destruct (get_role l "anc") as [anc|]; cbn [bind generator] in *; [|dists]. apply Forall_app in H as [H _]. apply Forall_app. split; [exact H|]. destruct (get_stabs l _); dists.
Qed.

Lemma cz_distinct ord site l qs k : distinct (cz_block ord site l qs k) -> forall c, cz_lists l k = Ok c -> Forall (@NoDup string) c.
Proof.
  unfold cz_block. intros H c E. rewrite E in H. cbn [bind distinct] in H. apply Forall_app in H as [H _]. apply Forall_forall. intros x Hx. rewrite Forall_forall in H.
  apply (H (Call OCZ x)); [now apply in_map|reflexivity].
Qed.
Lemma calls_distinct c r : Forall (@NoDup string) c -> Forall (fun k => match k with Call o qs => pair_op o = true -> NoDup qs | CTick => True end) r ->
  distinct (Ok (map (Call OCZ) c ++ r)).
Proof. intros H Hr. apply Forall_app. split; [|exact Hr]. apply Forall_forall. intros x Hx. apply in_map_iff in Hx as (q & <- & Hq). intros _. rewrite Forall_forall in H. auto. Qed.
Lemma xzzx_distinct ord l reset : Forall distinct (css_round ord "rotated_surface_code" l reset) -> Forall distinct (xzzx_round ord l reset).
Proof.
  unfold css_round, xzzx_round. intros H. destruct (negb _); [exact H|]. destruct (get_role l "data") as [data|]; cbn [bind generator] in *; [|exact H].
  destruct (get_role l "anc") as [anc|]; cbn [bind generator] in *; [|exact H]. destruct (get_stabs l "x_type") as [xs|]; cbn [bind generator] in *; [|exact H].
  apply Forall_app in H as [Hs H]. apply Forall_app in H as [H He].
  apply Forall_app. split; [exact Hs|]. apply Forall_app. split; [|exact He].
  repeat match goal with H : Forall _ (_ :: _) |- _ => let A := fresh "A" in apply Forall_cons_iff in H as [A H] end.
  pose proof (cz_distinct _ _ _ _ _ A1) as C0. pose proof (cz_distinct _ _ _ _ _ A5) as C1. pose proof (cz_distinct _ _ _ _ _ A7) as C2. pose proof (cz_distinct _ _ _ _ _ A11) as C3.
  assert (G : forall site k qs, (forall c, cz_lists l k = Ok c -> Forall (@NoDup string) c) -> distinct (cz_block ord site l qs k)).
  { intros site k qs C. unfold cz_block. destruct (cz_lists l k) as [c|]; cbn [bind]; [|exact I]. apply calls_distinct; [now apply C|]. repeat constructor. discriminate. }
  assert (D : forall k, distinct (do r <- xzzx_rot l anc xs; Ok (had_block ord k (dedup (data ++ anc)) r))).
  { intros k. destruct (xzzx_rot l anc xs); [|exact I]. repeat constructor; discriminate. }
  assert (T : distinct tick_block) by (repeat constructor).
  assert (HH : distinct (Ok [Call OH data; Call OIDLE anc])) by (repeat constructor; discriminate).
  repeat (apply Forall_cons; [first [exact T|exact HH|apply D|apply G; assumption|idtac]|]); [|constructor].
  unfold xzzx_g. destruct (cz_lists l 2) as [e|]; cbn [bind]; [|exact I]. destruct (cz_lists l 3) as [g|]; cbn [bind]; [|exact I].
  apply calls_distinct; [apply Forall_app; split; [now apply C2|now apply C3]|]. repeat constructor. discriminate.
Qed.

Section Top.
  Context (ordt : nat -> nat -> list string -> list string) (Hp : forall t n s, Permutation (ordt t n s) s) (a : gen_args) (l : layout).
  Context (Hx : 0 <= ga_dx a) (Hz : 0 <= ga_dz a).
  Lemma caused_memory (rotated : bool) kind R di rot reset dets gauge w w' c f : wf_inds (inds (fst w)) ->
    (if rotated then rot_surface_code_rectangle a else unrot_surface_code_rectangle a) = Ok l ->
    In kind (if rotated then [RotCss; CssPipelined; Xzzx; XzzxPipelined] else [UnrotCss]) ->
    memory ordt kind l R di rot reset dets gauge w = (w', Ok c) -> caused c f -> possible c f.
  Proof.
    intros W E K H. apply sound_possible. revert w w' c W H. cut (keeps (memory ordt kind l R di rot reset dets gauge) ssound).
    { intros Hk w w' c W H. now apply (Hk w w' c W). }
    destruct rotated; cbn [In] in K.
    - destruct K as [<-|[<-|[<-|[<-|[]]]]]; cbn [memory]; apply memory_keeps; try (intros; apply init_keeps; first [apply init_distinct|apply init_xzzx_distinct]).
      + intros r ds. apply qec_keeps. apply (one_distinct l). now apply (rot_css_one a).
      + intros ds. apply meas_keeps, meas_distinct.
      + intros r ds. apply qec_keeps. apply (one_distinct l). now apply (rot_css_pipe_one a).
      + intros ds. apply meas_keeps, meas_distinct.
      + intros r ds. apply qec_keeps. apply xzzx_distinct, (one_distinct l). now apply (rot_css_one a).
      + intros ds. unfold log_meas_xzzx. destruct (negb _); [apply keeps_fail|]. apply meas_keeps, meas_xzzx_distinct.
      + intros r ds. apply qec_keeps. apply (one_distinct l). now apply (rot_xzzx_pipe_one a).
      + intros ds. unfold log_meas_xzzx. destruct (negb _); [apply keeps_fail|]. apply meas_keeps, meas_xzzx_distinct.
    - destruct K as [<-|[]]; cbn [memory]; apply memory_keeps; try (intros; apply init_keeps; first [apply init_distinct|apply init_xzzx_distinct]).
      + intros r ds. apply qec_keeps. apply (one_distinct l). now apply (unrot_css_one a).
      + intros ds. apply meas_keeps, meas_distinct.
  Qed.
  Lemma caused_google R di rot dets gauge w w' c f : wf_inds (inds (fst w)) -> rot_surface_code_rectangle a = Ok l ->
    memory_google ordt l R di rot dets gauge w = (w', Ok c) -> caused c f -> possible c f.
  Proof.
    intros W E H. apply sound_possible. revert w w' c W H. cut (keeps (memory_google ordt l R di rot dets gauge) ssound).
    { intros Hk w w' c W H. now apply (Hk w w' c W). }
    destruct (rot_planar a) as (l1 & r & E1 & _ & _ & P & _ & _ & _ & _ & _ & O & Hc); [lia|lia|]. rewrite E in E1. injection E1 as <-.
    assert (G : forall t, Forall distinct (google_round (ordt t) l)) by (intros t; apply (one_distinct l); now apply (rot_google_one a)).
    apply google_keeps.
    - intros. apply init_keeps, init_xzzx_distinct.
    - intros r0 ds. apply google_qec_keeps, G.
    - intros ds. apply google_meas_keeps, google_meas_distinct; [apply G|exact Hc].
  Qed.
End Top.

Lemma caused_distance ordt (rotated : bool) a l k R di rot reset dets gauge w w' c fs : (forall t n s, Permutation (ordt t n s) s) ->
  SpecNoise.wf_inds (inds (fst w)) -> NoDup (labels (snd w)) -> 2 <= ga_dx a -> 2 <= ga_dz a ->
  (if rotated then rot_surface_code_rectangle a else unrot_surface_code_rectangle a) = Ok l -> watched l rot dets ->
  In k (if rotated then [RotCss; CssPipelined; XzzxPipelined] else [UnrotCss]) ->
  memory ordt k l R di rot reset dets gauge w = (w', Ok c) ->
  Forall (caused c) fs -> undetected c fs -> logical_error c fs ->
  (Z.to_nat (if rot then ga_dz a else ga_dx a) <= length fs)%nat.
Proof.
  intros Hp W N Hx Hz E V K H F Un Lo. assert (Hx0 : 0 <= ga_dx a) by lia. assert (Hz0 : 0 <= ga_dz a) by lia. assert (Hx1 : 1 <= ga_dx a) by lia. assert (Hz1 : 1 <= ga_dz a) by lia.
  assert (Pos : Forall (possible c) fs).
  { eapply Forall_impl; [|exact F]. intros f. apply (caused_memory ordt Hp a l Hx0 Hz0 rotated k R di rot reset dets gauge w w' c f W E); [|exact H].
    destruct rotated; cbn [In] in *; tauto. }
  destruct rotated; cbn [In] in K.
  - destruct K as [<-|[<-|[<-|[]]]].
    + exact (fault_rot_css ordt Hp a l R di rot reset dets gauge w w' c W N fs V Hx1 Hz E H Pos Un Lo).
    + exact (fault_css_pipelined ordt Hp a l R di rot reset dets gauge w w' c W N fs V Hx1 Hz1 E H Pos Un Lo).
    + exact (fault_xzzx_pipelined ordt Hp a l R di rot reset dets gauge w w' c W N fs V Hx Hz E H Pos Un Lo).
  - destruct K as [<-|[]]. exact (fault_unrot_css ordt Hp a l R di rot reset dets gauge w w' c W N fs V Hx1 Hz E H Pos Un Lo).
Qed.
Lemma caused_distance_google ordt a l R di rot dets gauge w w' c fs : (forall t n s, Permutation (ordt t n s) s) ->
  SpecNoise.wf_inds (inds (fst w)) -> NoDup (labels (snd w)) -> 2 <= ga_dx a -> 2 <= ga_dz a ->
  rot_surface_code_rectangle a = Ok l -> watched l rot dets ->
  memory_google ordt l R di rot dets gauge w = (w', Ok c) ->
  Forall (caused c) fs -> undetected c fs -> logical_error c fs ->
  (Z.to_nat (if rot then ga_dz a else ga_dx a) <= length fs)%nat.
Proof.
  intros Hp W N Hx Hz E V H F Un Lo. assert (Hx0 : 0 <= ga_dx a) by lia. assert (Hz0 : 0 <= ga_dz a) by lia.
  apply (fault_google ordt a l R di rot dets gauge w w' c fs Hp W N V Hx Hz E H); auto.
  eapply Forall_impl; [|exact F]. intros f. apply (caused_google ordt Hp a l Hx0 Hz0 R di rot dets gauge w w' c f W E H).
Qed.
