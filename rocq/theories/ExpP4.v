(** The parts of an experiment. *)
From Coq Require Import QArith Qcanon.
From Verif Require Import Base Lib StimM SetupM NoiseM SpecNoise NoiseP LayoutM DetM SpecDet DetP DetCountP DetDetP
  BlockM ExpM SpecTrack SpecExp TrackP LiftP ExpDetP ExpP ExpP3.
Open Scope Z_scope.

Definition checkless (c : circuit) : Prop := Forall (fun i => ~ is_check i) c.
Lemma sfold_app {S A B} (f : B -> A -> ST S B) l l' : forall b w w' r, sfold f (l ++ l') b w = (w', Ok r) ->
  exists w1 b1, sfold f l b w = (w1, Ok b1) /\ sfold f l' b1 w1 = (w', Ok r).
Proof.
  induction l as [|x l IH]; intros b w w' r H; cbn [app sfold] in *; [now exists w, b|].
  apply sbind_ok in H as (w1 & b1 & H1 & H). destruct (IH _ _ _ _ H) as (w2 & b2 & H2 & H3). exists w2, b2. split; [|exact H3].
  unfold sbind. now rewrite H1.
Qed.

(** * The beginning *)
Lemma coords_ann m cs c : NoiseM.qubit_coords m cs = Ok c -> annotations c /\ checkless c.
Proof.
  unfold NoiseM.qubit_coords. destruct (strict_superset _ _); [discriminate|].
  set (Q := fun c : circuit => Forall (fun i => nm i = QUBIT_COORDS) c).
  assert (G : forall cs c0, Q c0 -> foldM (fun c kv => do i <- dget_err (fst kv) (inds m); Ok (append c (Instr QUBIT_COORDS [TQ i] (map ANum (snd kv))))) cs c0 = Ok c -> Q c).
  { clear. induction cs as [|[k v] cs IH]; intros c0 F H; cbn [foldM] in H; [congruence|].
    apply bind_ok in H as (c1 & H1 & H). apply bind_ok in H1 as (i & _ & H1). injection H1 as <-. eapply IH; [|exact H].
    clear -F. induction F as [|j c Hj F IH]; [repeat constructor|]. cbn [append]. destruct c as [|j' c]; [|constructor; [exact Hj|exact IH]].
    destruct (_ && _); repeat constructor; auto. }
  intros H. apply G in H; [|constructor]. unfold Q in H. split; [eapply Forall_impl; [|exact H]; intros i ->; reflexivity|].
  eapply Forall_impl; [|exact H]. intros i E [E'|E']; congruence.
Qed.
Lemma block_coords_ann m ls c : block_coords ls m = Ok c -> annotations c /\ checkless c.
Proof.
  unfold block_coords. intros H. apply bind_ok in H as (cs & H & E). injection E as <-. apply mapM_Forall2 in H.
  induction H as [|l c ls cs H F [IH1 IH2]]; [split; constructor|]. apply bind_ok in H as (d & _ & H). apply coords_ann in H as [A B].
  cbn [concat]. split; apply Forall_app; split; auto.
Qed.
Lemma start_ok ls w w' c : wf_inds (inds (fst w)) -> exp_start ls w = (w', Ok c) ->
  w' = (new_circuit (fst w), det_new (snd w)) /\ annotations c /\ checkless c /\ tracked (inds (fst w)) (fst w') [] c.
Proof.
  intros W H. unfold exp_start in H. apply sbind_ok in H as (w1 & u & H1 & H). apply onm_ok in H1 as (m1 & H1 & ->). injection H1 as <- _.
  apply sbind_ok in H as (w2 & u2 & H2 & H). apply ond_ok in H2 as (d2 & H2 & ->). injection H2 as <- _.
  apply onm_ok in H as (m3 & H & ->). unfold sread in H. injection H as <- H. cbn [fst snd] in *. split; [reflexivity|].
  destruct (block_coords_ann _ _ _ H) as [A B]. split; [exact A|]. split; [exact B|]. now apply tracked_start.
Qed.

(* initialization *)
Lemma init_ok it l di rot d0 qi w w' c c0 L : NoDup (labels d0) -> snd w = det_new d0 -> tracked qi (fst w) L c0 ->
  init_with it l di rot w = (w', Ok c) -> ok_blocks (it l di rot) ->
  exists ancs, get_role l "anc" = Ok ancs /\ dst d0 ancs 0 (snd w') /\ checkless c /\
    tracked qi (fst w') (L ++ lg_blocks (it l di rot)) (c0 ++ c).
Proof.
  intros N E T H O. unfold init_with in H. apply sbind_ok in H as (w1 & ancs & H1 & H). unfold slift in H1. injection H1 as <- H1.
  apply sbind_ok in H as (w2 & u & H2 & H). apply ond_ok in H2 as (d2 & H2 & ->). rewrite E in H2. apply onm_ok in H as (m3 & H & ->).
  cbn [fst snd] in *. exists ancs. split; [exact H1|]. split; [eapply dst_start; eauto|]. destruct (tracked_blocks _ _ _ _ _ _ _ T H O). auto.
Qed.

(** * The rounds *)
Section Trace.
  Context (d0 : detectors) (qi : dict string Z) (ancs : list string) (reset : bool) (dsf : nat -> list string).
  Context (I : list (gate string)) (G : nat -> list (gate string)).
  (* the gates of the first n rounds *)
  Fixpoint Gn (n : nat) : list (gate string) := match n with O => [] | S n => Gn n ++ G n end.
  Inductive trace (pre : circuit) : nat -> circuit -> world -> Prop :=
  | tr_nil w : tracked qi (fst w) I pre -> dst d0 ancs 0 (snd w) -> trace pre 0 [] w
  | tr_snoc n c w c' w' : trace pre n c w -> round_out d0 qi ancs reset n (dsf n) (I ++ Gn (S n)) (pre ++ c) c' w' ->
      trace pre (S n) (c ++ c') w'.
  Lemma trace_state pre n c w : trace pre n c w -> tracked qi (fst w) (I ++ Gn n) (pre ++ c) /\ dst d0 ancs n (snd w).
  Proof.
    destruct 1 as [w T D|n c w c' w' _ R]; [now rewrite !app_nil_r|]. split; [|apply R].
    destruct R as [_ (cb & cd & ls & _ & _ & T & _)]. now rewrite app_assoc.
  Qed.
End Trace.

Lemma trace_upd d0 qi ancs reset dsf ds I G pre N n c w : trace d0 qi ancs reset dsf I G pre n c w -> (n <= N)%nat ->
  trace d0 qi ancs reset (fun r => if Nat.eqb r N then ds else dsf r) I G pre n c w.
Proof.
  induction 1 as [w T D|k c w c' w' _ IH O]; intros B; [now constructor|]. econstructor; [apply IH; lia|].
  destruct (Nat.eqb_spec k N); [lia|exact O].
Qed.
(* the labels asked for in round r *)
Definition asked ordt (l : layout) (rot gauge : bool) (dets : list string) (r : nat) (ds : list string) : Prop :=
  if Nat.eqb r 0 && negb gauge then first_dets ordt l rot dets = Ok ds else ds = dets.
Lemma rounds_trace ordt d0 qi ancs reset I G (round : nat -> list string -> ST world circuit) l rot gauge dets pre n w w' c :
  tracked qi (fst w) I pre -> dst d0 ancs 0 (snd w) ->
  (forall r w w' L c0 c ds, tracked qi (fst w) L c0 -> dst d0 ancs r (snd w) -> round r ds w = (w', Ok c) ->
     round_out d0 qi ancs reset r ds (L ++ G r) c0 c w') ->
  exp_rounds ordt round l rot gauge dets n w = (w', Ok c) ->
  exists dsf, (forall r, (r < n)%nat -> asked ordt l rot gauge dets r (dsf r) /\ exists w w' c, round r (dsf r) w = (w', Ok c)) /\
    trace d0 qi ancs reset dsf I G pre n c w'.
Proof.
  intros T D R. unfold exp_rounds. revert w' c. induction n as [|n IH]; intros w' c H.
  - cbn in H. injection H as <- <-. exists (fun _ => []). split; [lia|]. now constructor.
  - rewrite seq_S in H. apply sfold_app in H as (w1 & c1 & H1 & H). destruct (IH _ _ H1) as (dsf & Ha & Ht). clear IH H1.
    cbn [sfold Nat.add] in H. apply sbind_ok in H as (w2 & c2 & H2 & H). unfold sret in H. injection H as <- <-.
    apply sbind_ok in H2 as (w3 & ds & H3 & H2). unfold slift in H3. injection H3 as <- H3.
    apply sbind_ok in H2 as (w4 & c4 & H4 & H2). injection H2 as <- <-. destruct (trace_state _ _ _ _ _ _ _ _ _ _ _ Ht) as [Tn Dn].
    pose proof (R _ _ _ _ _ _ _ Tn Dn H4) as O. rewrite <- app_assoc in O.
    exists (fun r => if Nat.eqb r n then ds else dsf r). split.
    + intros r Hr. destruct (Nat.eqb_spec r n) as [->|Ne]; [|apply Ha; lia]. split; [|eauto]. unfold asked. destruct (_ && _); [exact H3|congruence].
    + assert (Ht' : trace d0 qi ancs reset (fun r => if Nat.eqb r n then ds else dsf r) I G pre n c1 w1).
      { apply (trace_upd _ _ _ _ dsf); auto. }
      econstructor; [exact Ht'|]. rewrite Nat.eqb_refl. exact O.
Qed.

(** * A memory experiment *)
Definition ran (bl : blocks) : Prop := exists m m' c, run_blocks bl m = (m', Ok c).
Lemma init_ran it l di rot w w' c : init_with it l di rot w = (w', Ok c) -> ran (it l di rot).
Proof.
  unfold init_with. intros H. apply sbind_ok in H as (w1 & ancs & _ & H). apply sbind_ok in H as (w2 & u & _ & H).
  apply onm_ok in H as (m3 & H & _). unfold ran. eauto.
Qed.
Lemma round_ran it l reset ds w w' c : qec_round it l reset ds w = (w', Ok c) -> ran (it l reset).
Proof. unfold qec_round. intros H. apply sbind_ok in H as (w1 & cb & H1 & _). apply onm_ok in H1 as (m1 & H1 & _). unfold ran. eauto. Qed.
Record memory_out ordt (d0 : detectors) (qi : dict string Z) (l : layout) (rot reset gauge : bool) (dets : option (list string)) (R : nat)
    (I : list (gate string)) (G : nat -> list (gate string)) (D : list (gate string)) (c : circuit) : Prop := {
  me_parts : exists ancs ds dsf c01 c2 c3 c4 w2 m3, c = c01 ++ c2 ++ c3 ++ c4 /\
    get_role l "anc" = Ok ancs /\ default_dets l dets = Ok ds /\
    checkless c01 /\ (forall r, (r < R)%nat -> asked ordt l rot gauge ds r (dsf r)) /\
    trace d0 qi ancs reset dsf I G c01 R c2 w2 /\ checkless c3 /\
    tracked qi m3 (I ++ Gn G R ++ D) (c01 ++ c2 ++ c3) /\
    meas_out d0 qi ancs l rot reset R ds (I ++ Gn G R ++ D) m3 (c01 ++ c2 ++ c3) c4 }.
Lemma memory_parts ordt it0 (itr : nat -> layout -> bool -> blocks) itm l R di rot reset dets gauge w w' c :
  wf_inds (inds (fst w)) -> NoDup (labels (snd w)) ->
  ok_blocks (it0 l di rot) -> (forall r, ok_blocks (itr r l reset)) -> ok_blocks (itm l rot) ->
  memory_with ordt (init_with it0) (fun r => qec_round (itr r)) (log_meas_with itm) l R di rot reset dets gauge w = (w', Ok c) ->
  0 <= R /\ memory_out ordt (snd w) (inds (fst w)) l rot reset gauge dets (Z.to_nat R)
    (lg_blocks (it0 l di rot)) (fun r => lg_blocks (itr r l reset)) (lg_blocks (itm l rot)) c /\
  ran (it0 l di rot) /\ (forall r, (r < Z.to_nat R)%nat -> ran (itr r l reset)) /\ ran (itm l rot).
Proof.
  intros W N O0 Or Om H. unfold memory_with in H. destruct (Z.ltb_spec R 0) as [|HR]; [discriminate|]. split; [exact HR|].
  apply sbind_ok in H as (w1 & ds & H1 & H). unfold slift in H1. injection H1 as <- H1.
  apply sbind_ok in H as (w2 & c0 & H2 & H). destruct (start_ok _ _ _ _ W H2) as (-> & A0 & B0 & T0). clear H2.
  apply sbind_ok in H as (w3 & c1 & H3 & H).
  destruct (init_ok _ _ _ _ (snd w) _ (new_circuit (fst w), det_new (snd w)) _ _ _ _ N eq_refl T0 H3 O0) as (ancs & Ea & D1 & B1 & T1). apply init_ran in H3. cbn [app] in T1.
  apply sbind_ok in H as (w4 & c2 & H4 & H).
  destruct (rounds_trace ordt (snd w) (inds (fst w)) ancs reset (lg_blocks (it0 l di rot)) (fun r => lg_blocks (itr r l reset))
     _ _ _ _ _ (c0 ++ c1) _ _ _ _ T1 D1 (fun r w w' L c0 c ds T D E => qec_round_out _ _ _ _ _ _ _ _ _ _ _ _ _ T D (Or r) E) H4) as (dsf & Hd & Ht).
  assert (Hd' : forall r, (r < Z.to_nat R)%nat -> ran (itr r l reset)).
  { intros r Hr. destruct (Hd r Hr) as (_ & x & y & z & E). now apply round_ran in E. }
  clear H4. apply sbind_ok in H as (w5 & c3 & H5 & H). injection H as <- <-.
  unfold log_meas_with in H5. apply sbind_ok in H5 as (w6 & ancs' & H6 & H5). unfold slift in H6. injection H6 as <- _.
  destruct (strict_superset _ _); [discriminate|]. apply sbind_ok in H5 as (w7 & c5 & H7 & H5). apply onm_ok in H7 as (m7 & H7 & ->).
  apply sbind_ok in H5 as (w8 & c6 & H8 & H5). injection H5 as <- <-. cbn [odef] in H8.
  destruct (trace_state _ _ _ _ _ _ _ _ _ _ _ Ht) as [T2 D2]. destruct (tracked_blocks _ _ _ _ _ _ _ T2 H7 Om) as [T3 B3].
  rewrite <- !app_assoc in T3.
  split; [|split; [exact H3|split; [exact Hd'|unfold ran; eauto]]].
  constructor. exists ancs, ds, dsf, (c0 ++ c1), c2, c5, c6, w4, m7. split; [now rewrite !app_assoc|].
  split; [exact Ea|]. split; [exact H1|]. split; [apply Forall_app; now split|]. split; [intros r Hr; now apply Hd|]. split; [exact Ht|]. split; [exact B3|].
  split; [now rewrite <- app_assoc|]. rewrite <- app_assoc. exact (log_meas_out _ _ _ _ _ _ _ _ (m7, snd w4) _ _ _ _ T3 D2 H8).
Qed.
