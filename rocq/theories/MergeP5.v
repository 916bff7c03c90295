(** The rounds and measurements of the library are in lockstep; their operands. *)
From Coq Require Import QArith Qcanon.
From Verif Require Import Base Lib StimM SetupM NoiseM SpecNoise NoiseP DetM LayoutM BlockM ExpM SpecTrack SpecExp TrackP LiftP ExpP ExpP13
  MergeM SpecMerge MergeP MergeP2 MergeP3 MergeP4.
Open Scope Z_scope.

Inductive skind := KTick | KQuiet | KMeas.
Definition has_kind (k : skind) (b : block) : Prop :=
  match k with KTick => b = [CTick] | KQuiet => quiet_calls b | KMeas => readout_calls b end.
Definition fits (bl : blocks) (ks : list skind) : Prop := Forall2 (fun rb k => forall b, rb = Ok b -> has_kind k b) bl ks.
Lemma fits_lockstep bls ks : (forall bl, In bl bls -> fits bl ks) -> lockstep bls.
Proof.
  intros F. exists (length ks). split.
  - apply Forall_forall. intros bl H. specialize (F bl H). clear - F. induction F; cbn; congruence.
  - assert (G : forall bl b j, In bl bls -> nth_error bl j = Some (Ok b) -> exists k, nth_error ks j = Some k /\ has_kind k b).
    { intros bl b j H N. specialize (F bl H). clear - F N. revert j N. induction F as [|rb k bl ks H F IH]; intros [|j] N; try discriminate.
      - injection N as ->. exists k. auto.
      - now apply IH. }
    intros j. destruct (nth_error ks j) as [[]|] eqn:E; [left|right; left|right; right|left]; intros bl b H N; destruct (G bl b j H N) as (k & E' & K);
      rewrite E in E'; try discriminate; injection E' as <-; exact K.
Qed.
Lemma zip_first fuse its m m' x : zip_next fuse its m = (m', Ok x) -> (forall bl, In bl its -> bl <> []) -> forall e r, ~ In (Err e :: r) its.
Proof.
  intros H N e r I. apply zip_next_inv in H as (bs & raw & m1 & _ & D). destruct x as [[cs rs]|].
  - destruct D as (_ & _ & -> & _). apply in_map_iff in I as (p & E & _). discriminate.
  - destruct D as (_ & pre & rest & -> & _). apply (N []); [apply in_elt|reflexivity].
Qed.
Lemma merged_first fuse its m m' c : merged_blocks fuse its m = (m', Ok c) -> (forall bl, In bl its -> bl <> []) -> forall e r, ~ In (Err e :: r) its.
Proof.
  unfold merged_blocks. destruct its as [|i its]; intros H N e r I; [destruct I|]. cbn [zip_loop] in H. apply sbind_ok in H as (m1 & x & H & _).
  eapply zip_first; eauto.
Qed.
Lemma gen_nonempty (x : res blocks) : (forall l, x = Ok l -> l <> []) -> generator x <> [].
Proof. intros H. destruct x; cbn; [now apply H|discriminate]. Qed.
Lemma gen_fits (x : res blocks) ks : (forall l, x = Ok l -> fits l ks) -> fits (generator x) ks \/ exists e, generator x = [Err e].
Proof. intros H. destruct x; cbn; [left; now apply H|right; eauto]. Qed.

(* the kinds of steps *)
Definition round_kinds (reset : bool) : list skind :=
  [KQuiet; KTick] ++ (if reset then [KQuiet; KTick] else []) ++ flat_map (fun _ => [KQuiet; KTick]) (seq 0 8) ++ [KMeas; KTick].
Definition meas_kinds (rot : bool) : list skind := [KQuiet; KTick] ++ (if rot then [KQuiet; KTick] else []) ++ [KMeas; KTick].
Lemma fit_quiet b r ks : (forall x, b = Ok x -> quiet_calls x) -> fits r ks -> fits (b :: r) (KQuiet :: ks).
Proof. intros; constructor; auto. Qed.
Lemma fit_tick r ks : fits r ks -> fits (tick_block :: r) (KTick :: ks).
Proof. intros; constructor; auto. intros b E. unfold tick_block in E. now injection E as <-. Qed.
Lemma fit_meas a d r ks : fits r ks -> fits (Ok [Call OM a; Call OIDLE d] :: r) (KMeas :: ks).
Proof. intros; constructor; auto. intros b E. injection E as <-. now exists a, d. Qed.
Lemma had_quiet ord k qs rot : quiet_calls (had_block ord k qs rot).
Proof. repeat constructor. Qed.
Lemma cz_quiet ord site l qs k b : cz_block ord site l qs k = Ok b -> quiet_calls b.
Proof.
  unfold cz_block. intros H. apply bind_ok in H as (c & _ & H). injection H as <-. apply Forall_app. split; [|repeat constructor]. apply Forall_map, Forall_forall. now intros.
Qed.
Lemma g_quiet ord site l qs b : xzzx_g ord site l qs = Ok b -> quiet_calls b.
Proof.
  unfold xzzx_g. intros H. apply bind_ok in H as (c & _ & H). apply bind_ok in H as (g & _ & H). injection H as <-. apply Forall_app. split; [|repeat constructor]. apply Forall_map, Forall_forall. now intros.
Qed.
Lemma rot_quiet ord (r : res (list string)) k qs b : (do r <- r; Ok (had_block ord k qs r)) = Ok b -> quiet_calls b.
Proof. intros H. apply bind_ok in H as (c & _ & H). injection H as <-. apply had_quiet. Qed.
Ltac fit := repeat first
  [ apply fit_tick | apply fit_meas
  | apply fit_quiet; [intros ? E; first [now apply rot_quiet in E | now apply cz_quiet in E | now apply g_quiet in E
                                       | injection E as <-; first [apply had_quiet|repeat constructor]]|]
  | constructor ].
Lemma css_fits ord code l reset : fits (css_round ord code l reset) (round_kinds reset) \/ exists e, css_round ord code l reset = [Err e].
Proof.
  apply gen_fits. intros bl H. destruct (negb _); [discriminate|]. apply bind_ok in H as (data & _ & H). apply bind_ok in H as (anc & _ & H).
  apply bind_ok in H as (xs & _ & H). injection H as <-. unfold round_start, round_end, round_kinds. destruct reset; cbn [app flat_map seq]; fit.
Qed.
Lemma xzzx_fits ord l reset : fits (xzzx_round ord l reset) (round_kinds reset) \/ exists e, xzzx_round ord l reset = [Err e].
Proof.
  apply gen_fits. intros bl H. destruct (negb _); [discriminate|]. apply bind_ok in H as (data & _ & H). apply bind_ok in H as (anc & _ & H).
  apply bind_ok in H as (xs & _ & H). injection H as <-. unfold round_start, round_end, round_kinds. destruct reset; cbn [app flat_map seq]; fit.
Qed.
Lemma meas_fits l rot : fits (log_meas_blocks l rot) (meas_kinds rot) \/ exists e, log_meas_blocks l rot = [Err e].
Proof.
  apply gen_fits. intros bl H. apply bind_ok in H as (anc & _ & H). apply bind_ok in H as (data & _ & H). injection H as <-.
  unfold meas_kinds. destruct rot; cbn [app]; fit.
Qed.
Lemma meas_xzzx_fits ord l rot : fits (log_meas_xzzx_blocks ord l rot) (meas_kinds true) \/ exists e, log_meas_xzzx_blocks ord l rot = [Err e].
Proof.
  apply gen_fits. intros bl H. apply bind_ok in H as (anc & _ & H). apply bind_ok in H as (data & _ & H). apply bind_ok in H as (st & _ & H). injection H as <-.
  unfold meas_kinds. cbn [app]; fit.
Qed.
Lemma fits_nonempty bl k ks : fits bl (k :: ks) \/ (exists e, bl = [Err e]) -> bl <> [].
Proof. intros [F|(e & ->)]; [inversion F; discriminate|discriminate]. Qed.
Lemma merged_lockstep fuse its k ks m m' c : (forall bl, In bl its -> fits bl (k :: ks) \/ exists e, bl = [Err e]) -> merged_blocks fuse its m = (m', Ok c) -> lockstep its.
Proof.
  intros F H. apply (fits_lockstep its (k :: ks)). intros bl I. destruct (F bl I) as [G|(e & ->)]; [exact G|exfalso].
  refine (merged_first _ _ _ _ _ H _ e [] I). intros b B. eapply fits_nonempty. now apply F.
Qed.
Lemma round_merged fuse it ls reset dets w w' c : merge_qec_rounds fuse it ls reset dets w = (w', Ok c) ->
  exists m' c', merged_blocks fuse (map (fun kl => it (fst kl) (snd kl) reset) (enumerate ls)) (fst w) = (m', Ok c').
Proof.
  unfold merge_qec_rounds. intros H. apply sbind_ok in H as (w1 & ok & H1 & H). unfold slift in H1. injection H1 as <- _.
  destruct (negb ok); [discriminate|]. apply sbind_ok in H as (w2 & c1 & H1 & H). apply onm_ok in H1 as (m1 & H1 & ->). eauto.
Qed.
Lemma meas_merged fuse it ls rots reset dets w w' c : merge_log_meas fuse it ls rots reset dets w = (w', Ok c) ->
  exists m' c', merged_blocks fuse (map (fun klr => it (fst klr) (fst (snd klr)) (snd (snd klr))) (enumerate (combine ls rots))) (fst w) = (m', Ok c').
Proof.
  unfold merge_log_meas. destruct (negb _); [discriminate|]. intros H. apply sbind_ok in H as (w1 & ok & H1 & H). unfold slift in H1. injection H1 as <- _.
  destruct (negb ok); [discriminate|]. apply sbind_ok in H as (w2 & c1 & H1 & H). apply onm_ok in H1 as (m1 & H1 & ->). eauto.
Qed.
Lemma lock_round fuse it ls reset dets w w' c : (forall k l, (exists ord code, it k l reset = css_round ord code l reset) \/ (exists ord, it k l reset = xzzx_round ord l reset)) ->
  merge_qec_rounds fuse it ls reset dets w = (w', Ok c) -> lockstep (map (fun kl => it (fst kl) (snd kl) reset) (enumerate ls)).
Proof.
  intros C H. apply round_merged in H as (m' & c' & H). eapply (merged_lockstep fuse _ KQuiet (tl (round_kinds reset))); [|exact H]. intros bl I.
  apply in_map_iff in I as ([k l] & <- & _). cbn [fst snd]. destruct (C k l) as [(ord & code & ->)|(ord & ->)]; [apply css_fits|apply xzzx_fits].
Qed.
Lemma lock_meas fuse ls rot n reset dets w w' c :
  merge_log_meas fuse (fun _ => log_meas_blocks) ls (repeat rot n) reset dets w = (w', Ok c) ->
  lockstep (map (fun klr => log_meas_blocks (fst (snd klr)) (snd (snd klr))) (enumerate (combine ls (repeat rot n)))).
Proof.
  intros H. apply meas_merged in H as (m' & c' & H). eapply (merged_lockstep fuse _ KQuiet (tl (meas_kinds rot))); [|exact H]. intros bl I.
  apply in_map_iff in I as ([k [l r]] & <- & I). cbn [fst snd] in *. assert (r = rot) as ->; [|apply meas_fits].
  apply enumerate_In in I as [_ I]. apply nth_error_In, in_combine_r, repeat_spec in I. exact I.
Qed.
Lemma lock_meas_xzzx fuse ord ls rots reset dets w w' c :
  merge_log_meas fuse (fun k => log_meas_xzzx_blocks (ord k)) ls rots reset dets w = (w', Ok c) ->
  lockstep (map (fun klr => log_meas_xzzx_blocks (ord (fst klr)) (fst (snd klr)) (snd (snd klr))) (enumerate (combine ls rots))).
Proof.
  intros H. apply meas_merged in H as (m' & c' & H). eapply (merged_lockstep fuse _ KQuiet (tl (meas_kinds true))); [|exact H]. intros bl I.
  apply in_map_iff in I as ([k [l r]] & <- & I). cbn [fst snd] in *. apply meas_xzzx_fits.
Qed.
