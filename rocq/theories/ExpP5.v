(** Order of the outcomes and number of detectors of a memory experiment, on any
    layout. *)
From Coq Require Import QArith Qcanon.
From Verif Require Import Base Lib StimM SetupM NoiseM SpecNoise NoiseP LayoutM DetM SpecDet DetP DetCountP
  BlockM ExpM SpecTrack SpecExp TrackP LiftP ExpDetP ExpP ExpP3 ExpP4.
Open Scope Z_scope.

(** * Blocks without measurements *)
Definition quietcall (c : call) : Prop := match c with Call (OM | OMX | OMY | OMZ) _ => False | _ => True end.
Definition quiet (b : res (list call)) : Prop := match b with Ok b => Forall quietcall b | Err _ => True end.
Lemma quiet_call c : quietcall c -> no_my c /\ mlab (lg_call c) = [].
Proof.
  destruct c as [o qs|]; [|now split]. intros H. split; [destruct o; first [exact I|contradiction]|]. cbn [lg_call].
  destruct (std_gate o) as [g|] eqn:E; [|reflexivity]. destruct (is_two g); [apply mlab_pairs|]. rewrite mlab_map.
  destruct o; try contradiction; cbn in E; try discriminate; injection E as <-; reflexivity.
Qed.
Lemma quiet_blocks l : Forall quiet l -> ok_blocks l /\ mlab (lg_blocks l) = [].
Proof.
  induction 1 as [|b l H F [IH1 IH2]]; [split; [constructor|reflexivity]|]. split.
  - constructor; [|exact IH1]. destruct b as [b|]; [|exact I]. eapply Forall_impl; [|exact H]. intros c Hc. now apply quiet_call.
  - unfold lg_blocks in *. cbn [flat_map]. rewrite mlab_app, IH2, app_nil_r. destruct b as [b|]; [|reflexivity]. cbn in H.
    unfold lg_block. induction H as [|c b Hc H IH]; [reflexivity|]. cbn [flat_map]. now rewrite mlab_app, IH, (proj2 (quiet_call c Hc)).
Qed.
Lemma ok_app a b : ok_blocks (a ++ b) <-> ok_blocks a /\ ok_blocks b.
Proof. apply Forall_app. Qed.
Lemma lg_app a b : lg_blocks (a ++ b) = lg_blocks a ++ lg_blocks b.
Proof. apply flat_map_app. Qed.
Lemma ran_err e : ~ ran [Err e].
Proof. intros (m & m' & c & H). discriminate. Qed.

(* a generator that measures exactly [qs], at its end *)
Definition measures_only (bl : blocks) (qs : list string) : Prop :=
  (exists e, bl = [Err e]) \/ exists a qs', qs' = qs /\ Forall quiet a /\ (bl = a ++ [Ok [Call OM qs]] \/ exists r, bl = a ++ [Ok [Call OM qs; Call OIDLE r]; tick_block]).
Lemma only_ok bl qs : measures_only bl qs -> ok_blocks bl /\ (ran bl -> mlab (lg_blocks bl) = qs).
Proof.
  intros [[e ->]|(a & q' & -> & Q & H)].
  - split; [repeat constructor|]. intros R. now apply ran_err in R.
  - destruct (quiet_blocks _ Q) as [A B]. destruct H as [->|[r ->]]; (split; [apply ok_app; split; [exact A|repeat constructor]|]);
      intros _; rewrite lg_app, mlab_app, B; cbn [app lg_blocks lg_block flat_map lg_call std_gate is_two]; rewrite !mlab_app, mlab_map; cbn; now rewrite ?app_nil_r.
Qed.
Definition measures_none (bl : blocks) : Prop := Forall quiet bl.

Ltac quiets := unfold tick_block, had_block; repeat first [constructor | apply Forall_app; split | exact I].

Section Rounds.
  Context (ord : nat -> list string -> list string).
  Lemma quiet_cz site l qs k : quiet (cz_block ord site l qs k).
  Proof.
    unfold cz_block. destruct (cz_lists l k); cbn [bind]; [|exact I]. apply Forall_app. split; [|repeat constructor].
    apply Forall_forall. intros x Hx. apply in_map_iff in Hx as (y & <- & _). exact I.
  Qed.
  Lemma quiet_start data anc reset : Forall quiet (round_start data anc reset).
  Proof. unfold round_start. destruct reset; quiets. Qed.
  Lemma css_measures code l reset anc : get_role l "anc" = Ok anc -> measures_only (css_round ord code l reset) anc.
  Proof.
    intros E. unfold css_round. destruct (negb _); [left; eexists; reflexivity|]. destruct (get_role l "data") as [data|]; [|left; eexists; reflexivity].
    cbn [bind]. rewrite E. cbn [bind]. destruct (get_stabs l "x_type") as [xs|]; [|left; eexists; reflexivity]. cbn [bind generator]. right.
    exists (round_start data anc reset ++ [ (do r <- css_rot l anc xs; Ok (had_block ord 0 (dedup (data ++ anc)) r)); tick_block;
         cz_block ord 2 l (dedup (data ++ anc)) 0; tick_block; Ok [Call OH data; Call OIDLE anc]; tick_block;
         cz_block ord 3 l (dedup (data ++ anc)) 1; tick_block; cz_block ord 4 l (dedup (data ++ anc)) 2; tick_block;
         Ok [Call OH data; Call OIDLE anc]; tick_block; cz_block ord 5 l (dedup (data ++ anc)) 3; tick_block;
         (do r <- css_rot l anc xs; Ok (had_block ord 6 (dedup (data ++ anc)) r)); tick_block]), anc.
    split; [reflexivity|]. split.
    - apply Forall_app. split; [apply quiet_start|]. destruct (css_rot l anc xs); cbn [bind];
        repeat (constructor; [first [apply quiet_cz|solve [quiets]]|]); constructor.
    - right. exists data. unfold round_end. now rewrite <- app_assoc.
  Qed.
  Lemma xzzx_measures l reset anc : get_role l "anc" = Ok anc -> measures_only (xzzx_round ord l reset) anc.
  Proof.
    intros E. unfold xzzx_round. destruct (negb _); [left; eexists; reflexivity|]. destruct (get_role l "data") as [data|]; [|left; eexists; reflexivity].
    cbn [bind]. rewrite E. cbn [bind]. destruct (get_stabs l "x_type") as [xs|]; [|left; eexists; reflexivity]. cbn [bind generator]. right.
    exists (round_start data anc reset ++ [ (do r <- xzzx_rot l anc xs; Ok (had_block ord 0 (dedup (data ++ anc)) r)); tick_block;
         cz_block ord 2 l (dedup (data ++ anc)) 0; tick_block; Ok [Call OH data; Call OIDLE anc]; tick_block;
         cz_block ord 3 l (dedup (data ++ anc)) 1; tick_block; cz_block ord 4 l (dedup (data ++ anc)) 2; tick_block;
         Ok [Call OH data; Call OIDLE anc]; tick_block; xzzx_g ord 5 l (dedup (data ++ anc)); tick_block;
         (do r <- xzzx_rot l anc xs; Ok (had_block ord 6 (dedup (data ++ anc)) r)); tick_block]), anc.
    assert (QG : forall qs, quiet (xzzx_g ord 5 l qs)).
    { intros qs. unfold xzzx_g. destruct (cz_lists l 2); cbn [bind]; [|exact I]. destruct (cz_lists l 3); cbn [bind]; [|exact I].
      apply Forall_app. split; [|repeat constructor]. apply Forall_forall. intros x Hx. apply in_map_iff in Hx as (y & <- & _). exact I. }
    split; [reflexivity|]. split.
    - apply Forall_app. split; [apply quiet_start|]. destruct (xzzx_rot l anc xs); cbn [bind];
        repeat (constructor; [first [apply quiet_cz|apply QG|solve [quiets]]|]); constructor.
    - right. exists data. unfold round_end. now rewrite <- app_assoc.
  Qed.
  Lemma quiet_concat (L : list blocks) : Forall (Forall quiet) L -> Forall quiet (concat L).
  Proof. induction 1; [constructor|]. apply Forall_app. now split. Qed.
  Lemma pipe_measures rot l reset anc : get_role l "anc" = Ok anc -> measures_only (pipe_round ord rot l reset) anc.
  Proof.
    intros E. unfold pipe_round. destruct (negb _); [left; eexists; reflexivity|]. destruct (get_role l "data") as [data|]; [|left; eexists; reflexivity].
    cbn [bind]. rewrite E. cbn [bind generator]. right.
    eexists (round_start data anc reset ++ _), anc. split; [reflexivity|]. split; [|right; exists data; rewrite <- app_assoc; reflexivity].
    apply Forall_app. split; [apply quiet_start|]. apply quiet_concat, Forall_forall. intros x Hx. apply in_map_iff in Hx as ([i t] & <- & _). cbn [fst snd].
    unfold pipe_part. destruct (get_stabs l t); cbn [bind generator]; [|repeat constructor].
    destruct (dget_err t (l_order l)); cbn [bind generator]; [|repeat constructor].
    apply Forall_app. split; [destruct i; quiets|]. apply Forall_app. split; [|destruct i; quiets].
    apply quiet_concat, Forall_forall. intros y Hy. apply in_map_iff in Hy as (z & <- & _). quiets.
  Qed.
  Lemma quiet_init_start qs di : Forall quiet (init_start ord qs di).
  Proof. unfold init_start. destruct (excited di); quiets. Qed.
  Lemma init_measures l di rot : Forall quiet (init_blocks ord l di rot).
  Proof.
    unfold init_blocks. destruct (get_role l "anc") as [anc|]; [|quiets]. destruct (get_role l "data") as [data|]; [|quiets].
    cbn [bind generator]. apply Forall_app. split; [apply quiet_init_start|]. destruct rot; quiets.
  Qed.
  Lemma init_xzzx_measures l di rot : Forall quiet (init_xzzx_blocks ord l di rot).
  Proof.
    unfold init_xzzx_blocks. destruct (negb _); [quiets|]. destruct (get_role l "anc") as [anc|]; [|quiets]. destruct (get_role l "data") as [data|]; [|quiets].
    cbn [bind generator]. apply Forall_app. split; [apply quiet_init_start|]. destruct (get_stabs l _); quiets.
  Qed.
  Lemma log_measures l rot data : get_role l "data" = Ok data -> measures_only (log_meas_blocks l rot) data.
  Proof.
    intros E. unfold log_meas_blocks. destruct (get_role l "anc") as [anc|]; [|left; eexists; reflexivity]. cbn [bind]. rewrite E. cbn [bind generator]. right.
    exists ([Ok [Call OINC data]; tick_block] ++ (if rot then [Ok [Call OH data; Call OIDLE anc]; tick_block] else [])), data.
    split; [reflexivity|]. split; [destruct rot; quiets|]. right. exists anc. now rewrite app_assoc.
  Qed.
  Lemma log_xzzx_measures l rot data : get_role l "data" = Ok data -> measures_only (log_meas_xzzx_blocks ord l rot) data.
  Proof.
    intros E. unfold log_meas_xzzx_blocks. destruct (get_role l "anc") as [anc|]; [|left; eexists; reflexivity]. cbn [bind]. rewrite E. cbn [bind generator].
    destruct (get_stabs l _) as [stabs|]; [|left; eexists; reflexivity]. cbn [bind generator]. right.
    exists ([Ok [Call OINC data]; tick_block; Ok (had_block ord 0 (dedup (data ++ anc)) (nw_se l stabs)); tick_block]), data.
    split; [reflexivity|]. split; [quiets|]. right. exists anc. reflexivity.
  Qed.
  Lemma google_coherent_quiet l : Forall quiet (google_coherent ord l).
  Proof.
    unfold google_coherent. destruct (get_role l "data") as [data|]; [|quiets]. cbn [bind].
    destruct (get_stabs l "x_type") as [xs|]; [|quiets]. destruct (get_stabs l "z_type") as [zs|]; [|quiets]. cbn [bind generator]. unfold google_cz, google_cz1. quiets.
  Qed.
  Lemma google_measures l anc : get_role l "anc" = Ok anc -> ok_blocks (google_round ord l) /\ (ran (google_round ord l) -> mlab (lg_blocks (google_round ord l)) = anc).
  Proof.
    intros E. unfold google_round. destruct (negb _). { split; [repeat constructor|]. intros R. now apply ran_err in R. }
    destruct (get_role l "data") as [data|]; [|split; [repeat constructor|]; intros R; now apply ran_err in R]. cbn [bind]. rewrite E. cbn [bind generator].
    destruct (quiet_blocks _ (google_coherent_quiet l)) as [A B]. split; [apply ok_app; split; [exact A|repeat constructor]|].
    intros _. rewrite lg_app, mlab_app, B. cbn [app lg_blocks lg_block flat_map lg_call std_gate is_two tick_block]. rewrite ?app_nil_r, !mlab_app, !mlab_map. cbn. now rewrite ?app_nil_r.
  Qed.
  Lemma google_meas_measures l rot anc data : get_role l "anc" = Ok anc -> get_role l "data" = Ok data ->
    ok_blocks (google_meas ord l rot) /\ (ran (google_meas ord l rot) -> mlab (lg_blocks (google_meas ord l rot)) = anc ++ data).
  Proof.
    intros E E'. unfold google_meas. rewrite E, E'. cbn [bind generator].
    destruct (quiet_blocks _ (google_coherent_quiet l)) as [A B].
    destruct (get_stabs l _) as [stabs|]; cbn [bind]; (split; [apply ok_app; split; [exact A|repeat constructor]|]);
    intros _; rewrite lg_app, mlab_app, B; cbn [app lg_blocks lg_block flat_map lg_call std_gate is_two tick_block had_block]; rewrite ?app_nil_r, !mlab_app, !mlab_map; cbn; now rewrite ?app_nil_r.
  Qed.
End Rounds.

(** * Google's memory experiment *)
Record google_out ordt (d0 : detectors) (qi : dict string Z) (l : layout) (rot gauge : bool) (dets : option (list string)) (R : nat)
    (I : list (gate string)) (G : nat -> list (gate string)) (D : list (gate string)) (c : circuit) : Prop := {
  go_parts : exists ancs ds dsf c01 c2 c3 c4 w2 w3, c = c01 ++ c2 ++ c3 ++ c4 /\
    get_role l "anc" = Ok ancs /\ default_dets l dets = Ok ds /\
    checkless c01 /\ (forall r, (r <= R)%nat -> asked ordt l rot gauge ds r (dsf r)) /\
    trace d0 qi ancs true dsf I G c01 R c2 w2 /\
    round_out d0 qi ancs true R (dsf R) (I ++ Gn G R ++ D) (c01 ++ c2) c3 w3 /\
    meas_out d0 qi ancs l rot true (S R) (dsf R) (I ++ Gn G R ++ D) (fst w3) (c01 ++ c2 ++ c3) c4 }.
Lemma google_meas_out d0 qi ancs n ord l rot ds w w' L c0 c :
  tracked qi (fst w) L c0 -> dst d0 ancs n (snd w) -> get_role l "anc" = Ok ancs ->
  ok_blocks (google_meas ord l rot) ->
  google_log_meas ord l rot (Some ds) w = (w', Ok c) ->
  ran (google_meas ord l rot) /\
  exists c3 c4 w3, c = c3 ++ c4 /\ round_out d0 qi ancs true n ds (L ++ lg_blocks (google_meas ord l rot)) c0 c3 w3 /\
    meas_out d0 qi ancs l rot true (S n) ds (L ++ lg_blocks (google_meas ord l rot)) (fst w3) (c0 ++ c3) c4.
Proof.
  intros T D Ea Om H. unfold google_log_meas in H. destruct (negb _); [discriminate|].
  apply sbind_ok in H as (w1 & anc & H1 & H). unfold slift in H1. injection H1 as <- _. cbn [odef] in H.
  destruct (strict_superset _ _); [discriminate|]. apply sbind_ok in H as (w2 & cb & H2 & H). apply onm_ok in H2 as (m2 & H2 & ->).
  apply sbind_ok in H as (w3 & cd & H3 & H). apply ond_ok in H3 as (d3 & H3 & ->). apply sbind_ok in H as (w4 & ce & H4 & H).
  injection H as <- <-. cbn [fst snd] in *. split; [unfold ran; eauto|].
  destruct (tracked_blocks _ _ _ _ _ _ _ T H2 Om) as [T1 B1].
  pose proof (build_out _ _ _ _ _ _ _ _ _ _ _ _ _ T1 D B1 H3) as O.
  exists (cb ++ cd), ce, (m2, d3). split; [now rewrite app_assoc|]. split; [exact O|].
  apply (log_meas_out _ _ _ _ _ _ _ _ (m2, d3) _ _ _ _) with (2 := rt_dst _ _ _ _ _ _ _ _ _ _ O) (3 := H4).
  destruct O as [_ (cb' & cd' & ls & _ & _ & T' & _)]. exact T'.
Qed.
Lemma google_parts ordt l R di rot dets gauge w w' c :
  wf_inds (inds (fst w)) -> NoDup (labels (snd w)) ->
  memory_google ordt l R di rot dets gauge w = (w', Ok c) ->
  1 <= R /\ google_out ordt (snd w) (inds (fst w)) l rot gauge dets (Z.to_nat (R - 1))
    (lg_blocks (init_xzzx_blocks (ordt 1%nat) l di rot)) (fun r => lg_blocks (google_round (ordt (3 + r)%nat) l))
    (lg_blocks (google_meas (ordt 2%nat) l rot)) c /\
  (forall r, (r < Z.to_nat (R - 1))%nat -> ran (google_round (ordt (3 + r)%nat) l)) /\ ran (google_meas (ordt 2%nat) l rot).
Proof.
  intros W N H. unfold memory_google in H. destruct (Z.leb_spec R 0) as [|HR]; [discriminate|]. split; [lia|].
  apply sbind_ok in H as (w1 & ds & H1 & H). unfold slift in H1. injection H1 as <- H1.
  apply sbind_ok in H as (w2 & c0 & H2 & H). destruct (start_ok _ _ _ _ W H2) as (-> & A0 & B0 & T0). clear H2.
  apply sbind_ok in H as (w3 & c1 & H3 & H).
  destruct (init_ok _ _ _ _ (snd w) _ (new_circuit (fst w), det_new (snd w)) _ _ _ _ N eq_refl T0 H3
     (proj1 (quiet_blocks _ (init_xzzx_measures (ordt 1%nat) l di rot)))) as (ancs & Ea & D1 & B1 & T1). cbn [app] in T1.
  destruct (get_role l "data") as [data|e] eqn:Ed.
  2:{ exfalso. apply init_ran in H3. unfold init_xzzx_blocks in H3. destruct (negb _); [now apply ran_err in H3|]. rewrite Ea, Ed in H3. now apply ran_err in H3. }
  pose proof (google_meas_measures (ordt 2%nat) l rot ancs data Ea Ed) as [Om _].
  assert (B01 : checkless (c0 ++ c1)) by (apply Forall_app; now split).
  destruct (Z.eqb_spec R 1) as [->|Ne].
  - apply sbind_ok in H as (w4 & ds1 & H4 & H). unfold slift in H4. injection H4 as <- H4.
    apply sbind_ok in H as (w5 & c2 & H5 & H). injection H as <- <-.
    destruct (google_meas_out _ _ _ _ _ _ _ _ _ _ _ _ _ T1 D1 Ea Om H5) as (Rm & c3 & c4 & w6 & -> & O3 & O4).
    split; [|split; [cbn; lia|exact Rm]]. constructor. exists ancs, ds, (fun _ => ds1), (c0 ++ c1), [], c3, c4, w3, w6.
    split; [cbn [app]; now rewrite !app_assoc|]. split; [exact Ea|]. split; [exact H1|]. split; [exact B01|]. cbn [Z.to_nat Z.sub Z.add Z.opp Z.pos_sub Pos.pred_double app Gn].
    split; [|split; [|split]].
    + intros r Hr. cbn in Hr. replace r with 0%nat by lia. unfold asked. cbn [Nat.eqb andb]. destruct (negb gauge); [exact H4|congruence].
    + now constructor.
    + rewrite app_nil_r. exact O3.
    + rewrite <- app_assoc in O4. rewrite <- app_assoc. exact O4.
  - apply sbind_ok in H as (w4 & c2 & H4 & H).
    destruct (rounds_trace ordt (snd w) (inds (fst w)) ancs true (lg_blocks (init_xzzx_blocks (ordt 1%nat) l di rot)) (fun r => lg_blocks (google_round (ordt (3 + r)%nat) l))
     _ _ _ _ _ (c0 ++ c1) _ _ _ _ T1 D1 (fun r w w' L c0 c ds T D E => google_round_out _ _ _ _ _ _ _ _ _ _ _ _ T D (proj1 (google_measures (ordt (3 + r)%nat) l ancs Ea)) E) H4) as (dsf & Hd & Ht).
    apply sbind_ok in H as (w5 & c3 & H5 & H). injection H as <- <-.
    destruct (trace_state _ _ _ _ _ _ _ _ _ _ _ Ht) as [T2 D2].
    destruct (google_meas_out _ _ _ _ _ _ _ _ _ _ _ _ _ T2 D2 Ea Om H5) as (Rm & c4 & c5 & w6 & -> & O3 & O4).
    split; [|split; [|exact Rm]].
    2:{ intros r Hr. destruct (Hd r Hr) as (_ & x & y & z & E). unfold google_qec_round in E. apply sbind_ok in E as (w7 & c7 & E & _).
        apply onm_ok in E as (m7 & E & _). unfold ran. eauto. }
    set (n := Z.to_nat (R - 1)) in *.
    constructor. exists ancs, ds, (fun r => if Nat.eqb r n then ds else dsf r), (c0 ++ c1), c2, c4, c5, w4, w6.
    rewrite Nat.eqb_refl. split; [now rewrite !app_assoc|]. split; [exact Ea|]. split; [exact H1|]. split; [exact B01|].
    rewrite <- app_assoc in O3, O4. split; [|split; [|split]].
    + intros r Hr. destruct (Nat.eqb_spec r n) as [->|Nr]; [|apply Hd; lia]. unfold asked.
      destruct (Nat.eqb_spec n 0); [lia|]. reflexivity.
    + now apply trace_upd.
    + exact O3.
    + rewrite (app_assoc (c0 ++ c1)). exact O4.
Qed.
