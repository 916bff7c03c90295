(** C40 for Google's XZZX experiment. *)
From Coq Require Import QArith Qcanon.
From Verif Require Import Base Lib StimM SetupM NoiseM SpecNoise NoiseP LayoutM SpecLayout LayoutP LayoutP2 DetM SpecDet DetP DetCountP
  GenM GenP SpecGen GeomP RotP RotP2 UnrotP
  BlockM ExpM SpecTrack SpecExp TrackP ActP RoundP CssP CssP2 PipeP RoundTopP XzzxP GoogleP LiftP ExpDetP ExpP ExpP2 ExpP3 ExpP4 ExpP5 ExpP6 ExpP7 ExpP8 ExpP9 ExpP10.
Open Scope Z_scope.
Local Opaque rot_ps unrot_ps.

(** * From the checks of the experiment *)
Lemma google_good ordt d0 qi l rot dets R I G D c ancs data bt :
  google_out ordt d0 qi l rot false dets R I G D c ->
  get_role l "anc" = Ok ancs -> (forall a, In a data -> ~ In a ancs) -> get_stabs l (basis_type rot) = Ok bt ->
  (forall s, Permutation (ordt 0%nat 0%nat s) s) ->
  mlab I = [] -> (forall r, mlab (G r) = ancs) -> mlab D = ancs ++ data -> still I -> (forall r, still (G r)) -> still D ->
  (forall r a, (r < R)%nat -> (r = 0%nat -> In a bt) -> In a ancs ->
     bk (I ++ Gn G (S r)) (selT (mlab (I ++ Gn G (S r))) (sel_round true a)) identity_op identity_op) ->
  (forall a, (R = 0%nat -> In a bt) -> In a ancs ->
     bk (I ++ Gn G R ++ D) (selT (mlab (I ++ Gn G R ++ D)) (sel_round true a)) identity_op identity_op) ->
  (forall sup a s, support_from_adj l bt = Ok sup -> In a bt -> dget a sup = Some s ->
     NoDup s /\ exists s', (forall q, In q s <-> In q s') /\
     bk (I ++ Gn G R ++ D) (selT (mlab (I ++ Gn G R ++ D)) (sel_data true s' a)) identity_op identity_op) ->
  (forall lq qs, nth_error (l_logs l) 0 = Some lq -> dget lq (if rot then l_logx l else l_logz l) = Some qs ->
     NoDup qs /\ bk (I ++ Gn G R ++ D) (selT (mlab (I ++ Gn G R ++ D)) (sel_obs qs)) identity_op identity_op) ->
  all_deterministic c.
Proof.
  intros [(ancs' & ds & dsf & c01 & c2 & c3 & c4 & w2 & w3 & -> & Ea & _ & B1 & Ask & Ht & Or & Hm)] Ea' Hda Eb Ho HI HG HD SI SG SD D1 D1' D2 D3.
  rewrite Ea in Ea'. injection Ea' as <-. rename ancs' into ancs.
  assert (Na : NoDup ancs) by (apply trace_state in Ht as [_ X]; apply X).
  assert (As : forall r a, (r <= R)%nat -> In a (dsf r) -> r = 0%nat -> In a bt).
  { intros r a Hr Hd ->. specialize (Ask 0%nat Hr). cbn in Ask. unfold first_dets in Ask. rewrite Eb in Ask. cbn [bind] in Ask.
    injection Ask as Ask. rewrite <- Ask in Hd. eapply Permutation_in in Hd; [|apply Ho]. unfold inter in Hd. apply filter_In in Hd as [_ Hd]. now apply mem_In. }
  assert (SL : still (I ++ Gn G R ++ D)) by (apply still_app; [exact SI|]; apply still_app; [now apply still_Gn|exact SD]).
  assert (CL : forall a, In a ancs -> count a (mlab (I ++ Gn G R ++ D)) = S R).
  { intros a Ha. rewrite !mlab_app, HI, HD, (mlab_Gn G ancs) by auto. cbn [app]. rewrite !count_app, count_times_all by auto.
    rewrite (count_none data a) by (intros Hi; now apply (Hda a)). rewrite (count_nodup a ancs) by exact Na. rewrite (proj2 (mem_In a ancs) Ha). lia. }
  apply good_all. apply good_app; [now apply good_none|]. apply good_app.
  - eapply trace_good with (reset := true) (dsf := dsf) (w := w2); eauto.
    intros r a Hr Hd Ha. apply D1; auto. intros Er. apply (As r a); auto. lia.
  - apply good_app.
    + cbn [app]. eapply (round_good d0 qi ancs true G); try eassumption. intros a Hd Ha. apply D1'; auto. intros Er. eapply (As R); eauto.
    + cbn [app]. rewrite <- !app_assoc. eapply meas_good; [exact Hm| |exact SL|exact CL| |exact D3].
      * destruct Or as [_ (cb & cd & ls & _ & _ & T & _)]. rewrite <- app_assoc in T. exact T.
      * intros stabs sup a s Es Esup. rewrite Eb in Es. injection Es as <-. now apply D2.
Qed.

(** * Regrouping: resets at the end of a round are at the beginning of the next one *)
Definition grf (r : nat) : bool := negb (Nat.eqb r 0).
Definition resets (ancs : list string) (n : nat) : list (gate string) := if grf n then map (G1 GR) ancs else [].
Lemma Gn_after ancs g n : Gn (fun r => after_g ancs (g r)) n = Rn ancs g grf n ++ resets ancs n.
Proof.
  induction n as [|n IH]; [reflexivity|]. cbn [Gn Rn]. rewrite IH. unfold after_g at 1. unfold round_g, resets. cbn [grf Nat.eqb negb app].
  rewrite <- !app_assoc. destruct (grf n); rewrite ?app_nil_l; cbn [app]; rewrite <- ?app_assoc; reflexivity.
Qed.
Lemma resets_id ancs n sel : bk (resets ancs n) sel identity_op identity_op.
Proof.
  unfold resets. destruct (grf n); [|apply bk_nil]. eapply (bk_eq _ _ identity_op); [apply bk_R; reflexivity|apply peq_refl|]. intros q. cbn. destruct (mem q ancs); auto.
Qed.
Lemma mlab_resets ancs n : mlab (resets ancs n) = [].
Proof. apply mlab_nil. unfold resets. destruct (grf n); [|reflexivity]. rewrite num_meas_map. reflexivity. Qed.

(** * The last round *)
Lemma last_bk (ancs data hset : list string) A H1 H2 X sel P : NoDup ancs -> NoDup data -> (forall q, In q data -> ~ In q ancs) -> incl hset data ->
  NoDup H1 -> (forall q, In q H1 <-> In q ancs) -> NoDup H2 -> (forall q, In q H2 <-> In q ancs \/ In q hset) -> NoDup hset ->
  bk ((A ++ map (G1 GH) H1 ++ map (G1 GX) X) ++ map (G1 GM) ancs ++ map (G1 GH) hset ++ map (G1 GM) data) sel identity_op P ->
  bk (A ++ map (G1 GH) H2 ++ map (G1 GM) ancs ++ map (G1 GM) data) sel identity_op P.
Proof.
  intros Na Nd Hda Hh N1 E1 N2 E2 Nh B.
  assert (M1 : forall q, mem q H1 = mem q ancs) by (intros q; apply Bool.eq_true_iff_eq; now rewrite !mem_In).
  assert (M2 : forall q, mem q H2 = mem q ancs || mem q hset) by (intros q; apply Bool.eq_true_iff_eq; rewrite orb_true_iff, !mem_In; apply E2).
  rewrite <- app_assoc in B. apply bk_app_inv in B as (S & B1 & B2).
  eapply bk_app; [|eapply bk_ext; [exact B2|]].
  2:{ intros k _. cbv beta. f_equal. rewrite !num_meas_app, !num_meas_map. cbn [is_meas]. lia. }
  assert (Hsuf : bk ((map (G1 GH) H1 ++ map (G1 GX) X) ++ map (G1 GM) ancs ++ map (G1 GH) hset ++ map (G1 GM) data) sel identity_op
     (let sel' := fun k => sel (k + length data)%nat in
      Pauli (fun q => if mem q ancs then msel ancs sel' q else mem q hset && msel data sel q)
            (fun q => if mem q ancs then false else negb (mem q hset) && msel data sel q))).
  { eapply bk_app; [eapply bk_app; [apply (meas_bk data hset hset sel Nd Nh); tauto|apply bk_M; [exact Na|]]|].
    - intros q Hq. cbn [px]. unfold hs. rewrite (mem_not q hset); [reflexivity|]. intros Hi. apply (Hda q); auto.
    - eapply bk_app; [apply bk_paulis; now left|]. eapply bk_eq; [apply bk_H; exact N1|apply peq_refl|].
      intros q. unfold had. cbn [px pz]. rewrite M1. unfold hs. rewrite !num_meas_app, !num_meas_map. cbn [is_meas].
      destruct (mem q ancs) eqn:Mq.
      + assert (Hq : In q ancs) by now apply mem_In. rewrite (mem_not q hset) by (intros Hi; apply (Hda q); auto).
        rewrite (msel_out data) by (intros Hi; now apply (Hda q)). rewrite !andb_false_r, xorb_false_l. auto.
      + rewrite (msel_out ancs) by (intros Hi; apply mem_In in Hi; congruence). rewrite xorb_false_r. auto. }
  pose proof (bk_fun _ _ _ _ _ B1 Hsuf) as ES.
  eapply bk_eq; [|apply peq_refl|apply peq_sym; exact ES].
  eapply bk_app; [eapply bk_app; [apply bk_M; [exact Nd|reflexivity]|apply bk_M; [exact Na|reflexivity]]|].
  eapply bk_eq; [apply bk_H; exact N2|apply peq_refl|]. intros q. unfold had. cbn [px pz identity_op]. rewrite M2. rewrite !num_meas_map. cbn [is_meas].
  rewrite xorb_false_l. destruct (mem q ancs) eqn:Mq.
  - assert (Hq : In q ancs) by now apply mem_In. cbn [orb]. rewrite (msel_out data) by (intros Hi; now apply (Hda q)). rewrite xorb_false_l. auto.
  - cbn [orb]. rewrite (msel_out ancs) by (intros Hi; apply mem_In in Hi; congruence). rewrite xorb_false_r. destruct (mem q hset); auto.
Qed.

Lemma Gn_ext_lt G G' n : (forall r, (r < n)%nat -> G r = G' r) -> Gn G n = Gn G' n.
Proof. intros E. induction n as [|n IH]; [reflexivity|]. cbn [Gn]. rewrite IH by auto. now rewrite E by lia. Qed.

(** * The checks *)
Section Checks.
  Context (l : layout) (ancs data xs zs lx lz : list string) (C : string -> bool) (rot : bool).
  Hypothesis F : xzzx_facts l ancs data xs zs lx lz C.
  Let Fc := xf_css _ _ _ _ _ _ _ _ F.
  Let hset := nw_se l (if rot then xs else zs).
  Context (g : nat -> list (gate string)).
  Hypothesis Hg : forall r, acts (xzzx l) ancs (g r).
  Context (I : list (gate string)).
  Hypothesis HI : forall sel p, Iok ancs data hset p -> bk I sel p identity_op.
  Hypothesis HIm : mlab I = [].
  Context (R : nat) (A : list (gate string)) (H1 H2 X : list string).
  Hypothesis Elast : g R = A ++ map (G1 GH) H1 ++ map (G1 GX) X.
  Hypothesis N1 : NoDup H1.
  Hypothesis E1 : forall q, In q H1 <-> In q ancs.
  Hypothesis N2 : NoDup H2.
  Hypothesis E2 : forall q, In q H2 <-> In q ancs \/ In q hset.
  Let D := A ++ map (G1 GH) H2 ++ map (G1 GM) ancs ++ map (G1 GM) data.
  Let Dg := map (G1 GH) hset ++ map (G1 GM) data.
  Let G r := after_g ancs (g r).
  Let L := I ++ Gn G R ++ D.
  Let Na := cf_nodup _ _ _ _ _ _ _ Fc.
  Let Nd := css_ndata _ _ _ _ _ _ _ Fc.
  Let Hda := cf_disj _ _ _ _ _ _ _ Fc.
  Lemma Nh : NoDup hset. Proof. apply dedup_NoDup. Qed.
  Lemma mlab_M (qs : list string) : mlab (map (G1 GM) qs) = qs.
  Proof. unfold mlab. induction qs as [|q qs IH]; [reflexivity|]. cbn. now f_equal. Qed.
  Lemma mlab_one_nil gt (qs : list string) : is_meas gt = false -> mlab (map (G1 gt) qs) = [].
  Proof. intros E. apply mlab_nil. rewrite num_meas_map, E. reflexivity. Qed.
  Lemma mlab_A : mlab A = [].
  Proof. apply mlab_nil. destruct (Hg R) as [H _]. rewrite Elast, !num_meas_app in H. lia. Qed.
  Lemma to_L sel : bk (I ++ Rn ancs g grf (S R) ++ Dg) sel identity_op identity_op -> bk L sel identity_op identity_op.
  Proof.
    unfold L, G. rewrite Gn_after. cbn [Rn]. unfold round_g, D, Dg. rewrite Elast. fold (resets ancs R). rewrite <- !app_assoc.
    rewrite (app_assoc I (Rn ancs g grf R)), (app_assoc (I ++ Rn ancs g grf R) (resets ancs R)). intros B.
    rewrite (app_assoc I (Rn ancs g grf R)), (app_assoc (I ++ Rn ancs g grf R) (resets ancs R)).
    apply bk_app_inv in B as (S & B1 & B2). eapply bk_app; [eapply last_bk with (H1 := H1) (H2 := H2) (X := X) (hset := hset)|eapply bk_ext; [exact B2|]]; auto.
    - apply (xz_hset _ _ _ _ _ _ _ _ F).
    - apply Nh.
    - rewrite <- !app_assoc. exact B1.
    - intros k _. cbv beta. f_equal. rewrite !num_meas_app, !num_meas_map. cbn [is_meas]. lia.
  Qed.
  Lemma mlab_L : mlab L = mlab (I ++ Rn ancs g grf (S R) ++ Dg).
  Proof.
    unfold L, G. rewrite Gn_after. cbn [Rn]. unfold D, Dg. rewrite !mlab_app, mlab_resets, mlab_A. rewrite (mlab_round (xzzx l) ancs g Hg).
    rewrite !mlab_M, !mlab_one_nil by reflexivity. now rewrite ?app_nil_l, ?app_nil_r, <- !app_assoc.
  Qed.
  Lemma HDg sel : bk Dg sel identity_op (Pauli (fun q => hs hset q && msel data sel q) (fun q => negb (hs hset q) && msel data sel q)).
  Proof. apply meas_bk; [exact Nd|apply Nh|reflexivity]. Qed.
  Lemma HDgm : mlab Dg = data.
  Proof. unfold Dg. rewrite mlab_app, mlab_M, mlab_one_nil by reflexivity. reflexivity. Qed.

  Let In_ := xz_in _ _ _ _ _ _ _ _ F.
  Let Hh := xz_hset _ _ _ _ _ _ _ _ F rot.
  Let Com := xz_com _ _ _ _ _ _ _ _ F.
  Let Bt := xz_bt _ _ _ _ _ _ _ _ F rot.
  Lemma Hrf : forall r, (1 <= r)%nat -> grf r = true. Proof. intros [|r] H; [lia|reflexivity]. Qed.
  Lemma google_round_det r a : In a ancs -> (r = 0%nat -> In a (if rot then xs else zs)) ->
    bk (I ++ Gn G (S r)) (selT (mlab (I ++ Gn G (S r))) (sel_round true a)) identity_op identity_op.
  Proof.
    intros Ha Hb. unfold G. rewrite Gn_after, app_assoc. rewrite mlab_app, mlab_resets, app_nil_r, (mlab_IRn ancs g grf I HIm).
    eapply bk_app; [apply resets_id|]. eapply bk_ext.
    - apply (round_det (xzzx l) ancs data hset Na Hda In_ Hh Com g grf Hg I HI HIm _ _ Bt true Hrf (fun E => match Bool.diff_true_false E with end) (S r) a Ha); [lia|].
      intros E. apply Hb. lia.
    - intros k _. cbv beta. f_equal. rewrite <- mlab_len, mlab_resets. cbn. lia.
  Qed.
  Lemma google_last_det a : In a ancs -> (R = 0%nat -> In a (if rot then xs else zs)) ->
    bk L (selT (mlab L) (sel_round true a)) identity_op identity_op.
  Proof.
    intros Ha Hb. apply to_L. rewrite mlab_L. rewrite app_assoc.
    apply (data_step data hset Nd Dg HDg HDgm). cbv zeta.
    assert (Z : forall q, mem q data && sel_round true a q 1 = false).
    { intros q. destruct (mem q data) eqn:M; [|reflexivity]. apply mem_In in M. unfold sel_round.
      rewrite (proj2 (eqb_neq a q)); [reflexivity|]. intros ->. now apply (Hda q). }
    eapply (bk_eq _ _ identity_op); [|intros q; cbn [px pz identity_op]; rewrite Z, !andb_false_r; split; reflexivity|apply peq_refl].
    rewrite (mlab_IRn ancs g grf I HIm). eapply bk_ext.
    - apply (round_det (xzzx l) ancs data hset Na Hda In_ Hh Com g grf Hg I HI HIm _ _ Bt true Hrf (fun E => match Bool.diff_true_false E with end) (S R) a Ha); [lia|].
      intros E. apply Hb. lia.
    - intros k Hk. apply selT_ext; [lia|]. intros q j _ Hj. unfold Tround, sel_round. destruct (eqb_spec a q) as [<-|]; [|reflexivity].
      rewrite count_none by (intros Hi; now apply (Hda a)). now rewrite Nat.add_0_r.
  Qed.
  Lemma google_data_det a : In a (if rot then xs else zs) -> bk L (selT (mlab L) (sel_data true (support l a) a)) identity_op identity_op.
  Proof.
    intros Ha. apply to_L. rewrite mlab_L.
    exact (data_det (xzzx l) ancs data hset Na Nd Hda In_ Hh Com g grf Hg I HI HIm _ _ Bt true Dg HDg HDgm (S R) a Ha).
  Qed.
  Lemma google_obs_det : let lq := if rot then lx else lz in incl lq data -> bk L (selT (mlab L) (sel_obs lq)) identity_op identity_op.
  Proof.
    intros lq Hl. apply to_L. rewrite mlab_L.
    exact (obs_det (xzzx l) ancs data hset Na Nd Hda In_ Com g grf Hg I HI HIm _ _ Bt Dg HDg HDgm lq Hl (xz_log _ _ _ _ _ _ _ _ F rot) (S R)).
  Qed.
End Checks.

(** * The generated layouts *)
Definition gco (l : layout) (ps : list placed) (dirn : Z * Z -> string) (s0 s1 s2 s3 : Z * Z) (ord : nat -> list string -> list string) : list (gate string) :=
  let anc2 := labs ps KX ++ labs ps KZ in
  map (G1 GH) (ord 0%nat (dedup anc2)) ++ map (G1 GX) (ord 1%nat (dedup (labs ps KD))) ++ cz_gates (B0 l dirn ps s0) ++
  map (G1 GH) (ord 3%nat (dedup (labs ps KD))) ++ map (G1 GX) (ord 4%nat (dedup anc2)) ++ cz_gates (B1 l dirn ps s1 s2) ++
  map (G1 GX) (ord 6%nat (gq ps)) ++ cz_gates (B2 l dirn ps s1 s2) ++
  map (G1 GH) (ord 8%nat (dedup (labs ps KD))) ++ map (G1 GX) (ord 9%nat (dedup anc2)) ++ cz_gates (B3 l dirn ps s3).
Lemma ginner_split l dirn ps s0 s1 s2 s3 ord : ginner l dirn ps s0 s1 s2 s3 ord =
  gco l ps dirn s0 s1 s2 s3 ord ++ map (G1 GH) (ord 11%nat (dedup (ancs ps))) ++ map (G1 GX) (labs ps KD).
Proof. unfold ginner, gco. cbv zeta. rewrite <- !app_assoc. reflexivity. Qed.
Lemma google_meas_gates l shifts dirn pt ps s0 s1 s2 s3 ord rot stabs : planar l shifts dirn pt ps ->
  dirn s0 = "north_east" -> dirn s1 = "north_west" -> dirn s2 = "south_east" -> dirn s3 = "south_west" ->
  get_stabs l (basis_type rot) = Ok stabs ->
  lg_blocks (google_meas ord l rot) = gco l ps dirn s0 s1 s2 s3 ord ++
    map (G1 GH) (ord 11%nat (union (dedup (ancs ps)) (nw_se l stabs))) ++ map (G1 GM) (ancs ps) ++ map (G1 GM) (labs ps KD).
Proof.
  intros P D0 D1 D2 D3 Es. unfold google_meas, google_coherent. unfold basis_type in Es. rewrite Es.
  rewrite (pn_data _ _ _ _ _ P), (pn_anc _ _ _ _ _ P), (pn_x _ _ _ _ _ P), (pn_z _ _ _ _ _ P). cbn [bind generator].
  fold (labs ps KD). fold (ancs ps). fold (labs ps KX). fold (labs ps KZ). rewrite <- D0, <- D1, <- D2, <- D3. fold (gq ps).
  unfold gco, google_cz, google_cz1, had_block, tick_block, lg_blocks, lg_block.
  fold (B0 l dirn ps s0). fold (B1 l dirn ps s1 s2). fold (B2 l dirn ps s1 s2). fold (B3 l dirn ps s3).
  cbn [flat_map lg_call std_gate is_two app]. rewrite !app_nil_r, !pair_gates_flat. unfold cz_gates. rewrite <- !app_assoc. reflexivity.
Qed.
Lemma C40_google_lemma ordt a l R di rot dets w w' c : (forall t n s, Permutation (ordt t n s) s) ->
  SpecNoise.wf_inds (inds (fst w)) -> NoDup (labels (snd w)) ->
  2 <= ga_dx a -> 2 <= ga_dz a -> rot_surface_code_rectangle a = Ok l ->
  memory_google ordt l R di rot dets false w = (w', Ok c) -> all_deterministic c.
Proof.
  intros Hp W N Hx Hz E H. destruct (rot_planar a) as (l1 & r & E1 & _ & _ & P & _ & _ & _ & _ & _ & _ & Hc); [lia|lia|]. rewrite E in E1. injection E1 as <-.
  destruct (rot_code a) as (l1 & data & xs & zs & lx & lz & E1 & cc & _); [lia|lia|]. rewrite E in E1. injection E1 as <-.
  pose proof (rot_xzzx_facts a l Hx Hz P _ _ _ _ _ _ cc) as F. pose proof (xf_css _ _ _ _ _ _ _ _ F) as Fc.
  destruct (cc_nodup _ _ _ _ _ _ _ cc) as (_ & Nx & Nz). destruct (cc_log _ _ _ _ _ _ _ cc) as [Ix Iz].
  apply google_any in H as (HR & ancs0 & data0 & Ea & Ed & Na & Hout & HIm & _ & HDm); [|exact W|exact N].
  pose proof (pn_anc _ _ _ _ _ P) as Ea'. rewrite Ea in Ea'. injection Ea' as ->. fold (ancs (rot_ps a)) in *.
  pose proof (css_data _ _ _ _ _ _ _ Fc) as Ed'. rewrite Ed in Ed'. injection Ed' as ->.
  assert (Edl : labs (rot_ps a) KD = data) by (pose proof (pn_data _ _ _ _ _ P) as Ed'; rewrite Ed in Ed'; injection Ed' as ->; reflexivity).
  set (I := lg_blocks (init_xzzx_blocks (ordt 1%nat) l di rot)) in *. set (n := Z.to_nat (R - 1)) in *.
  set (gi := ginner l rot_dirn (rot_ps a) (1, 1) (1, -1) (-1, 1) (-1, -1)).
  assert (Hgi : forall o, (forall k s, Permutation (o k s) s) -> acts (xzzx l) (ancs (rot_ps a)) (gi o) /\ lg_blocks (google_round o l) = after_g (ancs (rot_ps a)) (gi o)).
  { intros o Ho. split.
    - apply (google_acts l rot_shifts rot_dirn (rot_pt a) (rot_ps a) P (1, 1) (1, -1) (-1, 1) (-1, -1)); auto.
      + apply rot_Ns.
      + intros p q s. now apply (rot_HG a l).
      + intros p q s. apply rot_HC.
    - now apply (google_gates l rot_shifts rot_dirn (rot_pt a) (rot_ps a) P (1, 1) (1, -1) (-1, 1) (-1, -1)). }
  set (g := fun r => gi (if Nat.eqb r n then ordt 2%nat else ordt (3 + r)%nat)).
  assert (Hg : forall r, acts (xzzx l) (ancs (rot_ps a)) (g r)) by (intros r0; unfold g; apply Hgi; intros k s; destruct (Nat.eqb r0 n); apply Hp).
  pose proof (xz_stabs _ _ _ _ _ _ _ _ F rot) as Es.
  set (stabs := if rot then xs else zs) in *.
  pose proof (google_meas_gates l rot_shifts rot_dirn (rot_pt a) (rot_ps a) (1, 1) (1, -1) (-1, 1) (-1, -1) (ordt 2%nat) rot stabs P eq_refl eq_refl eq_refl eq_refl Es) as ED.
  rewrite Edl in ED.
  assert (HI : forall sel p, Iok (ancs (rot_ps a)) data (nw_se l stabs) p -> bk I sel p identity_op).
  { intros sel p. apply (xz_init _ _ _ _ _ _ _ _ F); auto. }
  assert (EL : g n = gco l (rot_ps a) rot_dirn (1, 1) (1, -1) (-1, 1) (-1, -1) (ordt 2%nat) ++ map (G1 GH) (ordt 2%nat 11%nat (dedup (ancs (rot_ps a)))) ++ map (G1 GX) (labs (rot_ps a) KD)).
  { unfold g, gi. rewrite Nat.eqb_refl. apply ginner_split. }
  assert (N1 : NoDup (ordt 2%nat 11%nat (dedup (ancs (rot_ps a))))) by (eapply Permutation_NoDup; [symmetry; apply Hp|apply dedup_NoDup]).
  assert (E1 : forall q, In q (ordt 2%nat 11%nat (dedup (ancs (rot_ps a)))) <-> In q (ancs (rot_ps a))).
  { intros q. rewrite <- (dedup_In (ancs (rot_ps a)) q). split; apply Permutation_in; [apply Hp|symmetry; apply Hp]. }
  set (H2 := ordt 2%nat 11%nat (union (dedup (ancs (rot_ps a))) (nw_se l stabs))) in *.
  assert (N2 : NoDup H2) by (eapply Permutation_NoDup; [symmetry; apply Hp|apply dedup_NoDup]).
  assert (E2 : forall q, In q H2 <-> In q (ancs (rot_ps a)) \/ In q (nw_se l stabs)).
  { intros q. transitivity (In q (union (dedup (ancs (rot_ps a))) (nw_se l stabs))); [split; apply Permutation_in; [apply Hp|symmetry; apply Hp]|].
    unfold union. rewrite dedup_In, in_app_iff, dedup_In. reflexivity. }
  assert (EG : forall k, (k <= n)%nat -> Gn (fun r0 => lg_blocks (google_round (ordt (3 + r0)%nat) l)) k = Gn (fun r0 => after_g (ancs (rot_ps a)) (g r0)) k).
  { intros k Hk. apply Gn_ext_lt. intros r0 Hr0. unfold g. destruct (Nat.eqb_spec r0 n); [lia|]. apply Hgi. apply Hp. }
  eapply google_good; [exact Hout|exact Ea|apply (cf_disj _ _ _ _ _ _ _ Fc)|exact Es|intros s; apply Hp|exact HIm| |exact HDm| | | | | | |].
  - intros r0. cbv beta. rewrite (proj2 (Hgi _ (Hp (3 + r0)%nat))). unfold after_g. rewrite mlab_app.
    rewrite (mlab_round (xzzx l) (ancs (rot_ps a)) (fun _ => gi (ordt (3 + r0)%nat)) (fun _ => proj1 (Hgi _ (Hp (3 + r0)%nat))) 0%nat false).
    rewrite mlab_one_nil by reflexivity. apply app_nil_r.
  - apply still_blocks.
  - intros r0. apply still_blocks.
  - apply still_blocks.
  - intros r0 b Hr0 Hb Hin. rewrite EG by lia.
    apply (google_round_det l (ancs (rot_ps a)) data xs zs lx lz _ rot F g Hg I HI HIm n _ H2 E1 E2 r0 b Hin Hb).
  - intros b Hb Hin. rewrite EG, ED by lia.
    apply (google_last_det l (ancs (rot_ps a)) data xs zs lx lz _ rot F g Hg I HI HIm n _ _ H2 _ EL N1 E1 N2 E2 b Hin Hb).
  - intros sup b s Esup Hb Hs. destruct (support_lemma l stabs sup (pn_wf _ _ _ _ _ P) Esup b Hb) as (s0 & E0 & N0 & H0). rewrite Hs in E0. injection E0 as <-.
    split; [exact N0|]. exists (support l b). split; [exact H0|]. rewrite EG, ED by lia.
    apply (google_data_det l (ancs (rot_ps a)) data xs zs lx lz _ rot F g Hg I HI HIm n _ _ H2 _ EL N1 E1 N2 E2 b Hb).
  - intros lq qs El Eq. rewrite (cc_logs _ _ _ _ _ _ _ cc) in El. injection El as <-.
    assert (qs = if rot then lx else lz) as ->.
    { destruct rot; [rewrite (cc_lx _ _ _ _ _ _ _ cc) in Eq|rewrite (cc_lz _ _ _ _ _ _ _ cc) in Eq]; congruence. }
    split; [destruct rot; assumption|]. rewrite EG, ED by lia.
    apply (google_obs_det l (ancs (rot_ps a)) data xs zs lx lz _ rot F g Hg I HI HIm n _ _ H2 _ EL N1 E1 N2 E2). destruct rot; assumption.
Qed.
