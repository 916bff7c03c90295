(** The circuit distance of Google's XZZX experiment. *)
From Coq Require Import QArith Qcanon.
From Verif Require Import Base Lib StimM SetupM NoiseM SpecNoise NoiseP LayoutM SpecLayout LayoutP LayoutP2 DetM SpecDet DetP DetCountP
  GenM GenP SpecGen GeomP RotP RotP2 UnrotP BlockM ExpM SpecTrack SpecExp SpecFault TrackP ActP RoundP CssP CssP2 PipeP RoundTopP XzzxP GoogleP
  LiftP ExpDetP ExpP ExpP2 ExpP3 ExpP4 ExpP5 ExpP6 ExpP7 ExpP8 ExpP9 ExpP10 ExpP11 ExpP12 FaultP FaultP2 FaultP3 FaultP4 FaultP5 FaultP6 FaultP7 FaultP8.
Open Scope Z_scope.
Local Opaque rot_ps unrot_ps.

(** * Detectors *)
Section Exp.
  Context (ordt : nat -> nat -> list string -> list string).
  Hypothesis Hp : forall t n s, Permutation (ordt t n s) s.
  Context (d0 : detectors) (qi : dict string Z) (l : layout) (rot gauge : bool) (dets : option (list string)) (R : nat).
  Context (I : list (gate string)) (G : nat -> list (gate string)) (D : list (gate string)) (c : circuit).
  Context (ancs data bts : list string).
  Hypothesis Ea : get_role l "anc" = Ok ancs.
  Hypothesis Eb : get_stabs l (basis_type rot) = Ok bts.
  Hypothesis Hb : incl bts ancs.
  Hypothesis Hdets : forall ds, dets = Some ds -> incl bts ds.
  Hypothesis Nd : NoDup data.
  Hypothesis Hda : forall q, In q data -> ~ In q ancs.
  Hypothesis HI : mlab I = [].
  Hypothesis HG : forall r, mlab (G r) = ancs.
  Hypothesis HD : mlab D = ancs ++ data.
  Context (fs : list fault).
  Let fl := outcome_flipped c fs.
  Hypothesis Un : undetected c fs.
  Lemma google_parities lq lg : wf l -> google_out ordt d0 qi l rot gauge dets R I G D c -> NoDup lq -> incl lq data ->
    (forall a, In a bts -> incl (support l a) data) ->
    l_logs l = [lg] -> dget lg (if rot then l_logx l else l_logz l) = Some lq ->
    (forall a, In a bts -> flipped_parity data c fs (support l a) = false) /\
    (logical_error c fs -> flipped_parity data c fs lq = true).
  Proof.
    intros Wl [(ancs' & ds & dsf & c01 & c2 & c3 & c4 & w2 & w3 & Ec & Ea' & Ed & B1 & Ask & Ht & Or & Hm)] Nlq Ilq Hsup Elog Elq.
    rewrite Ea in Ea'. injection Ea' as <-. destruct (labels_known d0 qi true I G ancs _ _ _ _ _ Ht) as [Na Kn].
    assert (Hds : forall r, (r <= R)%nat -> incl bts (dsf r)).
    { intros r Hr a Ha. apply (asked_shown ordt Hp l rot gauge dets ds ancs r _ a Ea Ed (Ask r Hr)). split; [eauto|]. split; [intros ds' E; now apply (Hdets ds')|]. intros _ _. exists bts. auto. }
    assert (Nad : NoDup (ancs ++ data)) by (apply NoDup_app_intro; auto; intros q H1 H2; now apply (Hda q)).
    set (ML := mlab (I ++ Gn G R)).
    assert (EM : mlab (I ++ Gn G R ++ D) = ML ++ ancs ++ data) by (unfold ML; now rewrite !mlab_app, HD, app_assoc).
    assert (Q0 : forall a p, In a bts -> nth_error ML p = Some a -> fl p = false).
    { apply (anc_quiet ordt Hp d0 qi true dets R I G c ancs data bts Hb Hdets Hda HI HG fs Un _ _ _ _ _ Ht (fun r Hr => Hds r ltac:(lia)) (c3 ++ c4)). rewrite Ec, <- !app_assoc. reflexivity. }
    destruct Or as [Dst (cb & cd & ls & -> & T & T' & NC & An & P & F)].
    assert (Q1 : forall a p, In a bts -> nth_error (ML ++ ancs) p = Some a -> fl p = false).
    { intros a p Ha Hn. destruct (Nat.lt_ge_cases p (length ML)) as [Lp|Lp]; [rewrite nth_error_app1 in Hn by exact Lp; now apply (Q0 a)|].
      rewrite nth_error_app2 in Hn by exact Lp.
      destruct (Forall2_pick _ _ _ a F) as (r1 & i & r2 & Ecd & (xs & X1 & X2 & X3) & _ & _ & K); [apply (Permutation_in _ (Permutation_sym P)); auto|].
      rewrite Ecd in An. apply Forall_app in An as [An _].
      assert (T1 : tracked qi (fst w3) (I ++ Gn G R ++ D) (((c01 ++ c2) ++ cb) ++ r1)) by now apply tracked_ann.
      assert (Ec' : c = (((c01 ++ c2) ++ cb) ++ r1) ++ i :: r2 ++ c4) by (rewrite Ec, Ecd, <- !app_assoc; reflexivity).
      pose proof (Un _ _ _ Ec' X2) as U.
      rewrite (check_val ordt Hp qi dets R G c ancs bts Hdets HG fs _ i (I ++ Gn G R ++ D) _ _ T1 (K (Hds R ltac:(lia) a Ha) (Hb a Ha))) in U.
      rewrite EM, (val_round (outcome_flipped c fs) true (S R) ML (ancs ++ data) a (p - length ML)%nat Nad) in U.
      - rewrite <- U. unfold fl. f_equal. lia.
      - rewrite nth_error_app1; [exact Hn|]. apply nth_error_Some. congruence.
      - intros p' Hp'. now apply (Q0 a). }
    eapply (end_parities ordt Hp d0 qi l rot true dets R G c ancs data bts Eb Hb Hdets Nd Hda HG fs Un _ (ML ++ ancs) (fst w3) (S R) (dsf R) (c01 ++ c2 ++ cb ++ cd) c4); eauto.
    - rewrite Ec, <- !app_assoc. reflexivity.
    - rewrite <- !app_assoc in T'. exact T'.
    - apply Forall_app. split; [now apply checkless_no_obs|]. apply Forall_app. split; [eapply trace_no_obs; eauto|].
      eapply (round_no_obs d0 qi ancs); constructor; [exact Dst|]. exists cb, cd, ls. repeat (split; [eassumption || reflexivity|]). exact F.
    - now rewrite EM, app_assoc.
    - intros q Hq. apply in_app_iff in Hq as [Hq|Hq]; [|exact Hq]. now apply (rounds_labels I G ancs HI HG R).
  Qed.
End Exp.

(** * Places *)
Section Place.
  Context (st : stabilizers) (ancs data hset : list string).
  Hypothesis Na : NoDup ancs.
  Hypothesis Nd : NoDup data.
  Hypothesis Hda : forall q, In q data -> ~ In q ancs.
  Hypothesis Hh : incl hset data.
  Hypothesis Nh : NoDup hset.
  Context (g : nat -> list (gate string)) (rf : nat -> bool).
  Hypothesis Hg : forall r, acts st ancs (g r).
  Context (R : nat) (A : list (gate string)) (H1 H2 X : list string).
  Hypothesis Elast : g R = A ++ map (G1 GH) H1 ++ map (G1 GX) X.
  Hypothesis N1 : NoDup H1.
  Hypothesis E1 : forall q, In q H1 <-> In q ancs.
  Hypothesis N2 : NoDup H2.
  Hypothesis E2 : forall q, In q H2 <-> In q ancs \/ In q hset.
  Local Notation classified := (classified st ancs data hset g).
  Local Notation good := (FaultP3.good st ancs data hset).
  Local Notation pl := (pl st ancs data hset).
  Definition Dg : list (gate string) := map (G1 GH) H2 ++ map (G1 GM) ancs ++ map (G1 GM) data.
  Local Notation Bg := (map (G1 GM) ancs ++ Df data hset).
  Lemma Bg_good : good Bg.
  Proof. apply (M_good st ancs data hset Hda g rf Hg); auto; [apply incl_refl|]. apply D_good; auto. Qed.
  Lemma same_last s : same data (s ++ Dg) ((s ++ map (G1 GH) H1 ++ map (G1 GX) X) ++ Bg).
  Proof. intros S P B. unfold Dg. apply (last_bk ancs data hset s H1 H2 X); auto. Qed.
  Lemma last_good : good (A ++ Dg).
  Proof.
    split; [unfold Dg; rewrite !num_meas_app, !num_meas_map; cbn [is_meas]; lia|]. intros S F. apply same_last. rewrite <- Elast.
    apply (body_good st ancs data hset Hda g rf Hg R Bg Bg_good). exact F.
  Qed.
  Lemma pl_anc l : NoDup l -> incl l ancs -> pl (fun _ => false) (fun q => mem q data) (map (G1 GM) l ++ map (G1 GM) data).
  Proof.
    intros N Hi S F. eapply bk_app; [apply (pl_meas st ancs data hset Nd [] data eq_refl S F)|]. apply (bk_out st ancs data g rf Hg); [rewrite num_meas_map; cbn [is_meas]; lia|].
    eapply bk_eq; [apply (bk_M l); [exact N|]|apply peq_refl|].
    - intros q _. cbn [px]. now rewrite !andb_false_r.
    - intros q. cbn [px pz]. rewrite (msel_false l q), xorb_false_r. split; reflexivity.
  Qed.
  Lemma last_class C B : A ++ Dg = C ++ B -> classified B.
  Proof.
    intros E. apply split_app in E as [(U2 & E & Ne & ->)|(A1 & -> & E)].
    { right. exists R, C, (U2 ++ map (G1 GH) H1 ++ map (G1 GX) X), Bg. split; [rewrite Elast, E, <- app_assoc; reflexivity|].
      split; [apply same_last|]. split; [apply Bg_good|]. intros n b q B1 EB. destruct U2 as [|h U2]; [congruence|]. cbn in EB. injection EB as -> <-.
      exists (U2 ++ map (G1 GH) H1 ++ map (G1 GX) X). split; [reflexivity|]. apply same_last. }
    unfold Dg in E. apply split_app in E as [(U2 & E & Ne & ->)|(A2 & -> & E)].
    { apply map_split in E as (l1 & l2 & El & _ & ->). apply pl_not_head.
      - do 2 eexists. apply pl_H; [rewrite El in N2; now apply NoDup_app_inv in N2|]. apply pl_anc; [exact Na|apply incl_refl].
      - intros. apply one_head. intros ->. now apply Ne. }
    apply split_app in E as [(U2 & E & Ne & ->)|(A3 & -> & E)].
    { apply map_split in E as (l1 & l2 & El & _ & ->). apply pl_not_head.
      - do 2 eexists. apply pl_anc; [rewrite El in Na; now apply NoDup_app_inv in Na|rewrite El; apply incl_appr, incl_refl].
      - intros. apply one_head. intros ->. now apply Ne. }
    apply map_split in E as (d1 & d2 & Ed & _ & ->). apply pl_not_head.
    - do 2 eexists. exact (pl_meas st ancs data hset Nd d1 d2 Ed).
    - intros n b q B' E. destruct d2; discriminate E.
  Qed.
  Lemma resets_class n Y C B : good Y -> resets ancs n ++ Y = C ++ B -> classified B \/ exists A', C = resets ancs n ++ A' /\ Y = A' ++ B.
  Proof.
    intros G E. unfold resets in *. destruct (grf n); [|right; exists C; auto]. apply split_app in E as [(U2 & E & Ne & ->)|(A1 & -> & E)]; [|right; exists A1; auto].
    left. apply map_split in E as (l1 & l2 & El & _ & ->). apply pl_not_head.
    - do 2 eexists. apply good_pl. apply (R_good st ancs data hset Hda g rf Hg); [rewrite El; apply incl_appr, incl_refl|exact G].
    - intros. apply one_head. intros ->. now apply Ne.
  Qed.
  Lemma google_class Rq Xi H0 C B : NoDup H0 -> (forall q, mem q H0 = hs hset q) ->
    If Rq Xi H0 ++ Rn ancs g grf R ++ resets ancs R ++ A ++ Dg = C ++ B -> classified B.
  Proof.
    intros N0 E0 E. assert (G1 : good (resets ancs R ++ A ++ Dg)).
    { unfold resets. destruct (grf R); [apply (R_good st ancs data hset Hda g rf Hg); [apply incl_refl|]|cbn [app]]; apply last_good. }
    assert (G2 : good (Rn ancs g grf R ++ resets ancs R ++ A ++ Dg)) by (apply rounds_good; auto).
    apply (I_class st ancs data hset g Rq Xi H0 N0 E0) in E as [K|(A1 & _ & E)]; [exact K| |exact G2].
    apply (rounds_class st ancs data hset Na Hda g grf Hg) in E as [K|(A2 & _ & E)]; [exact K| |exact G1].
    apply resets_class in E as [K|(A3 & _ & E)]; [exact K| |apply last_good]. now apply last_class in E.
  Qed.
End Place.

(** * The gates of the round *)
Lemma hn_X L q : hn (map (G1 GX) L) q = 0%nat.
Proof. induction L as [|p L IH]; [reflexivity|exact IH]. Qed.
Lemma czs_X L b : czs (map (G1 GX) L) b = [].
Proof. induction L as [|p L IH]; [reflexivity|exact IH]. Qed.
Lemma okb_X ancs L s : okb ancs s -> okb ancs (map (G1 GX) L ++ s).
Proof. intros O. induction L as [|p L IH]; [exact O|exact IH]. Qed.
Definition row (l : layout) (dir : option string) (q : string) : list (string * string) :=
  map (fun e => (fst e, fst (snd e))) (filter (fun e => match dir with None => true | Some d => eqb (snd (snd e)) d end)
    (match dget q (l_adj l) with Some d => map (fun nd : string * string => (q, nd)) d | None => [] end)).
Lemma pairs_row l qs dir : get_pairs l qs dir = flat_map (row l dir) (dedup qs).
Proof.
  unfold get_pairs, out_edges, row. induction (dedup qs) as [|q ks IH]; [reflexivity|]. cbn [flat_map]. now rewrite filter_app, map_app, IH.
Qed.
Lemma row_fst l dir q p : In p (row l dir q) -> fst p = q.
Proof.
  unfold row. intros H. apply in_map_iff in H as (e & <- & H). apply filter_In in H as [H _]. destruct (dget q (l_adj l)); [|destruct H].
  apply in_map_iff in H as (nd & <- & _). reflexivity.
Qed.
Lemma filter_rows l dir (b : string) ks : NoDup ks -> filter (fun p : string * string => eqb (fst p) b) (flat_map (row l dir) ks) = if mem b ks then row l dir b else [].
Proof.
  assert (A : forall L : list (string * string), (forall p, In p L -> fst p = b) -> filter (fun p => eqb (fst p) b) L = L).
  { intros L H. apply RotP2.filter_all_true. intros p Hi. rewrite (H p Hi). apply eqb_refl. }
  assert (B : forall q, q <> b -> filter (fun p : string * string => eqb (fst p) b) (row l dir q) = []).
  { intros q Nq. apply RotP2.filter_all_false. intros p Hi. apply row_fst in Hi. rewrite Hi. now apply eqb_neq. }
  induction 1 as [|q ks Hn N IH]; [reflexivity|]. cbn [flat_map]. rewrite filter_app, IH. cbn [mem existsb]. rewrite (eqb_sym b q). unfold mem.
  destruct (eqb_spec q b) as [->|Ne].
  - fold (mem b ks). rewrite (mem_not b ks Hn), app_nil_r. cbn [orb]. apply A. intros p. apply row_fst.
  - fold (mem b ks). cbn [orb]. now rewrite B.
Qed.
Lemma czs_pairs l qs dir b : czs (cz_gates (get_pairs l qs dir)) b = if mem b qs then map snd (row l dir b) else [].
Proof.
  rewrite czs_cz, pairs_row, filter_rows by apply dedup_NoDup. assert (E : mem b (dedup qs) = mem b qs) by (apply Bool.eq_true_iff_eq; rewrite !mem_In; apply dedup_In).
  rewrite E. destruct (mem b qs); reflexivity.
Qed.
Section GoogleSafe.
  Context (l : layout) (shifts : list (Z * Z)) (dirn : Z * Z -> string) (pt : Qc * Qc) (ps : list placed).
  Hypothesis P : planar l shifts dirn pt ps.
  Context (s0 s1 s2 s3 : Z * Z).
  Hypothesis Ps : Permutation shifts [s0; s1; s2; s3].
  Context (ord : nat -> list string -> list string).
  Hypothesis Hp : forall k s, Permutation (ord k s) s.
  Local Notation labs := (labs ps).
  Local Notation ancs := (ancs ps).
  Local Notation anc2 := (labs KX ++ labs KZ).
  Local Notation g := (ginner l dirn ps s0 s1 s2 s3 ord).
  Lemma anc2_all b : In b ancs -> mem b (dedup anc2) = true.
  Proof.
    intros Hb. apply (anc_place ps) in Hb as (p & Hi & K & <-). apply mem_In, dedup_In, in_app_iff. destruct (knd p) eqn:Kp; [congruence|left|right];
      apply mem_In; rewrite (mem_labs _ _ _ _ _ P) by assumption; now apply isk_eq.
  Qed.
  Lemma ancs_all b : In b ancs -> mem b (dedup ancs) = true.
  Proof. intros Hb. now apply mem_In, dedup_In. Qed.
  Lemma data_none b : In b ancs -> mem b (dedup (labs KD)) = false.
  Proof. intros Hb. apply not_true_iff_false. rewrite mem_In, dedup_In, <- mem_In, (data_not l shifts dirn pt ps P b Hb). discriminate. Qed.
  Lemma ginner_hn b : In b ancs -> hn g b = 2%nat.
  Proof.
    intros Hb. unfold ginner. rewrite !hn_app, !hn_cz, !hn_X, !hn_H, !(ord_mem ord Hp), anc2_all, ancs_all, !data_none by (auto; apply (ord_nodup ord Hp), dedup_NoDup). reflexivity.
  Qed.
  Lemma pair_anc2 s b q : In s shifts -> In (b, q) (get_pairs l anc2 (Some (dirn s))) -> In b ancs /\ ~ In q ancs.
  Proof.
    intros Hs H. apply (get_pairs_In _ _ _ _ _ (pn_wf _ _ _ _ _ P)) in H as [Hi H].
    apply in_app_iff in Hi as [Hi|Hi]; [apply (pair_ok l shifts dirn pt ps P KX s)|apply (pair_ok l shifts dirn pt ps P KZ s)]; try (discriminate || assumption);
      apply (get_pairs_In _ _ _ _ _ (pn_wf _ _ _ _ _ P)); auto.
  Qed.
  Lemma pair_two sx sz b q : In sx shifts -> In sz shifts ->
    In (b, q) (get_pairs l (labs KX) (Some (dirn sx)) ++ get_pairs l (labs KZ) (Some (dirn sz))) -> In b ancs /\ ~ In q ancs.
  Proof.
    intros Hx Hz H. apply in_app_iff in H as [H|H]; [apply (pair_ok l shifts dirn pt ps P KX sx)|apply (pair_ok l shifts dirn pt ps P KZ sz)]; (discriminate || assumption).
  Qed.
  Ltac hcount := rewrite ?hn_app, ?hn_cz, ?hn_X, ?hn_H, ?(ord_mem ord Hp), ?ancs_all, ?data_none by (auto; apply (ord_nodup ord Hp), dedup_NoDup); (reflexivity || cbn; lia).
  Lemma ginner_ok : okb ancs g.
  Proof.
    destruct (sh_in shifts s0 s1 s2 s3 Ps) as (I0 & I1 & I2 & I3). unfold ginner.
    apply okb_H; [apply (ord_nodup ord Hp), dedup_NoDup|intros q _ Hq; hcount|]. apply okb_X.
    apply okb_cz; [intros b q H; destruct (pair_anc2 _ _ _ I0 H) as [A B]; repeat (split; [assumption|]); hcount|].
    apply okb_H; [apply (ord_nodup ord Hp), dedup_NoDup|intros q _ Hq; hcount|]. apply okb_X.
    apply okb_cz; [intros b q H; destruct (pair_two _ _ _ _ I1 I2 H) as [A B]; repeat (split; [assumption|]); hcount|]. apply okb_X.
    apply okb_cz; [intros b q H; destruct (pair_two _ _ _ _ I2 I1 H) as [A B]; repeat (split; [assumption|]); hcount|].
    apply okb_H; [apply (ord_nodup ord Hp), dedup_NoDup|intros q _ Hq; hcount|]. apply okb_X.
    apply okb_cz; [intros b q H; destruct (pair_anc2 _ _ _ I3 H) as [A B]; repeat (split; [assumption|]); hcount|].
    apply okb_H; [apply (ord_nodup ord Hp), dedup_NoDup|intros q _ Hq; rewrite hn_X; lia|].
    rewrite <- (app_nil_r (map (G1 GX) _)). apply okb_X. exact I.
  Qed.
  Lemma ginner_czs p : In p ps -> knd p <> KD ->
    czs g (pl_lab p) = around l dirn ps (knd p) (whole ([s0; s1], [s2; s3]) ([s0; s2], [s1; s3]) (knd p)) (pl_lab p).
  Proof.
    intros Hi K. unfold ginner, B0, B1, B2, B3. rewrite !cz_gates_app, !czs_app, !czs_H, !czs_X, !czs_pairs. cbn [app].
    assert (M2 : mem (pl_lab p) anc2 = true).
    { apply mem_In, dedup_In, mem_In, anc2_all. apply mem_In. rewrite (mem_ancs _ _ _ _ _ P) by assumption. now apply isanc_spec. }
    rewrite M2, !(mem_labs _ _ _ _ _ P) by assumption. unfold around, whole, halves, partners, isk.
    destruct (knd p) eqn:Kp; [congruence| |]; cbn [fst snd app flat_map]; rewrite !czs_pairs, !(mem_labs _ _ _ _ _ P) by assumption; unfold isk; rewrite Kp; cbn [app];
      rewrite ?app_nil_r, <- ?app_assoc; reflexivity.
  Qed.
End GoogleSafe.

(** * The experiment *)
Lemma fault_google ordt a l R di rot dets gauge w w' c fs : (forall t n s, Permutation (ordt t n s) s) ->
  SpecNoise.wf_inds (inds (fst w)) -> NoDup (labels (snd w)) ->
  watched l rot dets ->
  2 <= ga_dx a -> 2 <= ga_dz a -> rot_surface_code_rectangle a = Ok l ->
  memory_google ordt l R di rot dets gauge w = (w', Ok c) ->
  Forall (possible c) fs -> undetected c fs -> logical_error c fs -> (Z.to_nat (if rot then ga_dz a else ga_dx a) <= length fs)%nat.
Proof.
  intros Hp W N Hdets0 Hx Hz E H Pos Un Lo. destruct (rot_planar a) as (l1 & r & E1 & _ & _ & P & _ & Lz & Lx & _ & _ & O & Hc); [lia|lia|]. rewrite E in E1. injection E1 as <-.
  destruct (rot_code a) as (l1 & data & xs & zs & lx & lz & E1 & cc & _); [lia|lia|]. rewrite E in E1. injection E1 as <-.
  destruct (planar_point l _ _ _ _ _ data xs zs lx lz rot P cc) as (Ed0 & Ex & Ez & Pt).
  pose proof (cc_lx _ _ _ _ _ _ _ cc) as Elx. rewrite Lx in Elx. cbn [dget] in Elx. rewrite eqb_refl in Elx. injection Elx as Elx.
  pose proof (cc_lz _ _ _ _ _ _ _ cc) as Elz. rewrite Lz in Elz. cbn [dget] in Elz. rewrite eqb_refl in Elz. injection Elz as Elz.
  pose proof (rot_xzzx_facts a l Hx Hz P _ _ _ _ _ _ cc) as F. pose proof (xf_css _ _ _ _ _ _ _ _ F) as Fc.
  destruct (cc_nodup _ _ _ _ _ _ _ cc) as (Nd & Nx & Nz). destruct (cc_log _ _ _ _ _ _ _ cc) as [Ix Iz].
  apply google_any in H as (HR & ancs0 & data0 & Ea & Ed & Na & Hout & HIm & _ & HDm); [|exact W|exact N].
  pose proof (pn_anc _ _ _ _ _ P) as Ea'. rewrite Ea in Ea'. injection Ea' as ->. fold (ancs (rot_ps a)) in *.
  pose proof (css_data _ _ _ _ _ _ _ Fc) as Ed'. rewrite Ed in Ed'. injection Ed' as ->.
  assert (Edl : labs (rot_ps a) KD = data) by (pose proof (pn_data _ _ _ _ _ P) as Ed'; rewrite Ed in Ed'; injection Ed' as ->; reflexivity).
  set (I := lg_blocks (init_xzzx_blocks (ordt 1%nat) l di rot)) in *. set (n := Z.to_nat (R - 1)) in *.
  set (gi := ginner l rot_dirn (rot_ps a) (1, 1) (1, -1) (-1, 1) (-1, -1)).
  assert (Hgi : forall o, (forall k s, Permutation (o k s) s) -> acts (xzzx l) (ancs (rot_ps a)) (gi o) /\ lg_blocks (google_round o l) = after_g (ancs (rot_ps a)) (gi o)).
  { intros o Ho. split.
    - apply (google_acts l rot_shifts rot_dirn (rot_pt a) (rot_ps a) P (1, 1) (1, -1) (-1, 1) (-1, -1)); auto.
      + apply rot_Ns.
      + intros p q s. now apply (rot_HG a l).
      + intros p q s. apply rot_HC.
    - now apply (google_gates l rot_shifts rot_dirn (rot_pt a) (rot_ps a) P (1, 1) (1, -1) (-1, 1) (-1, -1)). }
  set (g := fun r => gi (if Nat.eqb r n then ordt 2%nat else ordt (3 + r)%nat)).
  assert (Hor : forall r k s, Permutation ((if Nat.eqb r n then ordt 2%nat else ordt (3 + r)%nat) k s) s) by (intros r0 k s; destruct (Nat.eqb r0 n); apply Hp).
  assert (Hg : forall r, acts (xzzx l) (ancs (rot_ps a)) (g r)) by (intros r0; unfold g; apply Hgi, Hor).
  pose proof (xz_stabs _ _ _ _ _ _ _ _ F rot) as Es.
  set (stabs := if rot then xs else zs) in *. set (hset := nw_se l stabs) in *.
  pose proof (google_meas_gates l rot_shifts rot_dirn (rot_pt a) (rot_ps a) (1, 1) (1, -1) (-1, 1) (-1, -1) (ordt 2%nat) rot stabs P eq_refl eq_refl eq_refl eq_refl Es) as ED.
  rewrite Edl in ED. fold hset in ED.
  destruct (init_xzzx_gates (ordt 1%nat) l di rot (ancs (rot_ps a)) data _ Hc (cf_anc _ _ _ _ _ _ _ Fc) (css_data _ _ _ _ _ _ _ Fc) Es) as [exc EI]. fold hset in EI. fold I in EI.
  set (A := gco l (rot_ps a) rot_dirn (1, 1) (1, -1) (-1, 1) (-1, -1) (ordt 2%nat)) in *.
  assert (EL : g n = A ++ map (G1 GH) (ordt 2%nat 11%nat (dedup (ancs (rot_ps a)))) ++ map (G1 GX) (labs (rot_ps a) KD)).
  { unfold g, gi. rewrite Nat.eqb_refl. apply ginner_split. }
  assert (N1 : NoDup (ordt 2%nat 11%nat (dedup (ancs (rot_ps a))))) by (eapply Permutation_NoDup; [symmetry; apply Hp|apply dedup_NoDup]).
  assert (E1 : forall q, In q (ordt 2%nat 11%nat (dedup (ancs (rot_ps a)))) <-> In q (ancs (rot_ps a))).
  { intros q. rewrite <- (dedup_In (ancs (rot_ps a)) q). split; apply Permutation_in; [apply Hp|symmetry; apply Hp]. }
  set (H2 := ordt 2%nat 11%nat (union (dedup (ancs (rot_ps a))) hset)) in *.
  assert (N2 : NoDup H2) by (eapply Permutation_NoDup; [symmetry; apply Hp|apply dedup_NoDup]).
  assert (E2 : forall q, In q H2 <-> In q (ancs (rot_ps a)) \/ In q hset).
  { intros q. transitivity (In q (union (dedup (ancs (rot_ps a))) hset)); [split; apply Permutation_in; [apply Hp|symmetry; apply Hp]|].
    unfold union. rewrite dedup_In, in_app_iff, dedup_In. reflexivity. }
  assert (EG : Gn (fun r0 => lg_blocks (google_round (ordt (3 + r0)%nat) l)) n = Rn (ancs (rot_ps a)) g grf n ++ resets (ancs (rot_ps a)) n).
  { rewrite <- Gn_after. apply Gn_ext_lt. intros r0 Hr0. unfold g. destruct (Nat.eqb_spec r0 n); [lia|]. apply Hgi. apply Hp. }
  set (G := fun r0 => lg_blocks (google_round (ordt (3 + r0)%nat) l)) in *.
  assert (HG : forall r0, mlab (G r0) = ancs (rot_ps a)).
  { intros r0. unfold G. rewrite (proj2 (Hgi _ (Hp (3 + r0)%nat))). unfold after_g. rewrite mlab_app.
    rewrite (mlab_round (xzzx l) (ancs (rot_ps a)) (fun _ => gi (ordt (3 + r0)%nat)) (fun _ => proj1 (Hgi _ (Hp (3 + r0)%nat))) 0%nat false).
    rewrite mlab_one_nil by reflexivity. apply app_nil_r. }
  assert (Hbt : forall b, In b stabs -> In b (ancs (rot_ps a)) /\ NoDup (support l b) /\ incl (support l b) data /\
     forall q, on (fst (xzzx l b)) q = hs hset q && mem q (support l b) /\ on (snd (xzzx l b)) q = negb (hs hset q) && mem q (support l b)).
  { intros b. apply (xz_bt _ _ _ _ _ _ _ _ F). }
  pose proof (cf_disj _ _ _ _ _ _ _ Fc) as Hda.
  assert (Hdets : forall ds, dets = Some ds -> incl stabs ds) by (intros ds Ed'; now apply Hdets0).
  set (lq := if rot then lx else lz) in *.
  assert (Nlq : NoDup lq) by (unfold lq; destruct rot; assumption).
  assert (Ilq : incl lq data) by (unfold lq; destruct rot; assumption).
  assert (Elq : dget (ga_log a) (if rot then l_logx l else l_logz l) = Some lq) by (unfold lq; destruct rot; apply cc).
  assert (Hb : incl stabs (ancs (rot_ps a))) by (intros b Hi; now destruct (Hbt b Hi)).
  destruct (google_parities ordt Hp (snd w) (inds (fst w)) l rot gauge dets n I G _ c (ancs (rot_ps a)) data stabs Ea Es Hb Hdets Nd Hda HIm HG HDm fs Un lq (ga_log a)
    (cf_wf _ _ _ _ _ _ _ Fc) Hout Nlq Ilq (fun b Hi => proj1 (proj2 (proj2 (Hbt b Hi)))) (cc_logs _ _ _ _ _ _ _ cc) Elq) as [Pb Pl]. specialize (Pl Lo).
  assert (exists m, tracked (inds (fst w)) m (I ++ Gn G n ++ lg_blocks (google_meas (ordt 2%nat) l rot)) c) as [m T].
  { destruct Hout as [(ancs' & ds & dsf & c01 & c2 & c3 & c4 & w2 & m3 & Ec & _ & _ & _ & _ & _ & _ & Hm)].
    destruct Hm as [(sb & sup & lq' & qs & cd & o & ls & _ & T4 & _)]. exists (fst m3). rewrite Ec. rewrite <- !app_assoc in T4. exact T4. }
  rewrite EG, ED, <- app_assoc in T. fold (Dg (ancs (rot_ps a)) data H2) in T.
  set (L := I ++ Rn (ancs (rot_ps a)) g grf n ++ resets (ancs (rot_ps a)) n ++ A ++ Dg (ancs (rot_ps a)) data H2) in *.
  assert (Hm : forall n t q, mem q (ordt n t hset) = hs hset q) by (intros n0 t q; apply (ord_mem (ordt n0) (Hp n0))).
  assert (Nh : NoDup hset) by apply dedup_NoDup.
  assert (Hn : forall n t, NoDup (ordt n t hset)) by (intros n0 t; apply (ord_nodup (ordt n0) (Hp n0)); apply Nh).
  assert (Hh : incl hset data) by apply (xz_hset _ _ _ _ _ _ _ _ F).
  assert (Cl : forall U B, L = U ++ B -> classified (xzzx l) (ancs (rot_ps a)) data hset g B).
  { intros U B EU. unfold L in EU. rewrite EI in EU.
    exact (google_class (xzzx l) (ancs (rot_ps a)) data hset Na Nd Hda Hh Nh g grf Hg n A _ H2 _ EL N1 E1 N2 E2 _ _ _ U B (Hn 1%nat 3%nat) (Hm 1%nat 3%nat) EU). }
  assert (Com : forall b b', In b (ancs (rot_ps a)) -> In b' (ancs (rot_ps a)) -> anti (xzzx l) (on (fst (xzzx l b))) (on (snd (xzzx l b))) b' = false)
    by (intros b b'; apply (xz_com _ _ _ _ _ _ _ _ F)).
  apply (core_fault (inds (fst w)) c (xzzx l) (ancs (rot_ps a)) data hset g grf (line (rot_ps a) (rline rot)) L stabs l lq _ fs); auto.
  - exact (tk_rel _ _ _ _ T).
  - rewrite <- mlab_len. unfold L, Dg. rewrite !mlab_app, !mlab_M, !app_length. lia.
  - intros r0. rewrite <- Edl. unfold g.
    apply (safe_of l rot_shifts rot_dirn (rot_pt a) (rot_ps a) P rot_shifts_nodup (rline rot) (if rot then KX else KZ) rox roz rot_whole (rot_halves a rot)).
    + apply (ginner_ok l rot_shifts rot_dirn (rot_pt a) (rot_ps a) P _ _ _ _ rot_Ps). apply Hor.
    + apply (ginner_hn l rot_shifts rot_dirn (rot_pt a) (rot_ps a) P). apply Hor.
    + apply (ginner_czs l rot_shifts rot_dirn (rot_pt a) (rot_ps a) P _ _ _ _).
    + intros p q Hi K. rewrite <- (Pt p q Hi K). assert (Hb' : In (pl_lab p) (ancs (rot_ps a))) by (apply mem_In; rewrite (mem_ancs _ _ _ _ _ P) by assumption; now apply isanc_spec).
      rewrite (xf_anti _ _ _ _ _ _ _ _ F _ _ _ Hb'). unfold anti, BS. cbn [px pz].
      assert (Ev : forall y, In y data -> hs hset y = (if rot then cls a l y else negb (cls a l y)) /\ hs (if rot then data else []) y = rot).
      { intros y Hy. split; [apply (xz_hs _ _ _ _ _ _ _ _ F rot y Hy)|]. unfold hs. destruct rot; [now apply mem_In|reflexivity]. }
      f_equal; apply xorl_ext'; intros y Hy; (assert (Hy' : In y data) by (eapply (css_in _ _ _ _ _ _ _ Fc (pl_lab p)); [exact Hb'|tauto]));
        destruct (Ev y Hy') as [-> ->]; destruct rot, (cls a l y); reflexivity.
  - intros b Hi. destruct (Hbt b Hi) as (Hia & _ & Hs & Hq). split; [exact Hs|]. intros b' Hb'. rewrite <- (Com b b' Hia Hb'). apply anti_point. intros q. destruct (Hq q). cbn [BS px pz]. auto.
  - split; [exact Ilq|]. intros b Hb'. apply (xz_log _ _ _ _ _ _ _ _ F rot b Hb').
  - intros T' HT HL. apply (rot_touch a l); auto; try lia.
    + intros b Hb'. apply HT. unfold stabs. destruct rot; congruence.
    + now rewrite Elx.
    + now rewrite Elz.
    + unfold lq in HL. destruct rot; congruence.
Qed.
