(** C40 for the CSS codes. *)
From Coq Require Import QArith Qcanon.
From Verif Require Import Base Lib StimM SetupM NoiseM SpecNoise NoiseP LayoutM SpecLayout LayoutP LayoutP2 DetM SpecDet DetP DetCountP
  GenM GenP SpecGen GeomP RotP RotP2 UnrotP
  BlockM ExpM SpecTrack SpecExp TrackP ActP RoundP RoundTopP LiftP ExpDetP ExpP ExpP2 ExpP3 ExpP4 ExpP5 ExpP6 ExpP7 ExpP8.
Open Scope Z_scope.
Local Opaque rot_ps unrot_ps.

(** * A canonical choice of the interactions of a round *)
Definition middle (ancs : list string) (L : list (gate string)) : list (gate string) := firstn (length L - length ancs) L.
Lemma round_of_middle l st rd ancs g : round_of l st rd ancs g -> round_of l st rd ancs (middle ancs (lg_blocks (rd false))).
Proof.
  intros R. assert (E : middle ancs (lg_blocks (rd false)) = g).
  { rewrite (ro_gates _ _ _ _ _ R). unfold round_g, middle. cbn [app]. rewrite app_length, map_length.
    replace (length g + length ancs - length ancs)%nat with (length g) by lia. rewrite firstn_app, Nat.sub_diag. cbn [firstn]. now rewrite app_nil_r, firstn_all. }
  now rewrite E.
Qed.
Lemma Gn_ext G G' n : (forall r, G r = G' r) -> Gn G n = Gn G' n.
Proof. intros E. induction n as [|n IH]; [reflexivity|]. cbn [Gn]. now rewrite IH, E. Qed.
Lemma Gn_Rn ancs g rf n : Gn (fun r => round_g ancs (g r) (rf r)) n = Rn ancs g rf n.
Proof. induction n as [|n IH]; [reflexivity|]. cbn [Gn Rn]. now rewrite IH. Qed.

(** * Initialization *)
Lemma init_start_gates ord qs di : exists exc, lg_blocks (init_start ord qs di) = map (G1 GR) (ord 0%nat qs) ++ map (G1 GX) exc.
Proof.
  unfold init_start. destruct (excited di) as [|x e]; [exists []|exists (ord 1%nat (x :: e))];
    cbn [app lg_blocks lg_block flat_map lg_call std_gate is_two tick_block]; now rewrite ?app_nil_r.
Qed.
Lemma init_bk data ancs hset H R X sel p : NoDup H -> (forall q, In q H <-> In q hset) -> incl hset data ->
  (forall q, In q R <-> In q data \/ In q ancs) -> Iok ancs data hset p ->
  bk (map (G1 GR) R ++ map (G1 GX) X ++ map (G1 GH) H) sel p identity_op.
Proof.
  intros NH HH HI HR [P1 P2]. eapply bk_app; [eapply bk_app; [apply bk_H; exact NH|apply bk_paulis; now left]|].
  assert (E : forall q, mem q H = hs hset q) by (intros q; unfold hs; apply Bool.eq_true_iff_eq; now rewrite !mem_In).
  assert (Z : forall q, px (had (fun q => mem q H) p) q = false).
  { intros q. specialize (P1 q). unfold had in *. cbn [px pz] in *. now rewrite E. }
  eapply bk_eq; [apply bk_R; intros q _; apply Z|apply peq_refl|]. intros q. cbn [px pz]. rewrite Z. split; [now destruct (mem q R)|].
  destruct (mem q R) eqn:M; [reflexivity|]. assert (Nq : ~ In q data /\ ~ In q ancs).
  { split; intros Hi; (assert (In q R) by (apply HR; auto)); apply mem_In in H0; congruence. }
  unfold had. cbn [pz]. rewrite E. unfold hs. rewrite (mem_not q hset) by (intros Hi; apply (proj1 Nq), HI, Hi). apply P2; apply Nq.
Qed.

(** * CSS codes *)
Lemma commutes_sym A B : NoDup A -> NoDup B -> commutes (on A) B -> commutes (on B) A.
Proof.
  intros NA NB. unfold commutes, weight. intros E. replace (length (filter (on B) A)) with (length (filter (on A) B)); [exact E|].
  apply Permutation_length, NoDup_Permutation; try now apply NoDup_filter. intros q. rewrite !filter_In. unfold on. rewrite !mem_In. tauto.
Qed.
Record css_facts (l : layout) (ancs data xs zs lx lz : list string) : Prop := {
  cf_wf : wf l;
  cf_anc : get_role l "anc" = Ok ancs;
  cf_code : exists g, css_code l g data xs zs lx lz;
  cf_nodup : NoDup ancs;
  cf_disj : forall q, In q data -> ~ In q ancs;
  cf_xz : forall a, In a xs -> ~ In a zs }.

Section Css.
  Context (l : layout) (ancs data xs zs lx lz : list string).
  Hypothesis F : css_facts l ancs data xs zs lx lz.
  Let C := cf_code _ _ _ _ _ _ _ F.
  Lemma css_x : get_stabs l "x_type" = Ok xs. Proof. destruct C as [g c]. apply c. Qed.
  Lemma css_z : get_stabs l "z_type" = Ok zs. Proof. destruct C as [g c]. apply c. Qed.
  Lemma css_data : get_role l "data" = Ok data. Proof. destruct C as [g c]. apply c. Qed.
  Lemma css_ndata : NoDup data. Proof. destruct C as [g c]. apply c. Qed.
  Lemma css_types a : In a ancs <-> In a xs \/ In a zs.
  Proof. destruct C as [g c]. destruct (cc_anc _ _ _ _ _ _ _ c) as (ancs' & E & H). rewrite (cf_anc _ _ _ _ _ _ _ F) in E. injection E as <-. apply H. Qed.
  Lemma css_st_x a : In a xs -> css l a = (support l a, []).
  Proof.
    intros Ha. unfold css, of_type. rewrite css_x, css_z. rewrite (proj2 (mem_In a xs) Ha).
    now rewrite (mem_not a zs) by (apply (cf_xz _ _ _ _ _ _ _ F); exact Ha).
  Qed.
  Lemma css_st_z a : In a zs -> css l a = ([], support l a).
  Proof.
    intros Ha. unfold css, of_type. rewrite css_x, css_z. rewrite (proj2 (mem_In a zs) Ha).
    now rewrite (mem_not a xs) by (intros Hi; now apply (cf_xz _ _ _ _ _ _ _ F a)).
  Qed.
  Lemma css_sup a : In a xs \/ In a zs -> NoDup (support l a) /\ incl (support l a) data.
  Proof. destruct C as [g c]. apply c. Qed.
  Lemma css_in a q : In a ancs -> In q (fst (css l a)) \/ In q (snd (css l a)) -> In q data.
  Proof.
    intros Ha Hq. apply css_types in Ha as [Ha|Ha]; [rewrite (css_st_x a Ha) in Hq|rewrite (css_st_z a Ha) in Hq]; cbn in Hq;
      destruct Hq as [Hq|Hq]; try contradiction; eapply css_sup; eauto.
  Qed.
  Lemma css_com a b : In a ancs -> In b ancs -> anti (css l) (on (fst (css l a))) (on (snd (css l a))) b = false.
  Proof.
    intros Ha Hb. destruct C as [g c]. apply css_types in Ha, Hb. destruct Ha as [Ha|Ha], Hb as [Hb|Hb].
    - rewrite (css_st_x a Ha). unfold anti. rewrite (css_st_x b Hb). cbn [fst snd map]. change (xorl []) with false. rewrite xorb_false_r. apply xorl_false.
      intros x Hx. apply in_map_iff in Hx as (y & <- & _). reflexivity.
    - rewrite (css_st_x a Ha). unfold anti. rewrite (css_st_z b Hb). cbn [fst snd map]. change (xorl []) with false. rewrite xorb_false_l. apply commutes_xor.
      apply commutes_sym; [apply css_sup; auto|apply css_sup; auto|]. exact (cc_stab _ _ _ _ _ _ _ c a b Ha Hb).
    - rewrite (css_st_z a Ha). unfold anti. rewrite (css_st_x b Hb). cbn [fst snd map]. change (xorl []) with false. rewrite xorb_false_r. apply commutes_xor.
      exact (cc_stab _ _ _ _ _ _ _ c b a Hb Ha).
    - rewrite (css_st_z a Ha). unfold anti. rewrite (css_st_z b Hb). cbn [fst snd map]. change (xorl []) with false. rewrite xorb_false_l. apply xorl_false.
      intros x Hx. apply in_map_iff in Hx as (y & <- & _). reflexivity.
  Qed.
End Css.

(** * From the code to the circuit *)
Lemma generic_det ordt k l R di rot reset dets w w' c st ancs data hset bts lg lq :
  (forall t n s, Permutation (ordt t n s) s) ->
  SpecNoise.wf_inds (inds (fst w)) -> NoDup (labels (snd w)) -> memory ordt k l R di rot reset dets false w = (w', Ok c) ->
  wf l -> get_role l "anc" = Ok ancs -> get_role l "data" = Ok data -> NoDup data -> (forall q, In q data -> ~ In q ancs) ->
  (forall a q, In a ancs -> In q (fst (st a)) \/ In q (snd (st a)) -> In q data) -> incl hset data ->
  (forall a b, In a ancs -> In b ancs -> anti st (on (fst (st a))) (on (snd (st a))) b = false) ->
  (forall r, exists g, round_of l st (round_k ordt k r l) ancs g) ->
  (forall sel p, Iok ancs data hset p -> bk (lg_blocks (init_of ordt k l di rot)) sel p identity_op) ->
  get_stabs l (basis_type rot) = Ok bts ->
  (forall a, In a bts -> In a ancs /\ NoDup (support l a) /\ incl (support l a) data /\
     forall q, on (fst (st a)) q = hs hset q && mem q (support l a) /\ on (snd (st a)) q = negb (hs hset q) && mem q (support l a)) ->
  (forall sel, bk (lg_blocks (meas_of ordt k l rot)) sel identity_op
     (Pauli (fun q => hs hset q && msel data sel q) (fun q => negb (hs hset q) && msel data sel q))) ->
  l_logs l = [lg] -> dget lg (if rot then l_logx l else l_logz l) = Some lq -> NoDup lq -> incl lq data ->
  (forall a, In a ancs -> anti st (fun q => hs hset q && mem q lq) (fun q => negb (hs hset q) && mem q lq) a = false) ->
  all_deterministic c.
Proof.
  intros Hp W N E Wl Ea Ed Nd Hda Hst Hh Hcom Hr HI Eb Hbt HD Elog Elq Nlq Ilq Clq.
  apply memory_any in E as (HR & ancs' & data' & Ea' & Ed' & Na & Hout & HIm & _ & HDm); [|exact W|exact N].
  rewrite Ea in Ea'. injection Ea' as <-. rewrite Ed in Ed'. injection Ed' as <-.
  set (I := lg_blocks (init_of ordt k l di rot)) in *. set (D := lg_blocks (meas_of ordt k l rot)) in *.
  set (g := fun r => middle ancs (lg_blocks (round_k ordt k r l false))).
  assert (Hg : forall r, round_of l st (round_k ordt k r l) ancs (g r)) by (intros r; destruct (Hr r) as [g' Hg']; exact (round_of_middle _ _ _ _ _ Hg')).
  set (G := fun r => lg_blocks (round_k ordt k r l reset)) in *.
  assert (EG : forall n, Gn G n = Rn ancs g (fun _ => reset) n).
  { intros n. rewrite <- Gn_Rn. apply Gn_ext. intros r. unfold G. apply (ro_gates _ _ _ _ _ (Hg r)). }
  assert (Ha : forall r, acts st ancs (g r)) by (intros r; apply (ro_acts _ _ _ _ _ (Hg r))).
  eapply memory_good with (G := G) (I := I) (D := D); try eassumption.
  - intros s. apply Hp.
  - intros r. unfold G. rewrite (ro_gates _ _ _ _ _ (Hg r)). eapply mlab_round; eauto.
  - apply still_blocks.
  - intros r. apply still_blocks.
  - apply still_blocks.
  - intros r a Hr' Hb Hia. rewrite EG.
    pose proof (mlab_IRn ancs g (fun _ => reset) I HIm (S r)) as Em. rewrite Em.
    eapply (round_det st ancs data hset Na Hda Hst Hh Hcom g (fun _ => reset) Ha I HI HIm (fun a => In a bts) (support l) Hbt reset); auto; lia || (intros Es; apply Hb; lia).
  - intros sup a s Es Hia Hs. destruct (support_lemma l bts sup Wl Es a Hia) as (s0 & E0 & N0 & H0). rewrite Hs in E0. injection E0 as <-.
    split; [exact N0|]. exists (support l a). split; [exact H0|]. rewrite EG.
    apply (data_det st ancs data hset Na Nd Hda Hst Hh Hcom g (fun _ => reset) Ha I HI HIm (fun a => In a bts) (support l) Hbt reset D HD HDm). exact Hia.
  - intros lq' qs El Eq. rewrite Elog in El. injection El as <-. rewrite Elq in Eq. injection Eq as <-. split; [exact Nlq|]. rewrite EG.
    eapply (obs_det st ancs data hset Na Nd Hda Hst Hcom g (fun _ => reset) Ha I HI HIm (fun a => In a bts) (support l) Hbt); eauto.
Qed.

(** * The circuits of the CSS codes *)
Lemma log_meas_gates l rot data : get_role l "data" = Ok data -> forall anc, get_role l "anc" = Ok anc ->
  lg_blocks (log_meas_blocks l rot) = map (G1 GH) (if rot then data else []) ++ map (G1 GM) data.
Proof.
  intros Ed anc Ea. unfold log_meas_blocks. rewrite Ea, Ed. cbn [bind generator].
  destruct rot; cbn [app lg_blocks lg_block flat_map lg_call std_gate is_two tick_block map]; now rewrite ?app_nil_r.
Qed.
Lemma init_gates ord l di rot anc data : get_role l "anc" = Ok anc -> get_role l "data" = Ok data ->
  exists exc, lg_blocks (init_blocks ord l di rot) =
    map (G1 GR) (ord 0%nat (dedup (data ++ anc))) ++ map (G1 GX) exc ++ map (G1 GH) (if rot then data else []).
Proof.
  intros Ea Ed. destruct (init_start_gates ord (dedup (data ++ anc)) di) as [exc E]. exists exc.
  unfold init_blocks. rewrite Ea, Ed. cbn [bind generator]. unfold lg_blocks in *. rewrite flat_map_app, E, <- app_assoc. f_equal. f_equal.
  destruct rot; cbn [app lg_blocks lg_block flat_map lg_call std_gate is_two tick_block map]; now rewrite ?app_nil_r.
Qed.
Lemma meas_bk data hset H sel : NoDup data -> NoDup H -> (forall q, In q H <-> In q hset) ->
  bk (map (G1 GH) H ++ map (G1 GM) data) sel identity_op
     (Pauli (fun q => hs hset q && msel data sel q) (fun q => negb (hs hset q) && msel data sel q)).
Proof.
  intros Nd NH HH. assert (E : forall q, mem q H = hs hset q) by (intros q; unfold hs; apply Bool.eq_true_iff_eq; now rewrite !mem_In).
  eapply bk_app; [apply bk_M; [exact Nd|intros; reflexivity]|].
  eapply bk_eq; [apply bk_H; exact NH|apply peq_refl|]. intros q. unfold had. cbn [px pz identity_op]. rewrite E.
  destruct (hs hset q); cbn [andb negb]; rewrite ?xorb_false_l; auto.
Qed.
Lemma C40_css ordt k l R di rot reset dets w w' c ancs data xs zs lx lz :
  (k = RotCss \/ k = UnrotCss \/ k = CssPipelined) ->
  css_facts l ancs data xs zs lx lz -> (forall t n s, Permutation (ordt t n s) s) ->
  (forall r, exists g, round_of l (css l) (round_k ordt k r l) ancs g) ->
  SpecNoise.wf_inds (inds (fst w)) -> NoDup (labels (snd w)) ->
  memory ordt k l R di rot reset dets false w = (w', Ok c) -> all_deterministic c.
Proof.
  intros Hk F Hp Hr W N E. pose proof (cf_anc _ _ _ _ _ _ _ F) as Ea. pose proof (css_data _ _ _ _ _ _ _ F) as Ed. pose proof (css_ndata _ _ _ _ _ _ _ F) as Nd.
  assert (Ei : init_of ordt k = init_blocks (ordt 1%nat)) by (destruct Hk as [->|[->| ->]]; reflexivity).
  assert (Em : meas_of ordt k = log_meas_blocks) by (destruct Hk as [->|[->| ->]]; reflexivity).
  set (hset := if rot then data else []). assert (Hh : incl hset data) by (unfold hset; destruct rot; [apply incl_refl|intros q []]).
  destruct (cf_code _ _ _ _ _ _ _ F) as [lg cc]. pose proof (css_types _ _ _ _ _ _ _ F) as Ty. pose proof (css_sup _ _ _ _ _ _ _ F) as Sp.
  destruct (cc_nodup _ _ _ _ _ _ _ cc) as (_ & Nx & Nz). destruct (cc_log _ _ _ _ _ _ _ cc) as [Ix Iz].
  apply (generic_det ordt k l R di rot reset dets w w' c (css l) ancs data hset (if rot then xs else zs) lg (if rot then lx else lz)); auto.
  - apply (cf_wf _ _ _ _ _ _ _ F).
  - apply (cf_disj _ _ _ _ _ _ _ F).
  - intros a q Ha Hq. eapply css_in; eauto.
  - intros a b Ha Hb. eapply css_com; eauto.
  - intros sel p Hp'. rewrite Ei. destruct (init_gates (ordt 1%nat) l di rot ancs data Ea Ed) as [exc ->].
    eapply init_bk; [| | |intros q|exact Hp'].
    + destruct rot; [exact Nd|constructor].
    + intros q. reflexivity.
    + exact Hh.
    + rewrite <- in_app_iff, <- (dedup_In (data ++ ancs) q). split; apply Permutation_in; [apply Hp|symmetry; apply Hp].
  - destruct rot; [apply cc|apply cc].
  - intros a Ha. assert (Ha' : In a ancs) by (apply Ty; destruct rot; auto). split; [exact Ha'|].
    assert (Hs : NoDup (support l a) /\ incl (support l a) data) by (apply Sp; destruct rot; auto). split; [apply Hs|]. split; [apply Hs|].
    intros q. unfold hset, hs. destruct rot; [rewrite (css_st_x _ _ _ _ _ _ _ F a Ha)|rewrite (css_st_z _ _ _ _ _ _ _ F a Ha)]; cbn [fst snd on].
    + unfold on. destruct (mem q (support l a)) eqn:M; [|now rewrite !andb_false_r].
      assert (M' : mem q data = true) by (apply mem_In, (proj2 Hs), mem_In, M). now rewrite M'.
    + unfold on. auto.
  - intros sel. rewrite Em, (log_meas_gates l rot data Ed ancs Ea). apply meas_bk; [exact Nd|destruct rot; [exact Nd|constructor]|reflexivity].
  - apply cc.
  - destruct rot; apply cc.
  - destruct rot; assumption.
  - destruct rot; assumption.
  - intros a Ha. unfold hset, hs. apply Ty in Ha as [Ha|Ha].
    + unfold anti. rewrite (css_st_x _ _ _ _ _ _ _ F a Ha). cbn [fst snd map]. change (xorl []) with false. rewrite xorb_false_r. destruct rot.
      * apply xorl_false. intros b Hb. apply in_map_iff in Hb as (q & <- & Hq). assert (In q data) by (eapply Sp; eauto).
        now rewrite (proj2 (mem_In q data)).
      * apply commutes_xor. exact (cc_lzx _ _ _ _ _ _ _ cc a Ha).
    + unfold anti. rewrite (css_st_z _ _ _ _ _ _ _ F a Ha). cbn [fst snd map]. change (xorl []) with false. rewrite xorb_false_l. destruct rot.
      * pose proof (cc_lxz _ _ _ _ _ _ _ cc a Ha) as K. apply commutes_xor in K. rewrite <- K. f_equal. apply map_ext_in.
        intros q Hq. assert (In q data) by (eapply Sp; eauto). now rewrite (proj2 (mem_In q data)).
      * apply xorl_false. intros b Hb. apply in_map_iff in Hb as (q & <- & Hq). reflexivity.
Qed.

(** * The generated layouts *)
Lemma planar_facts l shifts dirn pt ps g data xs zs lx lz : planar l shifts dirn pt ps -> css_code l g data xs zs lx lz ->
  css_facts l (ancs ps) data xs zs lx lz.
Proof.
  intros P cc. constructor.
  - apply P.
  - apply (pn_anc _ _ _ _ _ P).
  - eauto.
  - eapply ancs_nodup; exact P.
  - pose proof (cc_data _ _ _ _ _ _ _ cc) as E. rewrite (pn_data _ _ _ _ _ P) in E. injection E as <-.
    intros q Hd Ha. apply in_map_iff in Hd as (p & E1 & H1). apply in_map_iff in Ha as (p' & E2 & H2).
    apply filter_In in H1 as [H1 K1]. apply filter_In in H2 as [H2 K2].
    assert (p = p') by (eapply (lab_eq _ _ _ _ _ P); auto; congruence). subst p'. unfold isk, isanc in *. destruct (knd p); discriminate.
  - pose proof (cc_x _ _ _ _ _ _ _ cc) as Ex. rewrite (pn_x _ _ _ _ _ P) in Ex. injection Ex as <-.
    pose proof (cc_z _ _ _ _ _ _ _ cc) as Ez. rewrite (pn_z _ _ _ _ _ P) in Ez. injection Ez as <-.
    intros q Hx Hz. apply in_map_iff in Hx as (p & E1 & H1). apply in_map_iff in Hz as (p' & E2 & H2).
    apply filter_In in H1 as [H1 K1]. apply filter_In in H2 as [H2 K2].
    assert (p = p') by (eapply (lab_eq _ _ _ _ _ P); auto; congruence). subst p'.
    unfold isk in *. destruct (knd p); discriminate.
Qed.
Section Generated.
  Context (ordt : nat -> nat -> list string -> list string).
  Hypothesis Hp : forall t n s, Permutation (ordt t n s) s.
  Context (a : gen_args) (l : layout).
  Context (R : Z) (di : dict string Z) (rot reset : bool) (dets : option (list string)) (w w' : world) (c : circuit).
  Hypothesis W : SpecNoise.wf_inds (inds (fst w)).
  Hypothesis N : NoDup (labels (snd w)).
  Lemma C40_rot_css_lemma : 1 <= ga_dx a -> 2 <= ga_dz a -> rot_surface_code_rectangle a = Ok l ->
    memory ordt RotCss l R di rot reset dets false w = (w', Ok c) -> all_deterministic c.
  Proof.
    intros Hx Hz E. destruct (rot_planar a) as (l1 & r & E1 & _ & _ & P & _); [lia|lia|]. rewrite E in E1. injection E1 as <-.
    destruct (rot_code a) as (l1 & data & xs & zs & lx & lz & E1 & cc & _); [lia|lia|]. rewrite E in E1. injection E1 as <-.
    apply (C40_css ordt RotCss l R di rot reset dets w w' c (ancs (rot_ps a)) data xs zs lx lz); auto.
    - eapply planar_facts; eauto.
    - intros r0. cbn [round_k]. apply rot_css_round; auto.
  Qed.
  Lemma C40_unrot_css_lemma : 1 <= ga_dx a -> 2 <= ga_dz a -> unrot_surface_code_rectangle a = Ok l ->
    memory ordt UnrotCss l R di rot reset dets false w = (w', Ok c) -> all_deterministic c.
  Proof.
    intros Hx Hz E. destruct (unrot_planar a) as (l1 & r & E1 & _ & _ & P & _); [lia|lia|]. rewrite E in E1. injection E1 as <-.
    destruct (unrot_code a) as (l1 & data & xs & zs & lx & lz & E1 & cc & _); [lia|lia|]. rewrite E in E1. injection E1 as <-.
    apply (C40_css ordt UnrotCss l R di rot reset dets w w' c (ancs (unrot_ps a)) data xs zs lx lz); auto.
    - eapply planar_facts; eauto.
    - intros r0. cbn [round_k]. apply unrot_css_round; auto.
  Qed.
  Lemma C40_css_pipelined_lemma : 1 <= ga_dx a -> 1 <= ga_dz a -> rot_surface_code_rectangle a = Ok l ->
    memory ordt CssPipelined l R di rot reset dets false w = (w', Ok c) -> all_deterministic c.
  Proof.
    intros Hx Hz E. destruct (rot_planar a) as (l1 & r & E1 & _ & _ & P & _); [lia|lia|]. rewrite E in E1. injection E1 as <-.
    destruct (rot_code a) as (l1 & data & xs & zs & lx & lz & E1 & cc & _); [lia|lia|]. rewrite E in E1. injection E1 as <-.
    apply (C40_css ordt CssPipelined l R di rot reset dets w w' c (ancs (rot_ps a)) data xs zs lx lz); auto.
    - eapply planar_facts; eauto.
    - intros r0. cbn [round_k]. apply rot_css_pipe; auto.
  Qed.
End Generated.
