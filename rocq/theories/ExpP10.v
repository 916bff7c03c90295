(** C40 for the pipelined XZZX code. *)
From Coq Require Import QArith Qcanon.
From Verif Require Import Base Lib StimM SetupM NoiseM SpecNoise NoiseP LayoutM SpecLayout LayoutP LayoutP2 DetM SpecDet DetP DetCountP
  GenM GenP SpecGen GeomP RotP RotP2 UnrotP
  BlockM ExpM SpecTrack SpecExp TrackP ActP RoundP RoundTopP XzzxP LiftP ExpDetP ExpP ExpP2 ExpP3 ExpP4 ExpP5 ExpP6 ExpP7 ExpP8 ExpP9.
Open Scope Z_scope.
Local Opaque rot_ps unrot_ps.

(** * The XZZX code is the CSS code up to Hadamard gates *)
Record xzzx_facts (l : layout) (ancs data xs zs lx lz : list string) (C : string -> bool) : Prop := {
  xf_css : css_facts l ancs data xs zs lx lz;
  xf_fst : forall a q, In a ancs -> on (fst (xzzx l a)) q = if C q then on (fst (css l a)) q else on (snd (css l a)) q;
  xf_snd : forall a q, In a ancs -> on (snd (xzzx l a)) q = if C q then on (snd (css l a)) q else on (fst (css l a)) q;
  xf_anti : forall X Z a, In a ancs -> anti (xzzx l) X Z a =
    anti (css l) (fun q => if C q then X q else Z q) (fun q => if C q then Z q else X q) a;
  xf_nx : forall q, In q (nw_se l xs) <-> In q data /\ C q = true;
  xf_nz : forall q, In q (nw_se l zs) <-> In q data /\ C q = false }.

Lemma split_xor (C X Z : string -> bool) S : xorb (xorl (map Z (filter C S))) (xorl (map X (filter (fun q => negb (C q)) S))) =
  xorl (map (fun q => if C q then Z q else X q) S).
Proof.
  induction S as [|q S IH]; [reflexivity|]. cbn [filter map]. rewrite xorl_cons, <- IH. destruct (C q); cbn [negb map]; rewrite xorl_cons.
  - now rewrite xorb_assoc.
  - rewrite <- !xorb_assoc. f_equal. apply xorb_comm.
Qed.
Lemma on_perm s s' q : Permutation s s' -> on s q = on s' q.
Proof. intros P. unfold on. apply Bool.eq_true_iff_eq. rewrite !mem_In. split; apply Permutation_in; [exact P|now symmetry]. Qed.
Lemma on_filter f s q : on (filter f s) q = f q && on s q.
Proof. unfold on. apply Bool.eq_true_iff_eq. rewrite andb_true_iff, !mem_In, filter_In. tauto. Qed.

Section Rot.
  Context (a : gen_args) (l : layout).
  Hypothesis Hx : 2 <= ga_dx a.
  Hypothesis Hz : 2 <= ga_dz a.
  Hypothesis Pl : planar l rot_shifts rot_dirn (rot_pt a) (rot_ps a).
  Let C := cls a l.
  Lemma xzzx_split p : In p (rot_ps a) -> knd p <> KD -> let f := if isk KX p then C else fun q => negb (C q) in
    Permutation (filter f (support l (pl_lab p))) (fst (xzzx l (pl_lab p))) /\
    Permutation (filter (fun q => negb (f q)) (support l (pl_lab p))) (snd (xzzx l (pl_lab p))).
  Proof.
    intros Hi K f. unfold xzzx. cbn [fst snd].
    change "north_west"%string with (rot_dirn (1, -1)). change "south_east"%string with (rot_dirn (-1, 1)).
    change "north_east"%string with (rot_dirn (1, 1)). change "south_west"%string with (rot_dirn (-1, -1)).
    assert (G : forall d t, In d (rot_ps a) -> knd d = KD -> In t rot_shifts -> pos d = padd (pos p) t ->
      (f (pl_lab d) = true <-> t = (1, -1) \/ t = (-1, 1)) /\ (f (pl_lab d) = false <-> t = (1, 1) \/ t = (-1, -1))).
    { intros d t Hd Kd Ht Ed. destruct (nbr_cls a p d t Hi K Ht Ed) as [A B]. rewrite <- A, <- B.
      pose proof (proj1 (cls_at a l d Hx Hz Pl Hd Kd)) as T. pose proof (cls_false a l d Hx Hz Pl Hd Kd) as F. fold C in T, F.
      unfold f. destruct (isk KX p); cbn; [rewrite T, F; tauto|]. rewrite negb_true_iff, negb_false_iff, T, F. tauto. }
    split; apply (two_perm a l Pl); auto; try (unfold rot_shifts; cbn; tauto); try discriminate.
    - intros d t Hd Kd Ht Ed. now apply G.
    - intros d t Hd Kd Ht Ed. rewrite negb_true_iff. now apply G.
  Qed.
  Lemma nw_se_data k q : k <> KD -> In q (nw_se l (labs (rot_ps a) k)) -> exists d, In d (rot_ps a) /\ knd d = KD /\ pl_lab d = q.
  Proof.
    intros Hk H. apply (nw_se_In _ _ k q Pl) in H as (p & d & Hi & Hd & K & L & Ed). exists d. split; [exact Hd|]. split; [|exact L].
    assert (Ht : exists t, In t rot_shifts /\ pos d = padd (pos p) t) by (destruct Ed as [Ed|Ed]; (eexists; split; [|exact Ed]); unfold rot_shifts; cbn; tauto).
    destruct Ht as (t & Ht & Ed'). pose proof (pn_par _ _ _ _ _ Pl p d t Hi Hd Ht Ed') as Par.
    destruct (knd d) eqn:Kd; auto; exfalso; apply Hk; rewrite <- K; apply Par; discriminate.
  Qed.
  Lemma rot_xzzx_facts g data xs zs lx lz : css_code l g data xs zs lx lz -> xzzx_facts l (ancs (rot_ps a)) data xs zs lx lz C.
  Proof.
    intros cc. pose proof (planar_facts _ _ _ _ _ _ _ _ _ _ _ Pl cc) as F.
    pose proof (cc_x _ _ _ _ _ _ _ cc) as Ex. rewrite (pn_x _ _ _ _ _ Pl) in Ex. injection Ex as Ex.
    pose proof (cc_z _ _ _ _ _ _ _ cc) as Ez. rewrite (pn_z _ _ _ _ _ Pl) in Ez. injection Ez as Ez.
    pose proof (cc_data _ _ _ _ _ _ _ cc) as Ed. rewrite (pn_data _ _ _ _ _ Pl) in Ed. injection Ed as Ed.
    assert (T : forall b, In b (ancs (rot_ps a)) -> exists p, In p (rot_ps a) /\ knd p <> KD /\ pl_lab p = b /\
      ((isk KX p = true /\ css l b = (support l b, [])) \/ (isk KX p = false /\ css l b = ([], support l b)))).
    { intros b Hb. apply (anc_place (rot_ps a)) in Hb as (p & Hi & K & <-). exists p. do 2 (split; [assumption|]). split; [reflexivity|].
      destruct (isk KX p) eqn:Ek; [left|right]; (split; [reflexivity|]).
      - apply (css_st_x _ _ _ _ _ _ _ F). rewrite <- Ex. apply in_map. apply filter_In. auto.
      - apply (css_st_z _ _ _ _ _ _ _ F). rewrite <- Ez. apply in_map. apply filter_In. split; [exact Hi|]. unfold isk in *. destruct (knd p); congruence. }
    constructor; [exact F| | | | |].
    - intros b q Hb. destruct (T b Hb) as (p & Hi & K & <- & [[Ek ->]|[Ek ->]]); destruct (xzzx_split p Hi K) as [S _];
        rewrite <- (on_perm _ _ q S), on_filter, Ek; cbn [fst snd]; destruct (C q); reflexivity.
    - intros b q Hb. destruct (T b Hb) as (p & Hi & K & <- & [[Ek ->]|[Ek ->]]); destruct (xzzx_split p Hi K) as [_ S];
        rewrite <- (on_perm _ _ q S), on_filter, Ek; cbn [fst snd]; destruct (C q); reflexivity.
    - intros X Z b Hb. unfold anti. destruct (T b Hb) as (p & Hi & K & <- & [[Ek ->]|[Ek ->]]); destruct (xzzx_split p Hi K) as [S1 S2];
        rewrite Ek in S1, S2; rewrite <- (xorl_perm _ _ (Permutation_map Z S1)), <- (xorl_perm _ _ (Permutation_map X S2)); cbn [fst snd map]; change (xorl []) with false.
      + now rewrite xorb_false_r, split_xor.
      + rewrite xorb_false_l. rewrite split_xor. f_equal. apply map_ext. intros q. now destruct (C q).
    - intros q. rewrite <- Ex, <- Ed. fold (labs (rot_ps a) KX). unfold C, cls. rewrite mem_In. split; [|tauto]. intros H. split; [|exact H].
      apply nw_se_data in H as (d & Hd & K & <-); [|discriminate]. apply in_map. apply filter_In. split; [exact Hd|]. unfold isk. now rewrite K.
    - intros q. rewrite <- Ez, <- Ed. fold (labs (rot_ps a) KZ). split.
      + intros H. pose proof H as H'. apply nw_se_data in H' as (d & Hd & K & <-); [|discriminate].
        split; [apply in_map, filter_In; split; [exact Hd|]; unfold isk; now rewrite K|]. unfold C. apply (cls_false a l d Hx Hz Pl Hd K). now apply (cls_at a l d Hx Hz Pl Hd K).
      + intros [H F0]. apply in_map_iff in H as (d & <- & H). apply filter_In in H as [Hd K]. assert (K' : knd d = KD) by (unfold isk in K; now destruct (knd d)).
        apply (cls_at a l d Hx Hz Pl Hd K'). now apply (cls_false a l d Hx Hz Pl Hd K').
  Qed.
End Rot.

(** * Initialization and measurement *)
Lemma init_xzzx_gates ord l di rot anc data stabs : l_code l = "rotated_surface_code" -> get_role l "anc" = Ok anc -> get_role l "data" = Ok data ->
  get_stabs l (basis_type rot) = Ok stabs ->
  exists exc, lg_blocks (init_xzzx_blocks ord l di rot) =
    map (G1 GR) (ord 0%nat (dedup (data ++ anc))) ++ map (G1 GX) exc ++ map (G1 GH) (ord 3%nat (nw_se l stabs)).
Proof.
  intros Ec Ea Ed Es. destruct (init_start_gates ord (dedup (data ++ anc)) di) as [exc E]. exists exc.
  unfold init_xzzx_blocks. rewrite Ec, Ea, Ed. cbn [bind generator eqb negb]. rewrite eqb_refl. cbn [negb bind generator].
  unfold basis_type in Es. rewrite Es. unfold lg_blocks in *. rewrite flat_map_app, E, <- app_assoc. f_equal. f_equal.
  unfold had_block. cbn [bind app lg_blocks lg_block flat_map lg_call std_gate is_two tick_block map]. now rewrite ?app_nil_r.
Qed.
Lemma log_meas_xzzx_gates ord l rot anc data stabs : get_role l "anc" = Ok anc -> get_role l "data" = Ok data ->
  get_stabs l (basis_type rot) = Ok stabs ->
  lg_blocks (log_meas_xzzx_blocks ord l rot) = map (G1 GH) (ord 0%nat (nw_se l stabs)) ++ map (G1 GM) data.
Proof.
  intros Ea Ed Es. unfold log_meas_xzzx_blocks. unfold basis_type in Es. rewrite Ea, Ed, Es. cbn [bind generator].
  unfold had_block. cbn [bind app lg_blocks lg_block flat_map lg_call std_gate is_two tick_block map]. now rewrite ?app_nil_r.
Qed.

(** * The hypotheses of ExpP2 *)
Section Hyps.
  Context (l : layout) (ancs data xs zs lx lz : list string) (C : string -> bool).
  Hypothesis F : xzzx_facts l ancs data xs zs lx lz C.
  Let hset (rot : bool) := nw_se l (if rot then xs else zs).
  Let Fc := xf_css _ _ _ _ _ _ _ _ F.
  Lemma xz_hs (rot : bool) q : In q data -> hs (hset rot) q = if rot then C q else negb (C q).
  Proof.
    intros Hq. unfold hs, hset. apply Bool.eq_true_iff_eq. rewrite mem_In. destruct rot.
    - rewrite (xf_nx _ _ _ _ _ _ _ _ F). tauto.
    - rewrite (xf_nz _ _ _ _ _ _ _ _ F), negb_true_iff. tauto.
  Qed.
  Lemma xz_hset (rot : bool) : incl (hset rot) data.
  Proof. intros q Hq. unfold hset in Hq. destruct rot; [apply (xf_nx _ _ _ _ _ _ _ _ F) in Hq|apply (xf_nz _ _ _ _ _ _ _ _ F) in Hq]; apply Hq. Qed.
  Lemma xz_in a q : In a ancs -> In q (fst (xzzx l a)) \/ In q (snd (xzzx l a)) -> In q data.
  Proof.
    intros Ha Hq. apply (css_in _ _ _ _ _ _ _ Fc a q Ha).
    pose proof (xf_fst _ _ _ _ _ _ _ _ F a q Ha) as E1. pose proof (xf_snd _ _ _ _ _ _ _ _ F a q Ha) as E2. unfold on in *.
    rewrite <- !mem_In in *. rewrite E1, E2 in Hq. destruct (C q); tauto.
  Qed.
  Lemma xz_com a b : In a ancs -> In b ancs -> anti (xzzx l) (on (fst (xzzx l a))) (on (snd (xzzx l a))) b = false.
  Proof.
    intros Ha Hb. rewrite (xf_anti _ _ _ _ _ _ _ _ F _ _ _ Hb). rewrite <- (css_com _ _ _ _ _ _ _ Fc a b Ha Hb). unfold anti. f_equal; f_equal; apply map_ext; intros q;
      rewrite (xf_fst _ _ _ _ _ _ _ _ F a q Ha), (xf_snd _ _ _ _ _ _ _ _ F a q Ha); destruct (C q); reflexivity.
  Qed.
  Lemma xz_bt (rot : bool) a : In a (if rot then xs else zs) -> In a ancs /\ NoDup (support l a) /\ incl (support l a) data /\
    forall q, on (fst (xzzx l a)) q = hs (hset rot) q && mem q (support l a) /\ on (snd (xzzx l a)) q = negb (hs (hset rot) q) && mem q (support l a).
  Proof.
    intros Ha. assert (Ha' : In a ancs) by (apply (css_types _ _ _ _ _ _ _ Fc); destruct rot; auto). split; [exact Ha'|].
    assert (Hs : NoDup (support l a) /\ incl (support l a) data) by (apply (css_sup _ _ _ _ _ _ _ Fc); destruct rot; auto). split; [apply Hs|]. split; [apply Hs|].
    intros q. rewrite (xf_fst _ _ _ _ _ _ _ _ F a q Ha'), (xf_snd _ _ _ _ _ _ _ _ F a q Ha').
    destruct (mem q (support l a)) eqn:M.
    - pose proof M as M'. apply mem_In in M'. apply (proj2 Hs) in M'. rewrite (xz_hs rot q M'), !andb_true_r. destruct rot;
      [rewrite (css_st_x _ _ _ _ _ _ _ Fc a Ha)|rewrite (css_st_z _ _ _ _ _ _ _ Fc a Ha)]; cbn [fst snd]; unfold on; rewrite M; destruct (C q); auto.
    - rewrite !andb_false_r. destruct rot;
      [rewrite (css_st_x _ _ _ _ _ _ _ Fc a Ha)|rewrite (css_st_z _ _ _ _ _ _ _ Fc a Ha)]; cbn [fst snd]; unfold on; rewrite M; destruct (C q); auto.
  Qed.
  Lemma xz_log (rot : bool) a : In a ancs -> let lq := if rot then lx else lz in
    anti (xzzx l) (fun q => hs (hset rot) q && mem q lq) (fun q => negb (hs (hset rot) q) && mem q lq) a = false.
  Proof.
    intros Ha lq. rewrite (xf_anti _ _ _ _ _ _ _ _ F _ _ _ Ha). destruct (cf_code _ _ _ _ _ _ _ Fc) as [lg cc].
    pose proof (css_sup _ _ _ _ _ _ _ Fc) as Sp. unfold anti.
    apply (css_types _ _ _ _ _ _ _ Fc) in Ha as [Ha|Ha].
    - rewrite (css_st_x _ _ _ _ _ _ _ Fc a Ha). cbn [fst snd map]. change (xorl []) with false. rewrite xorb_false_r. destruct rot.
      + apply xorl_false. intros b Hb. apply in_map_iff in Hb as (q & <- & Hq). assert (Hd : In q data) by (eapply Sp; eauto).
        pose proof (xz_hs true q Hd) as Hh. rewrite Hh. destruct (C q); reflexivity.
      + pose proof (cc_lzx _ _ _ _ _ _ _ cc a Ha) as K. apply commutes_xor in K. etransitivity; [|exact K]. f_equal. apply map_ext_in.
        intros q Hq. assert (Hd : In q data) by (eapply Sp; eauto). pose proof (xz_hs false q Hd) as Hh. rewrite Hh. unfold lq, on. destruct (C q); reflexivity.
    - rewrite (css_st_z _ _ _ _ _ _ _ Fc a Ha). cbn [fst snd map]. change (xorl []) with false. rewrite xorb_false_l. destruct rot.
      + pose proof (cc_lxz _ _ _ _ _ _ _ cc a Ha) as K. apply commutes_xor in K. etransitivity; [|exact K]. f_equal. apply map_ext_in.
        intros q Hq. assert (Hd : In q data) by (eapply Sp; eauto). pose proof (xz_hs true q Hd) as Hh. rewrite Hh. unfold lq, on. destruct (C q); reflexivity.
      + apply xorl_false. intros b Hb. apply in_map_iff in Hb as (q & <- & Hq). assert (Hd : In q data) by (eapply Sp; eauto).
        pose proof (xz_hs false q Hd) as Hh. rewrite Hh. destruct (C q); reflexivity.
  Qed.
  Lemma xz_stabs (rot : bool) : get_stabs l (basis_type rot) = Ok (if rot then xs else zs).
  Proof. unfold basis_type. destruct rot; [apply (css_x _ _ _ _ _ _ _ Fc)|apply (css_z _ _ _ _ _ _ _ Fc)]. Qed.
  Context (ordt : nat -> nat -> list string -> list string).
  Hypothesis Hp : forall t n s, Permutation (ordt t n s) s.
  Hypothesis Hc : l_code l = "rotated_surface_code".
  Lemma hset_ord (rot : bool) t n : NoDup (ordt t n (hset rot)) /\ forall q, In q (ordt t n (hset rot)) <-> In q (hset rot).
  Proof.
    split; [eapply Permutation_NoDup; [symmetry; apply Hp|apply dedup_NoDup]|]. intros q. split; apply Permutation_in; [apply Hp|symmetry; apply Hp].
  Qed.
  Lemma xz_init (rot : bool) di sel p : Iok ancs data (hset rot) p -> bk (lg_blocks (init_xzzx_blocks (ordt 1%nat) l di rot)) sel p identity_op.
  Proof.
    intros Hok. destruct (init_xzzx_gates (ordt 1%nat) l di rot ancs data _ Hc (cf_anc _ _ _ _ _ _ _ Fc) (css_data _ _ _ _ _ _ _ Fc) (xz_stabs rot)) as [exc ->].
    eapply init_bk; [apply hset_ord|apply hset_ord|apply xz_hset|intros q|exact Hok].
    rewrite <- in_app_iff, <- (dedup_In (data ++ ancs) q). split; apply Permutation_in; [apply Hp|symmetry; apply Hp].
  Qed.
  Lemma xz_meas (rot : bool) sel : bk (lg_blocks (log_meas_xzzx_blocks (ordt 2%nat) l rot)) sel identity_op
     (Pauli (fun q => hs (hset rot) q && msel data sel q) (fun q => negb (hs (hset rot) q) && msel data sel q)).
  Proof.
    rewrite (log_meas_xzzx_gates (ordt 2%nat) l rot ancs data _ (cf_anc _ _ _ _ _ _ _ Fc) (css_data _ _ _ _ _ _ _ Fc) (xz_stabs rot)).
    apply meas_bk; [apply (css_ndata _ _ _ _ _ _ _ Fc)|apply hset_ord|apply hset_ord].
  Qed.
End Hyps.

Lemma C40_xzzx_pipelined_lemma ordt a l R di rot reset dets w w' c : (forall t n s, Permutation (ordt t n s) s) ->
  SpecNoise.wf_inds (inds (fst w)) -> NoDup (labels (snd w)) ->
  2 <= ga_dx a -> 2 <= ga_dz a -> rot_surface_code_rectangle a = Ok l ->
  memory ordt XzzxPipelined l R di rot reset dets false w = (w', Ok c) -> all_deterministic c.
Proof.
  intros Hp W N Hx Hz E. destruct (rot_planar a) as (l1 & r & E1 & _ & _ & P & _ & _ & _ & _ & _ & _ & Hc); [lia|lia|]. rewrite E in E1. injection E1 as <-.
  destruct (rot_code a) as (l1 & data & xs & zs & lx & lz & E1 & cc & _); [lia|lia|]. rewrite E in E1. injection E1 as <-.
  pose proof (rot_xzzx_facts a l Hx Hz P _ _ _ _ _ _ cc) as F. pose proof (xf_css _ _ _ _ _ _ _ _ F) as Fc.
  intros H. destruct (cc_nodup _ _ _ _ _ _ _ cc) as (_ & Nx & Nz). destruct (cc_log _ _ _ _ _ _ _ cc) as [Ix Iz].
  apply (generic_det ordt XzzxPipelined l R di rot reset dets w w' c (xzzx l) (ancs (rot_ps a)) data (nw_se l (if rot then xs else zs)) (if rot then xs else zs) (ga_log a) (if rot then lx else lz)); auto.
  - apply (cf_wf _ _ _ _ _ _ _ Fc).
  - apply (cf_anc _ _ _ _ _ _ _ Fc).
  - apply (css_data _ _ _ _ _ _ _ Fc).
  - apply (css_ndata _ _ _ _ _ _ _ Fc).
  - apply (cf_disj _ _ _ _ _ _ _ Fc).
  - intros b q. apply (xz_in _ _ _ _ _ _ _ _ F).
  - apply (xz_hset _ _ _ _ _ _ _ _ F).
  - intros b b'. apply (xz_com _ _ _ _ _ _ _ _ F).
  - intros r0. apply rot_xzzx_pipe; auto.
  - intros sel p. apply (xz_init _ _ _ _ _ _ _ _ F); auto.
  - apply (xz_stabs _ _ _ _ _ _ _ _ F).
  - intros b. apply (xz_bt _ _ _ _ _ _ _ _ F).
  - intros sel. apply (xz_meas _ _ _ _ _ _ _ _ F). exact Hp.
  - apply cc.
  - destruct rot; apply cc.
  - destruct rot; assumption.
  - destruct rot; assumption.
  - intros b Hb. apply (xz_log _ _ _ _ _ _ _ _ F rot b Hb).
Qed.
