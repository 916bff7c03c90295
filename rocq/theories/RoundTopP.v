(** The QEC rounds on the generated layouts. *)
From Coq Require Import QArith Qcanon.
From Verif Require Import Base Lib StimM SetupM NoiseM SpecNoise NoiseP LayoutM SpecLayout LayoutP LayoutP2 DetM
  GenM GenP SpecGen GeomP RotP RotP2 UnrotP BlockM SpecTrack TrackP ActP RoundP CssP CssP2 PipeP.
Open Scope Z_scope.
Local Opaque rot_ps unrot_ps.

(* the gates of a round *)
Record round_of (l : layout) (st : stabilizers) (rd : bool -> blocks) (ancs : list string) (g : list (gate string)) : Prop := {
  ro_anc : get_role l "anc" = Ok ancs;
  ro_nodup : NoDup ancs;
  ro_disj : forall a q, In a ancs -> In q (fst (st a)) \/ In q (snd (st a)) -> ~ In q ancs;
  ro_acts : acts st ancs g;
  ro_ok : forall reset, ok_blocks (rd reset);
  ro_gates : forall reset, lg_blocks (rd reset) = round_g ancs g reset }.

Lemma round_spec l st rd ancs g : round_of l st rd ancs g ->
  (forall reset, measures_with id (negb reset) l st (run_blocks (rd reset))) /\
  (forall reset, preserves id l st (run_blocks (rd reset))) /\ destroys id l st (run_blocks (rd true)).
Proof.
  intros [E N D A O G]. split; [|split].
  - intros reset m m' c ancs' a i E' W H Ha Hi. rewrite E in E'. injection E' as <-. eapply circ_one; eauto.
  - intros reset m m' c ancs' xs zs P E' W H H0 C R. rewrite E in E'. injection E' as <-. eapply circ_keep; eauto.
  - intros m m' c ancs' a xs zs P E' W H H0 Ha C R. rewrite E in E'. injection E' as <-. eapply circ_random with (m := m); eauto.
Qed.

Section Top.
  Context (a : gen_args) (l : layout) (ord : nat -> list string -> list string).
  Hypothesis Hp : forall k s, Permutation (ord k s) s.

  Lemma rot_css_round_at : 1 <= ga_dx a -> 2 <= ga_dz a -> planar l rot_shifts rot_dirn (rot_pt a) (rot_ps a) -> l_order l = rot_order -> l_code l = "rotated_surface_code" ->
    exists g, round_of l (css l) (css_round ord "rotated_surface_code" l) (ancs (rot_ps a)) g.
  Proof.
    intros Hx Hz P O C. eexists. constructor.
    - apply (pn_anc _ _ _ _ _ P).
    - eapply ancs_nodup; exact P.
    - eapply css_disjoint; [exact P|apply rot_shifts_nodup].
    - eapply (css_acts l rot_shifts rot_dirn (rot_pt a) (rot_ps a) P (1, 1) (1, -1) (-1, 1) (-1, -1) even4 "");
        [apply rot_Ns|apply rot_Ps|reflexivity|exact O|apply rot_HR|apply rot_HR3; assumption|eapply rot_HG; eassumption|exact Hp].
    - intros reset. eapply css_ok; eauto.
    - intros reset. eapply (round_gates l rot_shifts rot_dirn (rot_pt a) (rot_ps a) P); [exact C|exact O].
  Qed.
  Lemma rot_css_round : 1 <= ga_dx a -> 2 <= ga_dz a -> rot_surface_code_rectangle a = Ok l ->
    exists g, round_of l (css l) (css_round ord "rotated_surface_code" l) (ancs (rot_ps a)) g.
  Proof.
    intros Hx Hz E. destruct (rot_planar a) as (l' & r & E' & _ & _ & P & _ & _ & _ & _ & _ & O & C); [lia|lia|].
    rewrite E in E'. injection E' as <-. now apply rot_css_round_at.
  Qed.
  Lemma unrot_css_round_at : 1 <= ga_dx a -> 2 <= ga_dz a -> planar l unrot_shifts unrot_dirn (ga_pt a) (unrot_ps a) -> l_order l = unrot_order -> l_code l = "unrotated_surface_code" ->
    exists g, round_of l (css l) (css_round ord "unrotated_surface_code" l) (ancs (unrot_ps a)) g.
  Proof.
    intros Hx Hz P O C. eexists. constructor.
    - apply (pn_anc _ _ _ _ _ P).
    - eapply ancs_nodup; exact P.
    - eapply css_disjoint; [exact P|eapply Permutation_NoDup; [symmetry; apply unrot_Ps|apply unrot_Ns]].
    - eapply (css_acts l unrot_shifts unrot_dirn (ga_pt a) (unrot_ps a) P (0, 1) (-1, 0) (1, 0) (0, -1) evenr "");
        [apply unrot_Ns|apply unrot_Ps|reflexivity|exact O|apply unrot_HR|apply unrot_HR3; assumption|eapply unrot_HG; eassumption|exact Hp].
    - intros reset. eapply css_ok; eauto.
    - intros reset. eapply (round_gates l unrot_shifts unrot_dirn (ga_pt a) (unrot_ps a) P); [exact C|exact O].
  Qed.
  Lemma unrot_css_round : 1 <= ga_dx a -> 2 <= ga_dz a -> unrot_surface_code_rectangle a = Ok l ->
    exists g, round_of l (css l) (css_round ord "unrotated_surface_code" l) (ancs (unrot_ps a)) g.
  Proof.
    intros Hx Hz E. destruct (unrot_planar a) as (l' & r & E' & _ & _ & P & _ & _ & _ & _ & _ & O & C); [lia|lia|].
    rewrite E in E'. injection E' as <-. now apply unrot_css_round_at.
  Qed.

  (** * Pipelined rounds *)
  Lemma acts_ext st st' ancs g : (forall a, In a ancs -> Permutation (fst (st a)) (fst (st' a)) /\ Permutation (snd (st a)) (snd (st' a))) ->
    acts st ancs g -> acts st' ancs g.
  Proof.
    intros E [N A]. split; [exact N|]. intros X u sel HX. eapply bk_eq; [apply A; exact HX|apply peq_refl|].
    assert (M : forall (L L' : list string) q, Permutation L L' -> on L q = on L' q).
    { intros L L' q H. unfold on. destruct (mem q L') eqn:M.
      - apply mem_In. apply mem_In in M. eapply Permutation_in; [symmetry; exact H|exact M].
      - apply mem_not. intros H'. eapply Permutation_in in H'; [|exact H]. apply mem_In in H'. congruence. }
    intros q. cbn [px pz]. unfold sumx, sumz, anti. split.
    - destruct (mem q ancs) eqn:Q.
      + apply mem_In in Q. destruct (E q Q) as [E1 E2]. f_equal; apply xorl_perm, Permutation_map; assumption.
      + f_equal. f_equal. apply map_ext_in. intros b Hb. f_equal. apply M. now apply E.
    - f_equal. f_equal. apply map_ext_in. intros b Hb. f_equal. apply M. now apply E.
  Qed.
  Lemma rot_order_dirs : rot_order = [("x_type", map rot_dirn [(1, 1); (1, -1); (-1, 1); (-1, -1)]); ("z_type", map rot_dirn [(1, 1); (-1, 1); (1, -1); (-1, -1)])].
  Proof. reflexivity. Qed.
  Lemma rot_Pz : Permutation rot_shifts [(1, 1); (-1, 1); (1, -1); (-1, -1)].
  Proof. eapply perm_trans; [apply rot_Ps|]. apply perm_skip. apply perm_swap. Qed.

  Lemma rot_css_pipe_at : 1 <= ga_dx a -> 1 <= ga_dz a -> planar l rot_shifts rot_dirn (rot_pt a) (rot_ps a) -> l_order l = rot_order -> l_code l = "rotated_surface_code" ->
    exists g, round_of l (css l) (css_pipe_round ord l) (ancs (rot_ps a)) g.
  Proof.
    intros Hx Hz P O C. eexists. constructor.
    - apply (pn_anc _ _ _ _ _ P).
    - eapply ancs_nodup; exact P.
    - eapply css_disjoint; [exact P|apply rot_shifts_nodup].
    - eapply acts_ext; cycle 1.
      + eapply (pipe_acts l rot_shifts rot_dirn (rot_pt a) (rot_ps a) P rot_shifts_nodup _ _ rot_Ps rot_Pz ord Hp css_pipe_rot (fun _ => true)).
        * apply dedup_NoDup.
        * apply dedup_NoDup.
        * intros q. unfold css_pipe_rot, union. rewrite eqb_refl, mem_In, dedup_In, in_app_iff, dedup_In. unfold labs. rewrite !kind_In.
          split; [intros [(p & A & B & D)|(p & A & B & D)]; exists p; auto|intros (p & A & B & [D|[D _]]); [left|right]; exists p; auto].
        * intros q. unfold css_pipe_rot, union. replace (eqb "z_type"%string "x_type"%string) with false by reflexivity.
          rewrite app_nil_r, mem_In, dedup_In, dedup_In. unfold labs. rewrite kind_In.
          split; [intros (p & A & B & D); exists p; auto|intros (p & A & B & [D|[_ D]]); [exists p; auto|discriminate]].
        * intros p q Hi K Hq Kq. eapply rot_stabs; eauto.
      + intros b Hb. apply (anc_place (rot_ps a)) in Hb as (p & Hi & K & <-).
        unfold pst, css. cbn [fst snd]. destruct (of_type_at _ _ _ _ _ P p Hi) as [-> ->].
        assert (FT : forall L : list string, filter (fun _ => true) L = L) by (induction L; cbn; congruence).
        assert (FF : forall L : list string, filter (fun _ => false) L = []) by (induction L; cbn; congruence).
        unfold isk. destruct (knd p); [congruence| |]; cbn [negb]; rewrite ?FT, ?FF; auto.
    - intros reset. exact (pipe_ok l rot_shifts rot_dirn (rot_pt a) (rot_ps a) P C ord _ reset).
    - intros reset. exact (pipe_gates l rot_shifts rot_dirn (rot_pt a) (rot_ps a) P _ _ C (eq_trans O rot_order_dirs) ord css_pipe_rot reset).
  Qed.
  Lemma rot_css_pipe : 1 <= ga_dx a -> 1 <= ga_dz a -> rot_surface_code_rectangle a = Ok l ->
    exists g, round_of l (css l) (css_pipe_round ord l) (ancs (rot_ps a)) g.
  Proof.
    intros Hx Hz E. destruct (rot_planar a) as (l' & r & E' & _ & _ & P & _ & _ & _ & _ & _ & O & C); [lia|lia|].
    rewrite E in E'. injection E' as <-. now apply rot_css_pipe_at.
  Qed.

End Top.
