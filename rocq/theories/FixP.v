(** The XZZX round with the misspelt name corrected. *)
From Coq Require Import QArith Qcanon.
From Verif Require Import Base Lib StimM SetupM NoiseM SpecNoise NoiseP LayoutM SpecLayout LayoutP LayoutP2 DetM
  GenM GenP SpecGen GeomP RotP RotP2 UnrotP BlockM SpecTrack TrackP ActP RoundP CssP CssP2 PipeP RoundTopP XzzxP SpecFix LiftP.
Open Scope Z_scope.
Local Opaque rot_ps unrot_ps.

(** * Conjugating with Hadamards on some qubits *)
Section Conj.
  Context (st : stabilizers) (ancs : list string) (S : string -> bool).
  Hypothesis HS : forall a, In a ancs -> S a = false.
  Definition swapped : stabilizers := fun a =>
    (filter (fun q => negb (S q)) (fst (st a)) ++ filter S (snd (st a)),
     filter (fun q => negb (S q)) (snd (st a)) ++ filter S (fst (st a))).
  Lemma xorl_split (f g : string -> bool) L :
    xorl (map (fun q => if S q then g q else f q) L) =
    xorb (xorl (map f (filter (fun q => negb (S q)) L))) (xorl (map g (filter S L))).
  Proof.
    induction L as [|q L IH]; [reflexivity|]. cbn [map filter]. destruct (S q); cbn [negb map]; rewrite ?xorl_cons, IH.
    - rewrite <- !xorb_assoc. f_equal. apply xorb_comm.
    - now rewrite xorb_assoc.
  Qed.
  Lemma on_split q L M : on (filter (fun q => negb (S q)) L ++ filter S M) q = if S q then on M q else on L q.
  Proof.
    unfold on. apply eq_true_iff_eq. rewrite mem_In, in_app_iff, !filter_In. destruct (S q); cbn [negb]; rewrite mem_In; intuition discriminate.
  Qed.
  Lemma xorl_ext' (f g : string -> bool) L : (forall x, In x L -> f x = g x) -> xorl (map f L) = xorl (map g L).
  Proof. intros E. f_equal. now apply map_ext_in. Qed.
  Lemma anti_swapped X u a : anti swapped X u a = anti st (fun q => if S q then u q else X q) (fun q => if S q then X q else u q) a.
  Proof.
    unfold anti, swapped. cbn [fst snd]. rewrite !map_app, !GeomP.xorl_app, !xorl_split.
    generalize (xorl (map u (filter (fun q => negb (S q)) (fst (st a))))), (xorl (map u (filter S (snd (st a))))),
      (xorl (map X (filter (fun q => negb (S q)) (snd (st a))))), (xorl (map X (filter S (fst (st a))))).
    now intros [] [] [] [].
  Qed.
  Lemma conj_acts (A core B A' B' : list (gate string)) (r r' : string -> bool) :
    (forall sel p, bk A sel p (had r p)) -> (forall sel p, bk B sel p (had r p)) ->
    (forall sel p, bk A' sel p (had r' p)) -> (forall sel p, bk B' sel p (had r' p)) ->
    num_meas A' = 0%nat -> num_meas B' = 0%nat -> (forall q, r' q = xorb (r q) (S q)) ->
    acts st ancs (A ++ core ++ B) -> acts swapped ancs (A' ++ core ++ B').
  Proof.
    intros HA HB HA' HB' NA NB Hr [N H]. rewrite !num_meas_app in N. split; [rewrite !num_meas_app; lia|].
    intros X u sel HX.
    set (Xs := fun q => if S q then u q else X q). set (us := fun q => if S q then X q else u q).
    assert (HXs : forall a, In a ancs -> Xs a = false) by (intros a Ha; unfold Xs; rewrite HS by exact Ha; auto).
    specialize (H Xs us sel HXs). apply bk_app_inv in H as (R1 & H1 & H2). apply bk_app_inv in H1 as (R0 & H0 & H1).
    pose proof (bk_fun _ _ _ _ _ H0 (HB sel _)) as E0. pose proof (bk_fun _ _ _ _ _ H2 (HA _ R1)) as E2.
    assert (C : bk (core ++ B') sel (Pauli X u) R1).
    { eapply bk_app; [apply HB'|]. eapply bk_unitary; [eapply bk_eq; [exact H1| |apply peq_refl]|lia].
      eapply peq_trans; [exact E0|]. intros q. unfold had, Xs, us. cbn [px pz]. rewrite Hr. destruct (r q), (S q); auto. }
    eapply bk_eq; [eapply bk_app; [exact C|apply HA']|apply peq_refl|].
    intros q. destruct (E2 q) as [Ex Ez]. cbn [px pz had] in Ex, Ez.
    assert (Eu : forall T, xorl (map (fun a => us a && T a) ancs) = xorl (map (fun a => u a && T a) ancs)).
    { intros T. f_equal. apply map_ext_in. intros a Ha. unfold us. now rewrite HS. }
    cbn [px pz had]. rewrite anti_swapped. fold Xs us. unfold sumx, sumz, swapped in *. cbn [fst snd]. rewrite !Eu in *.
    rewrite (xorl_ext' (fun a => u a && on (filter (fun q => negb (S q)) (fst (st a)) ++ filter S (snd (st a))) q)
       (fun a => u a && if S q then on (snd (st a)) q else on (fst (st a)) q)) by (intros a _; now rewrite on_split).
    rewrite (xorl_ext' (fun a => u a && on (filter (fun q => negb (S q)) (snd (st a)) ++ filter S (fst (st a))) q)
       (fun a => u a && if S q then on (fst (st a)) q else on (snd (st a)) q)) by (intros a _; now rewrite on_split).
    rewrite Hr. unfold Xs, us in Ex, Ez. destruct (S q) eqn:Sq.
    - destruct (mem q ancs) eqn:M; [apply mem_In in M; rewrite HS in Sq by exact M; discriminate|].
      destruct (r q); cbn [xorb]; auto.
    - rewrite xorb_false_r. unfold Xs, us. auto.
  Qed.
End Conj.

Section Fixed.
  Context (a : gen_args) (l : layout) (ord : nat -> list string -> list string).
  Hypothesis Hp : forall k s, Permutation (ord k s) s.
  Hypothesis Hx : 2 <= ga_dx a.
  Hypothesis Hz : 2 <= ga_dz a.
  Local Notation ps := (rot_ps a).
  Hypothesis P : planar l rot_shifts rot_dirn (rot_pt a) ps.
  Hypothesis O : l_order l = rot_order.
  Hypothesis C : l_code l = "rotated_surface_code"%string.
  Local Notation rotq := (rot l rot_dirn ps (1, 1) (-1, -1)).
  Definition SQ : list string := nw_se l (labs ps KZ).
  Definition rotf : list string := symdiff rotq SQ.
  Definition core : list (gate string) :=
    cz_gates (L0 l rot_dirn ps (1, 1)) ++ map (G1 GH) (labs ps KD) ++ cz_gates (L1 l rot_dirn ps (1, -1) (-1, 1)) ++
    cz_gates (L2 l rot_dirn ps (1, -1) (-1, 1)) ++ map (G1 GH) (labs ps KD) ++ cz_gates (L3 l rot_dirn ps (-1, -1)).
  Lemma sq_data q : In q SQ -> exists d, In d ps /\ knd d = KD /\ pl_lab d = q.
  Proof.
    intros H. apply (nw_se_In a l KZ q P) in H as (p & d & Hi & Hd & K & L & Ed). exists d. split; [exact Hd|]. split; [|exact L].
    assert (Ht : exists t, In t rot_shifts /\ pos d = padd (pos p) t) by (destruct Ed as [Ed|Ed]; (eexists; split; [|exact Ed]); unfold rot_shifts; cbn; tauto).
    destruct Ht as (t & Ht & Ed'). pose proof (pn_par _ _ _ _ _ P p d t Hi Hd Ht Ed') as Par.
    destruct (knd d) eqn:Kd; auto; assert (knd p = KD) by (apply Par; discriminate); congruence.
  Qed.
  Lemma sq_anc b : In b (ancs ps) -> mem b SQ = false.
  Proof.
    intros Hb. apply mem_not. intros H. apply sq_data in H as (d & Hd & K & L).
    apply (anc_place ps) in Hb as (p & Hi & Kp & E). subst b. apply (lab_eq _ _ _ _ _ P) in L; auto. congruence.
  Qed.
  Lemma rotf_mem q : mem q rotf = xorb (mem q rotq) (mem q SQ).
  Proof.
    unfold rotf, symdiff, diff. apply eq_true_iff_eq. rewrite mem_In, in_app_iff, !filter_In.
    rewrite <- !mem_In, !negb_true_iff. destruct (mem q rotq), (mem q SQ); cbn; intuition discriminate.
  Qed.
  Lemma rotf_nodup : NoDup rotf.
  Proof.
    unfold rotf, symdiff, diff. apply NoDup_app_intro.
    - apply NoDup_filter. apply rot_nodup.
    - apply NoDup_filter. apply dedup_NoDup.
    - intros q H H'. apply filter_In in H as [_ H], H' as [H' _]. apply mem_In in H'. rewrite H' in H. discriminate.
  Qed.
  Lemma bk_ordH k L sel p : NoDup L -> bk (map (G1 GH) (ord k L)) sel p (had (fun q => mem q L) p).
  Proof.
    intros N. eapply bk_eq; [apply bk_H|apply peq_refl|].
    - eapply Permutation_NoDup; [symmetry; apply Hp|exact N].
    - intros q. unfold had. cbn [px pz].
      assert (E : mem q (ord k L) = mem q L) by (apply eq_true_iff_eq; rewrite !mem_In; split; apply Permutation_in; [apply Hp|symmetry; apply Hp]).
      rewrite E. auto.
  Qed.
  Lemma fixed_acts : acts (swapped (css l) (fun q => mem q SQ)) (ancs ps)
    (map (G1 GH) (ord 0%nat rotf) ++ core ++ map (G1 GH) (ord 6%nat rotf)).
  Proof.
    eapply (conj_acts (css l) (ancs ps) (fun q => mem q SQ) sq_anc (map (G1 GH) (ord 0%nat rotq)) core (map (G1 GH) (ord 6%nat rotq))
             _ _ (fun q => mem q rotq) (fun q => mem q rotf)).
    1-2: intros; apply bk_ordH, rot_nodup.
    1-2: intros; apply bk_ordH, rotf_nodup.
    1-2: rewrite num_meas_map; reflexivity.
    - exact rotf_mem.
    - assert (H1 : 1 <= ga_dx a) by lia. assert (A : acts (css l) (ancs ps) (inner l rot_dirn ps (1, 1) (1, -1) (-1, 1) (-1, -1) ord)).
      { eapply (css_acts l rot_shifts rot_dirn (rot_pt a) ps P (1, 1) (1, -1) (-1, 1) (-1, -1) even4 "");
        [apply rot_Ns|apply rot_Ps|reflexivity|exact O|apply rot_HR|apply rot_HR3; assumption|eapply rot_HG; eassumption|exact Hp]. }
      unfold inner in A. unfold core. rewrite <- !app_assoc. exact A.
  Qed.
  Lemma fixed_gates reset : lg_blocks (xzzx_round_fixed ord l reset) =
    round_g (ancs ps) (map (G1 GH) (ord 0%nat rotf) ++ core ++ map (G1 GH) (ord 6%nat rotf)) reset.
  Proof.
    unfold xzzx_round_fixed. rewrite C, eqb_refl. cbn [negb generator].
    rewrite (pn_data _ _ _ _ _ P), (pn_anc _ _ _ _ _ P), (pn_x _ _ _ _ _ P). cbn [bind generator].
    fold (labs ps KD). fold (ancs ps). fold (labs ps KX). unfold xzzx_rot, css_rot, order_at, dget_err. rewrite O. unfold rot_order. cbn [dget eqb]. rewrite eqb_refl. cbn [bind of_opt nth_error].
    unfold cz_block, cz_lists, order_at, dget_err. rewrite O. unfold rot_order. cbn [dkeys map fst mapM dget].
    rewrite (pn_x _ _ _ _ _ P), (pn_z _ _ _ _ _ P). rewrite !eqb_refl. cbn [bind].
    replace (eqb "z_type"%string "x_type"%string) with false by reflexivity. cbn [bind of_opt nth_error]. fold (labs ps KX). fold (labs ps KZ).
    rewrite !(lg_blocks_app). unfold round_start, round_end, lg_blocks, round_g, had_block, tick_block, lg_block.
    cbn [flat_map lg_call std_gate is_two map app]. rewrite !app_nil_r, !pair_gates_flat.
    unfold rotf, SQ, CssP.rot, core, L0, L1, L2, L3. rewrite !cz_gates_app. unfold cz_gates. destruct reset; cbn [flat_map lg_call std_gate is_two map app]; rewrite ?app_nil_r, <- ?app_assoc; reflexivity.
  Qed.
  Lemma fixed_ok reset : ok_blocks (xzzx_round_fixed ord l reset).
  Proof.
    unfold xzzx_round_fixed. rewrite C, eqb_refl. cbn [negb generator].
    rewrite (pn_data _ _ _ _ _ P), (pn_anc _ _ _ _ _ P), (pn_x _ _ _ _ _ P). cbn [bind generator].
    unfold ok_blocks. apply Forall_app. split; [destruct reset; repeat constructor|]. apply Forall_app. split; [|repeat constructor].
    assert (CC : forall site qs k, match cz_block ord site l qs k with Ok b => Forall no_my b | Err _ => True end).
    { intros site qs k. unfold cz_block. destruct (cz_lists l k); cbn [bind]; [|exact I]. apply Forall_app. split; [|repeat constructor].
      apply Forall_forall. intros x Hx'. apply in_map_iff in Hx' as (y & <- & _). exact I. }
    assert (D : forall k qs, match (do r <- xzzx_rot l (map pl_lab (filter isanc ps)) (map pl_lab (filter (isk KX) ps)); Ok (had_block ord k qs r)) with Ok b => Forall no_my b | Err _ => True end).
    { intros k qs. destruct (xzzx_rot l _ _); cbn [bind]; [repeat constructor|exact I]. }
    repeat (constructor; [first [apply CC | apply D | repeat constructor]|]). constructor.
  Qed.
  (* the conjugated generators are those of the XZZX code *)
  Lemma fixed_stabs b : In b (ancs ps) ->
    Permutation (fst (swapped (css l) (fun q => mem q SQ) b)) (fst (xzzx l b)) /\
    Permutation (snd (swapped (css l) (fun q => mem q SQ) b)) (snd (xzzx l b)).
  Proof.
    intros Hb. apply (anc_place ps) in Hb as (p & Hi & K & <-).
    unfold swapped, css, xzzx. cbn [fst snd]. destruct (of_type_at _ _ _ _ _ P p Hi) as [-> ->].
    change "north_west"%string with (rot_dirn (1, -1)). change "south_east"%string with (rot_dirn (-1, 1)).
    change "north_east"%string with (rot_dirn (1, 1)). change "south_west"%string with (rot_dirn (-1, -1)).
    assert (G : forall d t, In d ps -> knd d = KD -> In t rot_shifts -> pos d = padd (pos p) t ->
      ((if isk KX p then fun q => negb (mem q SQ) else fun q => mem q SQ) (pl_lab d) = true <-> t = (1, -1) \/ t = (-1, 1)) /\
      ((if isk KX p then fun q => mem q SQ else fun q => negb (mem q SQ)) (pl_lab d) = true <-> t = (1, 1) \/ t = (-1, -1))).
    { intros d t Hd Kd Ht Ed. destruct (nbr_cls a p d t Hi K Ht Ed) as [A B]. rewrite <- A, <- B.
      pose proof (proj2 (cls_at a l d Hx Hz P Hd Kd)) as T. fold SQ in T. rewrite <- mem_In in T.
      assert (M : (fst (pos d) + snd (pos d)) mod 4 = 2 \/ (fst (pos d) + snd (pos d)) mod 4 = 0).
      { apply ps_kpos in Hd. rewrite Kd in Hd. cbn [kpos] in Hd. unfold dpos in Hd. lia. }
      destruct (isk KX p); rewrite negb_true_iff, <- not_true_iff_false, T; lia. }
    unfold isk in *. destruct (knd p) eqn:Kp; [congruence| |]; cbn [filter app]; rewrite ?app_nil_r.
    - split; apply (two_perm a l P); auto; try (unfold rot_shifts; cbn; tauto); try discriminate; try congruence;
        intros d t Hd Kd Ht Ed; now apply G.
    - split; apply (two_perm a l P); auto; try (unfold rot_shifts; cbn; tauto); try discriminate; try congruence;
        intros d t Hd Kd Ht Ed; now apply G.
  Qed.
  Lemma fixed_round : exists g, round_of l (xzzx l) (xzzx_round_fixed ord l) (ancs ps) g.
  Proof.
    eexists. constructor.
    - apply (pn_anc _ _ _ _ _ P).
    - eapply ancs_nodup; exact P.
    - intros b q Hb Hq. eapply (css_disjoint l rot_shifts rot_dirn (rot_pt a) ps P rot_shifts_nodup b q Hb).
      destruct (fixed_stabs b Hb) as [E1 E2].
      assert (Hq' : In q (fst (swapped (css l) (fun q => mem q SQ) b)) \/ In q (snd (swapped (css l) (fun q => mem q SQ) b))).
      { destruct Hq as [Hq|Hq]; [left|right]; (eapply Permutation_in; [symmetry; eassumption|exact Hq]). }
      unfold swapped in Hq'. cbn [fst snd] in Hq'. rewrite !in_app_iff, !filter_In in Hq'. tauto.
    - eapply acts_ext; [exact fixed_stabs|exact fixed_acts].
    - exact fixed_ok.
    - exact fixed_gates.
  Qed.
End Fixed.
Lemma fixed_is a l ord : (forall k s, Permutation (ord k s) s) -> 2 <= ga_dx a -> 2 <= ga_dz a -> rot_surface_code_rectangle a = Ok l ->
  is_round (xzzx_round_fixed ord) l (xzzx l).
Proof.
  intros Hp Hx Hz E. destruct (rot_planar a) as (l' & r & E' & _ & _ & P & _ & _ & _ & _ & _ & O & C); [lia|lia|].
  rewrite E in E'. injection E' as <-. destruct (fixed_round a l ord Hp Hx Hz P O C) as [g R]. eapply is_round_of; exact R.
Qed.

Lemma fixed_only_g ord l (reset : bool) k : k <> (if reset then 16 else 14)%nat ->
  nth_error (xzzx_round_fixed ord l reset) k = nth_error (xzzx_round ord l reset) k.
Proof.
  intros H. unfold xzzx_round_fixed, xzzx_round. destruct (negb (eqb (l_code l) "rotated_surface_code"%string)); [reflexivity|].
  destruct (get_role l "data"); cbn [bind]; [|reflexivity]. destruct (get_role l "anc"); cbn [bind]; [|reflexivity].
  destruct (get_stabs l "x_type"); cbn [bind generator]; [|reflexivity]. unfold round_start.
  destruct reset; cbn [app]; do 16 (destruct k as [|k]; [first [reflexivity|exfalso; lia]|cbn [nth_error]]);
    (destruct k as [|k]; [first [reflexivity|exfalso; lia]|reflexivity]).
Qed.
