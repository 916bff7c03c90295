(** The repeated CNOT experiment on generated layouts. *)
From Coq Require Import QArith Qcanon.
From Verif Require Import Base Lib StimM SetupM NoiseM SpecNoise NoiseP LayoutM SpecLayout LayoutP LayoutP2 SetupP MatM MatP DetM SpecDet DetP DetCountP DetLinP DetDetP
  GenM GenP SpecGen GeomP RotP RotP2 UnrotP OneP BlockM LogM SpecLog ExpM SpecTrack SpecExp TrackP LiftP ExpDetP ExpP ExpP2 ExpP3 ExpP4 ExpP5 ExpP8 ExpP9 ExpP13 ActP RoundP RoundTopP
  RepP RepP2 RepP3 RepP4 RepP5 RepP6 RepP7 LogP LogP2 LogP4 LogP5 LogP6 LogP7 LogP8 LogP9 LogP10 LogP12 LogP13
  MergeM SpecMerge MergeP MergeP2 MergeP3 MergeP4 MergeP5 MergeP6 MergeP7 CnotP CnotP2 CnotP3 CnotP4 CnotP5 CnotP6 CnotP7 CnotP8 CnotP9 CnotP10 SpecCnot.
Open Scope Z_scope.
Local Opaque rot_ps unrot_ps.

Definition mate_of (p1 p2 : list placed) (f b : string -> string) (a : string) : string :=
  if mem a (ancs p1) then f a else if mem a (ancs p2) then b a else a.

Section Mates.
  Context (p1 p2 : list placed) (f b : string -> string).
  Hypothesis Dis : forall p p', In p p1 -> In p' p2 -> pl_lab p <> pl_lab p'.
  Hypothesis Pl : same_place p1 p2 f b.
  Notation mate := (mate_of p1 p2 f b).
  Lemma anc_in ps p : In p ps -> knd p <> KD -> In (pl_lab p) (ancs ps).
  Proof. intros Hp K. apply ancs_labs. rewrite !labs_place. destruct (knd p) eqn:E; [tauto| |]; [left|right]; eauto. Qed.
  Lemma anc_dis a : In a (ancs p1) -> ~ In a (ancs p2).
  Proof. intros I I'. apply anc_place in I as (p & Hp & _ & <-). apply anc_place in I' as (p' & Hp' & _ & E). now apply (Dis p p'). Qed.
  Lemma mate_one a : In a (ancs p1) -> mate a = f a /\ In (f a) (ancs p2) /\ b (f a) = a.
  Proof.
    intros Ha. unfold mate_of. rewrite (proj2 (mem_In a _) Ha). apply anc_place in Ha as (p & Hp & K & <-).
    destruct (proj1 Pl p Hp) as (p' & Hp' & _ & K' & -> & E). split; [reflexivity|]. split; [|exact E]. apply anc_in; [exact Hp'|congruence].
  Qed.
  Lemma mate_two a : In a (ancs p2) -> mate a = b a /\ In (b a) (ancs p1) /\ f (b a) = a.
  Proof.
    intros Ha. unfold mate_of. rewrite (mem_not a (ancs p1)) by (intros H; now apply (anc_dis a)). rewrite (proj2 (mem_In a _) Ha).
    apply anc_place in Ha as (p & Hp & K & <-). destruct (proj2 Pl p Hp) as (p' & Hp' & _ & K' & E & ->). split; [reflexivity|]. split; [|exact E]. apply anc_in; [exact Hp'|congruence].
  Qed.
  Lemma mate_out a : ~ In a (ancs p1) -> ~ In a (ancs p2) -> mate a = a.
  Proof. intros H1 H2. unfold mate_of. now rewrite !mem_not. Qed.
  Lemma mate_mate a : mate (mate a) = a.
  Proof.
    destruct (in_dec string_dec a (ancs p1)) as [H|H].
    - destruct (mate_one a H) as (-> & H2 & E). destruct (mate_two _ H2) as (-> & _). exact E.
    - destruct (in_dec string_dec a (ancs p2)) as [H'|H'].
      + destruct (mate_two a H') as (-> & H2 & E). destruct (mate_one _ H2) as (-> & _). exact E.
      + now rewrite !(mate_out a).
  Qed.
End Mates.
(* the two directions have the same mates *)
Lemma mate_swap p1 p2 f b f' b' : (forall p p', In p p1 -> In p' p2 -> pl_lab p <> pl_lab p') -> NoDup (map pos p1) -> NoDup (map pos p2) ->
  same_place p1 p2 f b -> same_place p2 p1 f' b' ->
  (forall a, In a (ancs p2) -> f' a = mate_of p1 p2 f b a) /\ (forall a, In a (ancs p1) -> b' a = mate_of p1 p2 f b a).
Proof.
  intros D N1 N2 S S'. assert (Inj : forall ps p q, NoDup (map pos ps) -> In p ps -> In q ps -> pos p = pos q -> p = q).
  { induction ps as [|x ps IH]; intros p q N Hp Hq E; [destruct Hp|]. cbn [map] in N. inversion N as [|? ? Hn N']; subst.
    destruct Hp as [->|Hp], Hq as [->|Hq]; [reflexivity| | |now apply IH]; exfalso; apply Hn; [rewrite E|rewrite <- E]; now apply in_map. }
  split; intros a Ha.
  - rewrite (proj1 (mate_two p1 p2 f b D S a Ha)). apply anc_place in Ha as (p & Hp & _ & <-). destruct (proj1 S' p Hp) as (q & Hq & E & _ & -> & _).
    destruct (proj2 S p Hp) as (r & Hr & E' & _ & _ & ->). f_equal. apply (Inj p1); congruence.
  - rewrite (proj1 (mate_one p1 p2 f b S a Ha)). apply anc_place in Ha as (p & Hp & _ & <-). destruct (proj2 S' p Hp) as (q & Hq & E & _ & _ & ->).
    destruct (proj1 S p Hp) as (r & Hr & E' & _ & -> & _). f_equal. apply (Inj p2); congruence.
Qed.

Section Fine.
  Context (lc : layout) (ac dc xc zc lxc lzc : list string) (lt : layout) (at_ dt xt zt lxt lzt : list string).
  Hypothesis Fc : css_facts lc ac dc xc zc lxc lzc.
  Hypothesis Ft : css_facts lt at_ dt xt zt lxt lzt.
  Hypothesis Dis : forall q, In q (dkeys (l_nodes lc)) -> In q (dkeys (l_nodes lt)) -> False.
  Context (l01 l02 l1 l2 : layout) (p1 p2 : list placed) (shifts : list (Z * Z)) (dirn dirn' : Z * Z -> string) (pt1 pt2 : Qc * Qc).
  Context (g1 g2 : string) (f b mate : string -> string) (nc nt : dict string (list string)).
  Hypothesis P1 : planar l1 shifts dirn pt1 p1.
  Hypothesis P2 : planar l2 shifts dirn' pt2 p2.
  Hypothesis CF : cnot_facts l01 l02 l1 l2 p1 p2 g1 g2 f b nc nt.
  Hypothesis Es : forall a, joint (css l01) (css l02) a = jst lc lt a.
  Hypothesis Pa : Permutation (ancs p1 ++ ancs p2) (jancs ac at_).
  Hypothesis Pd : Permutation (labs p1 KD ++ labs p2 KD) (jdata dc dt).
  Hypothesis M1 : forall a, In a (ancs p1) -> mate a = f a.
  Hypothesis M2 : forall a, In a (ancs p2) -> mate a = b a.
  Lemma fine_facts : gate_fine (jst lc lt) (jancs ac at_) (jok lc ac dc lt at_ dt) mate (fun a => mem a (labs p1 KX) || mem a (labs p2 KZ)) l1 l2.
  Proof.
    pose proof (cf_dis _ _ _ _ _ _ _ _ _ _ _ _ CF) as D. pose proof (cf_place _ _ _ _ _ _ _ _ _ _ _ _ CF) as Pl.
    assert (Dl : forall k k' q, In q (labs p1 k) -> ~ In q (labs p2 k')).
    { intros k k' q I I'. apply labs_place in I as (p & Hp & _ & <-). apply labs_place in I' as (p' & Hp' & _ & E). now apply (D p p' Hp Hp'). }
    assert (Dl' : forall k k' q, In q (labs p2 k) -> ~ In q (labs p1 k')) by (intros k k' q I I'; now apply (Dl k' k q)).
    assert (D1 : forall k k' q, k <> k' -> In q (labs p1 k) -> ~ In q (labs p1 k')) by (intros k k' q; apply (labs_disj _ _ _ _ _ P1)).
    assert (D2 : forall k k' q, k <> k' -> In q (labs p2 k) -> ~ In q (labs p2 k')) by (intros k k' q; apply (labs_disj _ _ _ _ _ P2)).
    pose proof (cf_act _ _ _ _ _ _ _ _ _ _ _ _ CF) as A.
    eapply (fine_intro lc ac dc xc zc lxc lzc lt at_ dt xt zt lxt lzt Fc Ft Dis l1 l2 _ nc nt f b); try apply CF.
    - eapply label_act_perm; [exact Pa|]. eapply label_act_ext; [apply CF|exact Es|exact A].
    - eapply good_op_perm; [exact Pd|apply CF].
    - intros a x. unfold shear. destruct (in_dec string_dec a (ancs p1 ++ ancs p2)) as [Ha|Ha].
      + apply in_app_or in Ha as [Ha|Ha]; pose proof Ha as Ha'; apply ancs_labs in Ha' as [Hk|Hk].
        * rewrite (dmat_some _ _ _ x (cf_x _ _ _ _ _ _ _ _ _ _ _ _ CF a Hk)), mem2, (proj2 (mem_In a _) Hk). cbn [orb andb]. now rewrite (M1 a Ha).
        * rewrite (dmat_some _ _ _ x (cf_alone _ _ _ _ _ _ _ _ _ _ _ _ CF a (or_introl Hk))), mem1.
          rewrite (mem_not a (labs p1 KX)) by (apply (D1 KZ); [discriminate|exact Hk]). rewrite (mem_not a (labs p2 KZ)) by (apply (Dl KZ); exact Hk). cbn [orb andb]. now rewrite orb_false_r.
        * rewrite (dmat_some _ _ _ x (cf_alone _ _ _ _ _ _ _ _ _ _ _ _ CF a (or_intror Hk))), mem1.
          rewrite (mem_not a (labs p1 KX)) by (apply (Dl' KX); exact Hk). rewrite (mem_not a (labs p2 KZ)) by (apply (D2 KX); [discriminate|exact Hk]). cbn [orb andb]. now rewrite orb_false_r.
        * rewrite (dmat_some _ _ _ x (cf_z _ _ _ _ _ _ _ _ _ _ _ _ CF a Hk)), mem2, (proj2 (mem_In a (labs p2 KZ)) Hk), orb_true_r. cbn [andb]. now rewrite (M2 a Ha).
      + rewrite dmat_out.
        * rewrite !mem_not; [cbn [orb andb]; now rewrite orb_false_r| |]; intros H; apply Ha, in_or_app; [right|left]; apply ancs_labs; tauto.
        * pose proof (la_dom _ _ _ _ _ A a) as [_ K]. unfold dmem in K. destruct (dget a (dupdate nc nt)); [|reflexivity]. exfalso. now apply Ha, K.
    - intros a Ha. apply orb_true_iff in Ha as [Ha|Ha]; apply mem_In in Ha.
      + rewrite (M1 a) by (apply ancs_labs; now left). apply labs_place in Ha as (p & Hp & K & <-). destruct (proj1 Pl p Hp) as (p' & Hp' & _ & K' & -> & _).
        split; [intros E; symmetry in E; now apply (D p p')|]. assert (Hk : In (pl_lab p') (labs p2 KX)) by (apply labs_place; exists p'; rewrite K', K; auto).
        rewrite (mem_not _ (labs p1 KX)) by (apply (Dl' KX); exact Hk). rewrite (mem_not _ (labs p2 KZ)) by (apply (D2 KX); [discriminate|exact Hk]). reflexivity.
      + rewrite (M2 a) by (apply ancs_labs; now right). apply labs_place in Ha as (p' & Hp' & K & <-). destruct (proj2 Pl p' Hp') as (p & Hp & _ & K' & _ & ->).
        split; [now apply (D p p')|]. assert (Hk : In (pl_lab p) (labs p1 KZ)) by (apply labs_place; exists p; rewrite <- K', K; auto).
        rewrite (mem_not _ (labs p1 KX)) by (apply (D1 KZ); [discriminate|exact Hk]). rewrite (mem_not _ (labs p2 KZ)) by (apply (Dl KZ); exact Hk). reflexivity.
  Qed.
End Fine.

Lemma joint_sym lc ac dc xc zc lxc lzc lt at_ dt xt zt lxt lzt a : css_facts lc ac dc xc zc lxc lzc -> css_facts lt at_ dt xt zt lxt lzt ->
  (forall q, In q (dkeys (l_nodes lc)) -> In q (dkeys (l_nodes lt)) -> False) -> joint (css lt) (css lc) a = jst lc lt a.
Proof.
  intros Fc Ft D. unfold jst, joint. destruct (in_dec string_dec a ac) as [H|H].
  - rewrite (css_none lt at_ dt xt zt lxt lzt a Ft).
    + cbn [fst snd app]. now rewrite !app_nil_r.
    + intros H'. apply (D a); [eapply role_incl, H; apply Fc|eapply role_incl, H'; apply Ft].
  - rewrite (css_none lc ac dc xc zc lxc lzc a Fc H). cbn [fst snd app]. now rewrite !app_nil_r.
Qed.

Section Generated.
  Context (fuse : bool) (show : arg -> arg) (ordt : nat -> nat -> list string -> list string) (ordp : nat -> nat -> list (string * string) -> list (string * string)).
  Hypothesis Hp : forall t n s, Permutation (ordt t n s) s.
  Hypothesis Hpp : forall t n s, Permutation (ordp t n s) s.
  Context (a a' : gen_args) (lc0 lt0 lc lt : layout).
  Context (n R : Z) (di : dict string Z) (ori : string) (rot reset : bool) (dets : option (list string)) (w w' : world) (c : circuit).
  Hypothesis W : SpecNoise.wf_inds (inds (fst w)).
  Hypothesis U : uniform (stp (fst w)).
  Hypothesis N : NoDup (labels (snd w)).
  Hypothesis Fr : dfr (snd w) <> GateIndep.
  (* what both codes have in common *)
  Section Common.
    Context (code : string) (shifts : list (Z * Z)) (dirn dirn' : Z * Z -> string) (ptc ptt : Qc * Qc) (pc pt : list placed).
    Context (dc xc zc lxc lzc dt xt zt lxt lzt : list string).
    Hypothesis Pc : planar lc shifts dirn ptc pc.
    Hypothesis Pt : planar lt shifts dirn' ptt pt.
    Hypothesis Fc : css_facts lc (ancs pc) dc xc zc lxc lzc.
    Hypothesis Ft : css_facts lt (ancs pt) dt xt zt lxt lzt.
    Hypothesis Hrc : forall t, exists g, round_of lc (css lc) (css_round (ordt t) code lc) (ancs pc) g.
    Hypothesis Hrt : forall t, exists g, round_of lt (css lt) (css_round (ordt t) code lt) (ancs pt) g.
    Hypothesis Hoc : forall t reset, one_each lc (css_round (ordt t) code lc reset).
    Hypothesis Hot : forall t reset, one_each lt (css_round (ordt t) code lt reset).
    Definition facts_for (l1 l2 : layout) (p1 p2 : list placed) : Prop := exists l01 l02 g1 g2 f b nc nt,
      cnot_facts l01 l02 l1 l2 p1 p2 g1 g2 f b nc nt /\ (forall x, css l01 x = css l1 x) /\ (forall x, css l02 x = css l2 x).
    Hypothesis K1 : facts_for lc lt pc pt.
    Hypothesis Hori : ori = "constant" \/ facts_for lt lc pt pc.
    Lemma common : repeated_cnot_with fuse show ordt ordp (fun ord => css_round ord code) lc lt n R di ori rot reset dets false w = (w', Ok c) -> all_deterministic c.
    Proof.
      intros H. destruct K1 as (l01 & l02 & g1 & g2 & f & b & nc & nt & CF & C1 & C2).
      pose proof (cf_dis _ _ _ _ _ _ _ _ _ _ _ _ CF) as D. pose proof (cf_place _ _ _ _ _ _ _ _ _ _ _ _ CF) as Pl.
      assert (Dis : forall q, In q (dkeys (l_nodes lc)) -> In q (dkeys (l_nodes lt)) -> False).
      { intros q Q1 Q2. unfold dkeys in Q1, Q2. rewrite (pn_nodes _ _ _ _ _ Pc) in Q1. rewrite (pn_nodes _ _ _ _ _ Pt) in Q2.
        apply in_map_iff in Q1 as (p & <- & Q1), Q2 as (p' & E & Q2). now apply (D p p'). }
      assert (Edc : dc = labs pc KD) by (pose proof (css_data _ _ _ _ _ _ _ Fc) as E; rewrite (pn_data _ _ _ _ _ Pc) in E; now injection E).
      assert (Edt : dt = labs pt KD) by (pose proof (css_data _ _ _ _ _ _ _ Ft) as E; rewrite (pn_data _ _ _ _ _ Pt) in E; now injection E).
      assert (G0 : gate_fine (jst lc lt) (jancs (ancs pc) (ancs pt)) (jok lc (ancs pc) dc lt (ancs pt) dt) (mate_of pc pt f b) (fun a => mem a (labs pc KX) || mem a (labs pt KZ)) lc lt).
      { eapply (fine_facts lc (ancs pc) dc xc zc lxc lzc lt (ancs pt) dt xt zt lxt lzt Fc Ft Dis l01 l02 lc lt pc pt); [exact Pc|exact Pt|exact CF| | | | |].
        - intros x. unfold jst, joint. now rewrite C1, C2.
        - apply Permutation_refl.
        - rewrite Edc, Edt. apply Permutation_refl.
        - intros x Hx. now apply (mate_one pc pt f b Pl).
        - intros x Hx. now apply (mate_two pc pt f b D Pl). }
      assert (Hori' : ori = "constant" \/ exists t1, gate_fine (jst lc lt) (jancs (ancs pc) (ancs pt)) (jok lc (ancs pc) dc lt (ancs pt) dt) (mate_of pc pt f b) t1 lt lc).
      { destruct Hori as [Ho|(m01 & m02 & h1 & h2 & f' & b' & nc' & nt' & CF' & C1' & C2')]; [now left|right].
        destruct (mate_swap pc pt f b f' b' D (pn_npos _ _ _ _ _ Pc) (pn_npos _ _ _ _ _ Pt) Pl (cf_place _ _ _ _ _ _ _ _ _ _ _ _ CF')) as [S1 S2].
        eexists. eapply (fine_facts lc (ancs pc) dc xc zc lxc lzc lt (ancs pt) dt xt zt lxt lzt Fc Ft Dis m01 m02 lt lc pt pc); [exact Pt|exact Pc|exact CF'| | | | |].
        - intros x. rewrite <- (joint_sym _ _ _ _ _ _ _ _ _ _ _ _ _ _ x Fc Ft Dis). unfold joint. now rewrite C1', C2'.
        - apply Permutation_app_comm.
        - rewrite Edc, Edt. apply Permutation_app_comm.
        - intros x Hx. symmetry. now apply S1.
        - intros x Hx. symmetry. now apply S2. }
      eapply (cnot_css lc (ancs pc) dc xc zc lxc lzc lt (ancs pt) dt xt zt lxt lzt Fc Ft Dis fuse show ordt ordp Hp Hpp code Hrc Hrt
        (fun t r b q => css_operands (ordt t) code lc r b q (Hoc t r)) (fun t r b q => css_operands (ordt t) code lt r b q (Hot t r))
        (mate_of pc pt f b) (mate_mate pc pt f b D Pl)); [| | |exact G0|exact W|exact U|exact N|exact Fr|exact Hori'|exact H].
      - intros x Hx. apply in_app_or in Hx as [Hx|Hx]; apply in_or_app.
        + right. destruct (mate_one pc pt f b Pl x Hx) as (-> & Hy & _). exact Hy.
        + left. destruct (mate_two pc pt f b D Pl x Hx) as (-> & Hy & _). exact Hy.
      - intros x Hx. apply mate_out; intros Hy; apply Hx, in_or_app; auto.
      - assert (Ex : xc = labs pc KX /\ zc = labs pc KZ /\ xt = labs pt KX /\ zt = labs pt KZ).
        { pose proof (css_x _ _ _ _ _ _ _ Fc) as E1. pose proof (css_z _ _ _ _ _ _ _ Fc) as E2. pose proof (css_x _ _ _ _ _ _ _ Ft) as E3. pose proof (css_z _ _ _ _ _ _ _ Ft) as E4.
          rewrite (pn_x _ _ _ _ _ Pc) in E1. rewrite (pn_z _ _ _ _ _ Pc) in E2. rewrite (pn_x _ _ _ _ _ Pt) in E3. rewrite (pn_z _ _ _ _ _ Pt) in E4. injection E1 as <-. injection E2 as <-. injection E3 as <-. injection E4 as <-. repeat split. }
        destruct Ex as (-> & -> & -> & ->). intros r x. unfold jbt.
        assert (K : forall k, k <> KD -> In x (labs pc k) \/ In x (labs pt k) -> In (mate_of pc pt f b x) (labs pc k) \/ In (mate_of pc pt f b x) (labs pt k)).
        { intros k Hk [Hx|Hx]; pose proof Hx as Hy; apply labs_place in Hy as (p & Hp' & K & <-).
          - right. rewrite (proj1 (mate_one pc pt f b Pl _ (anc_in pc p Hp' ltac:(congruence)))). destruct (proj1 Pl p Hp') as (p' & Hp2 & _ & K2 & -> & _).
            apply labs_place. exists p'. split; [exact Hp2|]. split; [congruence|reflexivity].
          - left. rewrite (proj1 (mate_two pc pt f b D Pl _ (anc_in pt p Hp' ltac:(congruence)))). destruct (proj2 Pl p Hp') as (p' & Hp2 & _ & K2 & _ & ->).
            apply labs_place. exists p'. split; [exact Hp2|]. split; [congruence|reflexivity]. }
        destruct r; apply K; discriminate.
    Qed.
  End Common.

  Lemma set_facts_rot x y l0 l0' l l' : rot_surface_code_rectangle x = Ok l0 -> rot_surface_code_rectangle y = Ok l0' ->
    cnot_set set_trans_cnot_rot (cnot_gate x y) l0 l0' l l' -> facts_for l l' (rot_ps x) (rot_ps y) /\ touched structure l0 l /\ touched structure l0' l'.
  Proof.
    intros G G' (monos & m & m' & m1 & m1' & A1 & A2 & Hm & S & B1 & B2).
    destruct (rot_after _ _ _ G (annotated_touched _ _ _ A1)) as (P & Hlog & Hc & Hx & Hz & An & Cs).
    destruct (rot_after _ _ _ G' (annotated_touched _ _ _ A2)) as (P' & Hlog' & Hc' & Hx' & Hz' & An' & Cs').
    destruct (cnot_sizes m m1 m' m1' monos _ S) as [Sx Sz].
    assert (It : map pl_item (rot_ps x) = map pl_item (rot_ps y)).
    { Local Transparent rot_ps. unfold rot_ps. Local Opaque rot_ps. rewrite !place_items. congruence. }
    destruct (cnot_labels m m' m1 m1' l l' _ _ _ _ _ _ _ P P' rot_shifts_nodup It "rotated_surface_code" monos (ga_log x) (ga_log y)
      (or_introl eq_refl) Hm Hlog Hlog' S (annotated_touched _ _ _ B1) (annotated_touched _ _ _ B2)) as (T & T' & f & b & nc & nt & CF).
    split; [|split; [eapply touched_trans; [apply (annotated_touched _ _ _ A1)|exact T]|eapply touched_trans; [apply (annotated_touched _ _ _ A2)|exact T']]].
    exists m, m', (ga_log x), (ga_log y), f, b, nc, nt. split; [exact CF|]. split; intros z; symmetry; [apply (touched_css _ _ _ T)|apply (touched_css _ _ _ T')]; apply incl_refl.
  Qed.
  Lemma set_facts_unrot x y l0 l0' l l' : unrot_surface_code_rectangle x = Ok l0 -> unrot_surface_code_rectangle y = Ok l0' ->
    cnot_set set_trans_cnot_unrot (cnot_gate x y) l0 l0' l l' -> facts_for l l' (unrot_ps x) (unrot_ps y) /\ touched structure l0 l /\ touched structure l0' l'.
  Proof.
    intros G G' (monos & m & m' & m1 & m1' & A1 & A2 & Hm & S & B1 & B2).
    destruct (unrot_after _ _ _ G (annotated_touched _ _ _ A1)) as (P & Hlog & Hc & Hx & Hz & An & Cs).
    destruct (unrot_after _ _ _ G' (annotated_touched _ _ _ A2)) as (P' & Hlog' & Hc' & Hx' & Hz' & An' & Cs').
    destruct (cnot_sizes m m1 m' m1' monos _ S) as [Sx Sz].
    assert (It : map pl_item (unrot_ps x) = map pl_item (unrot_ps y)).
    { Local Transparent unrot_ps. unfold unrot_ps. Local Opaque unrot_ps. rewrite !place_items. congruence. }
    destruct (cnot_labels m m' m1 m1' l l' _ _ _ _ _ _ _ P P' unrot_shifts_nodup It "unrotated_surface_code" monos (ga_log x) (ga_log y)
      (or_intror eq_refl) Hm Hlog Hlog' S (annotated_touched _ _ _ B1) (annotated_touched _ _ _ B2)) as (T & T' & f & b & nc & nt & CF).
    split; [|split; [eapply touched_trans; [apply (annotated_touched _ _ _ A1)|exact T]|eapply touched_trans; [apply (annotated_touched _ _ _ A2)|exact T']]].
    exists m, m', (ga_log x), (ga_log y), f, b, nc, nt. split; [exact CF|]. split; intros z; symmetry; [apply (touched_css _ _ _ T)|apply (touched_css _ _ _ T')]; apply incl_refl.
  Qed.
  (* one layout with attributes *)
  Lemma rot_layout x l0 l : 1 <= ga_dx x -> 2 <= ga_dz x -> rot_surface_code_rectangle x = Ok l0 -> touched structure l0 l ->
    planar l rot_shifts rot_dirn (rot_pt x) (rot_ps x) /\ (exists data xs zs lx lz, css_facts l (ancs (rot_ps x)) data xs zs lx lz) /\
    (forall t, exists g, round_of l (css l) (css_round (ordt t) "rotated_surface_code" l) (ancs (rot_ps x)) g) /\
    (forall t r, one_each l (css_round (ordt t) "rotated_surface_code" l r)).
  Proof.
    intros Hx Hz G T. destruct (rot_after _ _ _ G T) as (P & _ & Hc & _).
    assert (O : l_order l = rot_order).
    { destruct (touched_fields _ _ _ T) as (_ & _ & _ & _ & _ & _ & _ & _ & ->). destruct (rot_planar x) as (l' & r & E' & K); [lia|lia|]. rewrite G in E'. injection E' as <-. apply K. }
    split; [exact P|]. split; [|split].
    - destruct (rot_code x) as (l' & data & xs & zs & lx & lz & E1 & cc & _); [lia|lia|]. rewrite G in E1. injection E1 as <-.
      apply (touched_code _ _ _ _ _ _ _ _ _ T (incl_refl _)) in cc. exists data, xs, zs, lx, lz. exact (planar_facts _ _ _ _ _ _ _ _ _ _ _ P cc).
    - intros t. now apply rot_css_round_at.
    - intros t r. exact (css_one l rot_shifts rot_dirn (rot_pt x) (rot_ps x) P (ordt t) (Hp t) (1, 1) (1, -1) (-1, 1) (-1, -1) _ rot_in Hc O (rot_HB x) r).
  Qed.
  Lemma unrot_layout x l0 l : 1 <= ga_dx x -> 2 <= ga_dz x -> unrot_surface_code_rectangle x = Ok l0 -> touched structure l0 l ->
    planar l unrot_shifts unrot_dirn (ga_pt x) (unrot_ps x) /\ (exists data xs zs lx lz, css_facts l (ancs (unrot_ps x)) data xs zs lx lz) /\
    (forall t, exists g, round_of l (css l) (css_round (ordt t) "unrotated_surface_code" l) (ancs (unrot_ps x)) g) /\
    (forall t r, one_each l (css_round (ordt t) "unrotated_surface_code" l r)).
  Proof.
    intros Hx Hz G T. destruct (unrot_after _ _ _ G T) as (P & _ & Hc & _).
    assert (O : l_order l = unrot_order).
    { destruct (touched_fields _ _ _ T) as (_ & _ & _ & _ & _ & _ & _ & _ & ->). destruct (unrot_planar x) as (l' & r & E' & K); [lia|lia|]. rewrite G in E'. injection E' as <-. apply K. }
    split; [exact P|]. split; [|split].
    - destruct (unrot_code x) as (l' & data & xs & zs & lx & lz & E1 & cc & _); [lia|lia|]. rewrite G in E1. injection E1 as <-.
      apply (touched_code _ _ _ _ _ _ _ _ _ T (incl_refl _)) in cc. exists data, xs, zs, lx, lz. exact (planar_facts _ _ _ _ _ _ _ _ _ _ _ P cc).
    - intros t. now apply unrot_css_round_at.
    - intros t r. refine (css_one l unrot_shifts unrot_dirn (ga_pt x) (unrot_ps x) P (ordt t) (Hp t) (0, 1) (-1, 0) (1, 0) (0, -1) _ unrot_in Hc O _ r).
      intros p q Hi Hq K K'. apply ups_pos in Hi as [_ Hi], Hq as [_ Hq]. rewrite K in Hi. rewrite K' in Hq. pose proof (ukind_spec (pos p)) as Sp. pose proof (ukind_spec (pos q)) as Sq.
      rewrite <- Hi in Sp. rewrite <- Hq in Sq. destruct (pos p) as [r0 c0], (pos q) as [r' c0']. unfold padd. cbn [fst snd] in *. split; intros [= E1 E2]; lia.
  Qed.
  Hypothesis Hx : 1 <= ga_dx a.
  Hypothesis Hz : 2 <= ga_dz a.
  Hypothesis Hx' : 1 <= ga_dx a'.
  Hypothesis Hz' : 2 <= ga_dz a'.
  Lemma C69_rot_lemma : rot_surface_code_rectangle a = Ok lc0 -> rot_surface_code_rectangle a' = Ok lt0 ->
    cnot_set set_trans_cnot_rot (cnot_gate a a') lc0 lt0 lc lt ->
    (ori = "constant" \/ cnot_set set_trans_cnot_rot (cnot_gate a' a) lt0 lc0 lt lc) ->
    repeated_cnot_rot_css fuse show ordt ordp lc lt n R di ori rot reset dets false w = (w', Ok c) -> all_deterministic c.
  Proof.
    intros G G' S Ho H. destruct (set_facts_rot _ _ _ _ _ _ G G' S) as (K1 & T & T').
    destruct (rot_layout a lc0 lc Hx Hz G T) as (P & (data & xs & zs & lx & lz & F) & Hr & H1).
    destruct (rot_layout a' lt0 lt Hx' Hz' G' T') as (P' & (data' & xs' & zs' & lx' & lz' & F') & Hr' & H1').
    eapply (common "rotated_surface_code" _ _ _ _ _ _ _ _ _ _ _ _ _ _ _ _ _ P P' F F' Hr Hr' H1 H1' K1); [|exact H].
    destruct Ho as [Ho|S']; [now left|right]. now destruct (set_facts_rot _ _ _ _ _ _ G' G S').
  Qed.
  Lemma C69_unrot_lemma : unrot_surface_code_rectangle a = Ok lc0 -> unrot_surface_code_rectangle a' = Ok lt0 ->
    cnot_set set_trans_cnot_unrot (cnot_gate a a') lc0 lt0 lc lt ->
    (ori = "constant" \/ cnot_set set_trans_cnot_unrot (cnot_gate a' a) lt0 lc0 lt lc) ->
    repeated_cnot_unrot_css fuse show ordt ordp lc lt n R di ori rot reset dets false w = (w', Ok c) -> all_deterministic c.
  Proof.
    intros G G' S Ho H. destruct (set_facts_unrot _ _ _ _ _ _ G G' S) as (K1 & T & T').
    destruct (unrot_layout a lc0 lc Hx Hz G T) as (P & (data & xs & zs & lx & lz & F) & Hr & H1).
    destruct (unrot_layout a' lt0 lt Hx' Hz' G' T') as (P' & (data' & xs' & zs' & lx' & lz' & F') & Hr' & H1').
    eapply (common "unrotated_surface_code" _ _ _ _ _ _ _ _ _ _ _ _ _ _ _ _ _ P P' F F' Hr Hr' H1 H1' K1); [|exact H].
    destruct Ho as [Ho|S']; [now left|right]. now destruct (set_facts_unrot _ _ _ _ _ _ G' G S').
  Qed.
End Generated.
