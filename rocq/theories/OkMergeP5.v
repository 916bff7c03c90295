(** Repeated CNOT experiments on the generated layouts return a circuit. *)
From Coq Require Import QArith Qcanon.
From Verif Require Import Base Lib StimM SetupM NoiseM SpecNoise NoiseP LayoutM SpecLayout LayoutP LayoutP2 SetupP MatM DetM SpecDet DetP DetCountP
  GenM GenP SpecGen GeomP RotP RotP2 UnrotP OneP BlockM LogM SpecLog ExpM MergeM SpecMerge SpecTrack TrackP ActP RoundP RoundTopP LiftP ExpP ExpP2 ExpP3 ExpP4 ExpP5
  RepP5 RepP6 RepP7 LogP LogP2 LogP4 LogP6 LogP8 LogP12 LogP13 CnotP3 CnotP4 CnotP5 CnotP6 CnotP7 CnotP8 CnotP9 CnotP10 CnotP11 SpecCnot SpecOk SpecOkCnot OkP OkP2 OkP3 OkP4 OkP5 OkRepP OkRepP2 OkMergeP OkMergeP2 OkMergeP3 OkMergeP4.
Open Scope Z_scope.
Local Opaque rot_ps unrot_ps.

Section Gate.
  Context (qi : dict string Z) (W : SpecNoise.wf_inds qi) (d : detectors) (k : mkind) (sp : setup).
  Hypothesis U1 : uniform sp.
  Hypothesis U2 : uniform_pairs sp.
  Context (l01 l02 l1 l2 : layout) (p1 p2 : list placed) (shifts : list (Z * Z)) (dirn : Z * Z -> string) (pt1 pt2 : Qc * Qc).
  Context (g1 g2 : string) (f b : string -> string) (nc nt : dict string (list string)).
  Hypothesis P1 : planar l1 shifts dirn pt1 p1.
  Hypothesis P2 : planar l2 shifts dirn pt2 p2.
  Hypothesis CF : cnot_facts l01 l02 l1 l2 p1 p2 g1 g2 f b nc nt.
  Hypothesis Q1 : incl (dkeys (l_nodes l1)) (dkeys qi).
  Hypothesis Q2 : incl (dkeys (l_nodes l2)) (dkeys qi).
  Hypothesis C1 : trans_code_ok l1 = true.
  Hypothesis C2 : trans_code_ok l2 = true.
  Context (ord : nat -> list string -> list string) (ordp : nat -> list (string * string) -> list (string * string)).
  Hypothesis Hord : forall n s, Permutation (ord n s) s.
  Hypothesis Hordp : forall n s, Permutation (ordp n s) s.
  Lemma labs_nodes l dn pt ps kk : planar l shifts dn pt ps -> incl (labs ps kk) (dkeys (l_nodes l)).
  Proof. intros P q H. unfold dkeys. rewrite (pn_nodes _ _ _ _ _ P). apply labs_place in H as (p & Hp & _ & <-). now apply in_map. Qed.
  Lemma cnot_fine : allfine qi (trans_cnot_blocks ord ordp l1 l2).
  Proof.
    unfold trans_cnot_blocks. rewrite C1, C2, (pn_data _ _ _ _ _ P1), (pn_data _ _ _ _ _ P2), (cf_label _ _ _ _ _ _ _ _ _ _ _ _ CF). cbn [negb bind].
    pose proof (cf_attr _ _ _ _ _ _ _ _ _ _ _ _ CF) as At. fold (labs p1 KD). fold (labs p2 KD). unfold labs in At at 1. set (gate := ("trans-cnot_" ++ g1 ++ "_" ++ g2)%string) in *.
    set (dc := labs p1 KD) in *. set (dt := labs p2 KD) in *.
    assert (E : mapM (fun q => do v <- lparam l1 gate q; if is_none v then Err ValueError else
        do t <- pget "cnot" v; match t with PStr b => Ok (q, b) | _ => Err Unmodelled end) dc = Ok (map (fun q => (q, f q)) dc)).
    { assert (G : forall qs, incl qs dc -> mapM (fun q => do v <- lparam l1 gate q; if is_none v then Err ValueError else
        do t <- pget "cnot" v; match t with PStr b => Ok (q, b) | _ => Err Unmodelled end) qs = Ok (map (fun q => (q, f q)) qs)); [|apply G, incl_refl].
      induction qs as [|q qs IH]; intros I; [reflexivity|]. cbn [mapM map]. rewrite At by (apply I; now left). cbn [bind is_none pget].
      unfold dget_err. cbn [dget]. rewrite eqb_refl. cbn [of_opt bind]. rewrite IH by (intros x Hx; apply I; now right). reflexivity. }
    rewrite E. cbn [bind generator]. set (ps := ordp 0%nat _).
    assert (Ip : forall x y, In (x, y) ps -> In x (labs p1 KD) /\ In y (labs p2 KD) /\ x <> y).
    { intros x y I. apply (Permutation_in _ (Hordp _ _)) in I. apply (proj1 (dedup_In _ _)) in I. apply in_map_iff in I as (q & [= <- <-] & I).
      split; [exact I|]. apply labs_place in I as (p & Hp & K & <-). destruct (proj1 (cf_place _ _ _ _ _ _ _ _ _ _ _ _ CF) p Hp) as (p' & Hp' & _ & K' & -> & _).
      split; [apply labs_place; exists p'; split; [exact Hp'|split; [congruence|reflexivity]]|]. now apply (cf_dis _ _ _ _ _ _ _ _ _ _ _ _ CF). }
    assert (Sp : spairs (flat_pairs ps) /\ incl (flat_pairs ps) (dkeys qi)).
    { clearbody ps. clear E. induction ps as [|[x y] ps IH]; [split; [exact I|intros q []]|].
      destruct (Ip x y (or_introl eq_refl)) as (Hx & Hy & Ne). destruct IH as [A B]; [intros x' y' H; apply Ip; now right|]. split; [cbn; split; auto|].
      intros q H. cbn in H. destruct H as [<-|[<-|H]]; [apply Q1; eapply labs_nodes; eauto|apply Q2; eapply labs_nodes; eauto|now apply B]. }
    destruct Sp as [S1 S2]. unfold tick_block.
    assert (D1 : incl dc (dkeys qi)) by (intros q H; apply Q1; eapply labs_nodes; eauto). assert (D2 : incl dt (dkeys qi)) by (intros q H; apply Q2; eapply labs_nodes; eauto).
    repeat (first [apply Forall_nil|apply Forall_cons]); (eexists; split; [reflexivity|]; repeat (first [apply Forall_nil|apply Forall_cons]); cbn [fine_call];
      first [exact I|split; [exact I|split; [|first [discriminate|intros _; assumption]]]]); auto.
    intros q H. apply (Permutation_in _ (Hord _ _)) in H. unfold diff in H. apply filter_In in H as [H _]. apply (proj1 (dedup_In _ q)) in H. apply in_app_or in H as [H|H]; auto.
  Qed.
  Context (a : list string).
  Hypothesis Ha : forall x, In x a <-> In x (ancs p1 ++ ancs p2).
  Hypothesis Hl : incl a (labels d).
  Lemma gate_step n w : st3 qi d a k sp n w -> exists w' c, log_trans_cnot ord ordp l1 l2 w = (w', Ok c) /\ st3 qi d a k sp n w'.
  Proof.
    pose proof (cf_act _ _ _ _ _ _ _ _ _ _ _ _ CF) as A. pose proof (cf_nc _ _ _ _ _ _ _ _ _ _ _ _ CF) as Ec. pose proof (cf_nt _ _ _ _ _ _ _ _ _ _ _ _ CF) as Et.
    assert (Dom : forall x, In x a <-> dmem x (dupdate nc nt) = true) by (intros x; rewrite Ha; apply (la_dom _ _ _ _ _ A)).
    apply (gate3 qi W d k sp U1 U2 a ord ordp l1 l2 _ nc nt n w (cf_label _ _ _ _ _ _ _ _ _ _ _ _ CF) Ec Et).
    - apply shape_inside; [apply A|apply NoDup_dupdate; eapply new_stab_keys; exact Ec|exact Dom].
    - apply shape_regular; [apply A|]. intros x Hx. now apply Hl, Dom.
    - apply cnot_fine.
    - now apply (la_bk _ _ _ _ _ A).
  Qed.
End Gate.

Section Planar.
  Context (fuse : bool) (show : arg -> arg) (ordt : nat -> nat -> list string -> list string) (ordp : nat -> nat -> list (string * string) -> list (string * string)).
  Hypothesis Hp : forall t n s, Permutation (ordt t n s) s.
  Hypothesis Hpp : forall t n s, Permutation (ordp t n s) s.
  Context (code : string) (lc lt : layout) (shifts : list (Z * Z)) (dirn : Z * Z -> string) (ptc ptt : Qc * Qc) (pc pt : list placed).
  Hypothesis Pc : planar lc shifts dirn ptc pc.
  Hypothesis Pt : planar lt shifts dirn ptt pt.
  Hypothesis Hs : NoDup shifts.
  Hypothesis It : map pl_item pc = map pl_item pt.
  Hypothesis Ho : l_order lc = rot_order \/ l_order lc = unrot_order.
  Hypothesis Eo : l_order lc = l_order lt.
  Hypothesis Hcode : code = "rotated_surface_code"%string \/ code = "unrotated_surface_code"%string.
  Hypothesis Cc : l_code lc = code.
  Hypothesis Ct : l_code lt = code.
  Definition logs_ok (l : layout) (ps : list placed) : Prop := forall (rot : bool) lq, In lq (l_logs l) -> exists qs, dget lq (if rot then l_logx l else l_logz l) = Some qs /\ incl qs (labs ps KD).
  Hypothesis Lc : logs_ok lc pc.
  Hypothesis Lt : logs_ok lt pt.
  Context (n R : Z) (di : dict string Z) (ori : string) (rot reset : bool) (dets : option (list string)) (gauge : bool) (m : model) (d : detectors).
  Hypothesis F : fits_two lc lt dets m d.
  Hypothesis U1 : uniform (stp m).
  Hypothesis U2 : uniform_pairs (stp m).
  Hypothesis K1 : facts_for lc lt pc pt.
  Hypothesis K2 : ori = "constant"%string \/ ori = "alternating"%string /\ facts_for lt lc pt pc.
  Lemma planar_total : 0 <= n -> 0 <= R -> returns (repeated_cnot_with fuse show ordt ordp (fun ord => css_round ord code) lc lt n R di ori rot reset dets gauge (m, d)).
  Proof.
    intros Hn HR. pose proof (f2_inds _ _ _ _ _ F) as W. destruct (f2_qubits _ _ _ _ _ F) as [Qc Qt]. destruct (f2_labels _ _ _ _ _ F) as (ac & at_ & Eac & Eat & Ic & It' & Hd).
    rewrite (pn_anc _ _ _ _ _ Pc) in Eac. injection Eac as <-. rewrite (pn_anc _ _ _ _ _ Pt) in Eat. injection Eat as <-. fold (ancs pc) in *. fold (ancs pt) in *.
    destruct (made_ok _ (f2_made _ _ _ _ _ F)) as [Nl Cl].
    assert (Qc' : incl (map pl_lab pc) (dkeys (inds m))) by (rewrite <- (pn_nodes _ _ _ _ _ Pc); exact Qc).
    assert (Qt' : incl (map pl_lab pt) (dkeys (inds m))) by (rewrite <- (pn_nodes _ _ _ _ _ Pt); exact Qt).
    assert (Ia : incl (ancs pc ++ ancs pt) (dkeys (inds m))) by (apply incl_app; eapply in_ancs; eauto).
    assert (Il : incl (ancs pc ++ ancs pt) (labels d)) by (now apply incl_app).
    assert (Ot : l_order lt = rot_order \/ l_order lt = unrot_order) by (rewrite <- Eo; exact Ho).
    assert (T : trans_code_ok lc = true /\ trans_code_ok lt = true) by (unfold trans_code_ok; rewrite Cc, Ct; destruct Hcode as [-> | ->]; split; reflexivity).
    assert (Dis : forall q, In q (ancs pc) -> ~ In q (ancs pt)).
    { destruct K1 as (? & ? & ? & ? & ? & ? & ? & ? & CF & _). intros q. apply anc_dis. exact (cf_dis _ _ _ _ _ _ _ _ _ _ _ _ CF). }
    assert (Hm : forall l ps pt0, planar l shifts dirn pt0 ps -> logs_ok l ps -> incl (ancs ps) (ancs pc ++ ancs pt) -> measurable (ancs pc ++ ancs pt) l (labs ps KD) rot).
    { intros l ps pt0 P L I. split; [|intros lq; apply L]. destruct (stab_ok l shifts dirn pt0 ps P Hs rot) as (s & E1 & E2 & E3). exists s. split; [exact E1|]. split; [|exact E3]. intros q Hq. apply I. now apply E2. }
    assert (Hg : forall l1 l2 p1 p2 q1 q2, planar l1 shifts dirn q1 p1 -> planar l2 shifts dirn q2 p2 -> facts_for l1 l2 p1 p2 ->
      incl (dkeys (l_nodes l1)) (dkeys (inds m)) -> incl (dkeys (l_nodes l2)) (dkeys (inds m)) -> trans_code_ok l1 = true -> trans_code_ok l2 = true ->
      (forall x, In x (ancs pc ++ ancs pt) <-> In x (ancs p1 ++ ancs p2)) ->
      forall t r w, st3 (inds m) d (ancs pc ++ ancs pt) (NoiseM.kind m) (stp m) r w ->
      exists w' c, log_trans_cnot (ordt t) (ordp t) l1 l2 w = (w', Ok c) /\ st3 (inds m) d (ancs pc ++ ancs pt) (NoiseM.kind m) (stp m) r w').
    { intros l1 l2 p1 p2 q1 q2 P1 P2 (l01 & l02 & g1 & g2 & f & b & nc & nt & CF & _) X1 X2 Y1 Y2 Hx t r w. eapply gate_step; eauto. }
    set (alt := eqb ori "alternating"%string).
    eapply (cnot_total (inds m) W d (NoiseM.kind m) (stp m) U1 U2 fuse show Nl Cl lc lt (ancs pc) (ancs pt) (labs pc KD) (labs pt KD)) with (alt := alt).
    - apply Pc.
    - apply Pt.
    - apply Pc.
    - apply Pt.
    - apply nodup_app; [eapply ancs_nodup; exact Pc|eapply ancs_nodup; exact Pt|exact Dis].
    - exact Ia.
    - eapply in_kind; eauto.
    - eapply in_kind; eauto.
    - exact Il.
    - exact Hp.
    - intros t. eapply css_fine; eauto.
    - intros t. eapply css_fine; eauto.
    - intros t t'. eapply css_alike; eauto.
    - intros t t'. eapply css_alike with (l := lt) (l' := lc); eauto.
    - eapply log_meas_fine; eauto.
    - eapply log_meas_fine; eauto.
    - eapply meas_alike with (l := lc) (l' := lt); eauto.
    - eapply meas_alike with (l := lt) (l' := lc); eauto.
    - eapply Hm; [exact Pc|exact Lc|]. apply incl_appl, incl_refl.
    - eapply Hm; [exact Pt|exact Lt|]. apply incl_appr, incl_refl.
    - eapply Hg; [exact Pc|exact Pt|exact K1|exact Qc|exact Qt|apply T|apply T|tauto].
    - intros Ea. destruct K2 as [->|[-> K]]; [discriminate Ea|]. eapply Hg; [exact Pt|exact Pc|exact K|exact Qt|exact Qc|apply T|apply T|]. intros x. rewrite !in_app_iff. tauto.
    - reflexivity.
    - exact (f2_ready _ _ _ _ _ F).
    - reflexivity.
    - reflexivity.
    - intros l [<-|[<-|[]]]; eapply coords_ok; eauto.
    - intros ds E q Hq. apply in_or_app. eapply Hd; eauto.
    - exact HR.
    - exact Hn.
    - unfold alt. destruct K2 as [->|[-> _]]; [left|right]; split; reflexivity.
    - intros di' H. eapply init_fine; eauto.
    - intros di' H. eapply init_fine; eauto.
  Qed.
End Planar.

Lemma rot_same x y l0 l0' l l' : rot_surface_code_rectangle x = Ok l0 -> rot_surface_code_rectangle y = Ok l0' ->
  cnot_set set_trans_cnot_rot (cnot_gate x y) l0 l0' l l' -> map pl_item (rot_ps x) = map pl_item (rot_ps y).
Proof.
  intros G G' (monos & m & m' & m1 & m1' & A1 & A2 & Hm & S & B1 & B2).
  destruct (rot_after _ _ _ G (annotated_touched _ _ _ A1)) as (P & Hlog & Hc & Hx & Hz & _). destruct (rot_after _ _ _ G' (annotated_touched _ _ _ A2)) as (P' & Hlog' & Hc' & Hx' & Hz' & _).
  destruct (cnot_sizes m m1 m' m1' monos _ S) as [Sx Sz]. Local Transparent rot_ps. unfold rot_ps. Local Opaque rot_ps. rewrite !place_items. congruence.
Qed.
Lemma unrot_same x y l0 l0' l l' : unrot_surface_code_rectangle x = Ok l0 -> unrot_surface_code_rectangle y = Ok l0' ->
  cnot_set set_trans_cnot_unrot (cnot_gate x y) l0 l0' l l' -> map pl_item (unrot_ps x) = map pl_item (unrot_ps y).
Proof.
  intros G G' (monos & m & m' & m1 & m1' & A1 & A2 & Hm & S & B1 & B2).
  destruct (unrot_after _ _ _ G (annotated_touched _ _ _ A1)) as (P & Hlog & Hc & Hx & Hz & _). destruct (unrot_after _ _ _ G' (annotated_touched _ _ _ A2)) as (P' & Hlog' & Hc' & Hx' & Hz' & _).
  destruct (cnot_sizes m m1 m' m1' monos _ S) as [Sx Sz]. Local Transparent unrot_ps. unfold unrot_ps. Local Opaque unrot_ps. rewrite !place_items. congruence.
Qed.
Lemma rot_ready x l0 l : 1 <= ga_dx x -> 1 <= ga_dz x -> rot_surface_code_rectangle x = Ok l0 -> touched structure l0 l ->
  planar l rot_shifts rot_dirn (rot_pt x) (rot_ps x) /\ l_order l = rot_order /\ l_code l = "rotated_surface_code"%string /\ logs_ok l (rot_ps x).
Proof.
  intros Hx Hz G T. destruct (rot_after _ _ _ G T) as (P & Hlog & Hc & _).
  destruct (rot_planar x ltac:(lia) ltac:(lia)) as (l' & r & E' & _ & _ & _ & L1 & L2 & L3 & _ & _ & L6 & L7). rewrite G in E'. injection E' as <-.
  destruct (touched_fields _ _ _ T) as (_ & F2 & _ & _ & F5 & F6 & _ & _ & F9). split; [exact P|]. split; [congruence|]. split; [exact Hc|].
  intros b lq. rewrite Hlog, F5, F6. intros [<-|[]]. destruct b; rewrite ?L2, ?L3; eexists; cbn [dget]; rewrite eqb_refl; (split; [reflexivity|]); [apply logx_data|apply logz_data]; lia.
Qed.
Lemma unrot_ready x l0 l : 1 <= ga_dx x -> 1 <= ga_dz x -> unrot_surface_code_rectangle x = Ok l0 -> touched structure l0 l ->
  planar l unrot_shifts unrot_dirn (ga_pt x) (unrot_ps x) /\ l_order l = unrot_order /\ l_code l = "unrotated_surface_code"%string /\ logs_ok l (unrot_ps x).
Proof.
  intros Hx Hz G T. destruct (unrot_after _ _ _ G T) as (P & Hlog & Hc & _).
  destruct (unrot_planar x ltac:(lia) ltac:(lia)) as (l' & r & E' & _ & _ & _ & L1 & L2 & L3 & _ & _ & L6 & L7). rewrite G in E'. injection E' as <-.
  destruct (touched_fields _ _ _ T) as (_ & F2 & _ & _ & F5 & F6 & _ & _ & F9). split; [exact P|]. split; [congruence|]. split; [exact Hc|].
  intros b lq. rewrite Hlog, F5, F6. intros [<-|[]]. destruct b; rewrite ?L2, ?L3; eexists; cbn [dget]; rewrite eqb_refl; (split; [reflexivity|]); [apply ulogx_data|apply ulogz_data]; lia.
Qed.
Lemma C81_rot_lemma fuse show ordt ordp a a' lc0 lt0 lc lt n R di ori rot reset dets gauge w :
  (forall t k s, Permutation (ordt t k s) s) -> (forall t k s, Permutation (ordp t k s) s) ->
  rot_surface_code_rectangle a = Ok lc0 -> rot_surface_code_rectangle a' = Ok lt0 -> 1 <= ga_dx a -> 1 <= ga_dz a -> 1 <= ga_dx a' -> 1 <= ga_dz a' ->
  cnot_set set_trans_cnot_rot (cnot_gate a a') lc0 lt0 lc lt ->
  (ori = "constant" \/ ori = "alternating" /\ cnot_set set_trans_cnot_rot (cnot_gate a' a) lt0 lc0 lt lc)%string ->
  fits_two lc lt dets (fst w) (snd w) -> uniform (stp (fst w)) -> uniform_pairs (stp (fst w)) -> 0 <= n -> 0 <= R ->
  returns (repeated_cnot_rot_css fuse show ordt ordp lc lt n R di ori rot reset dets gauge w).
Proof.
  intros Hp Hpp G G' X Z X' Z' S O F U1 U2 Hn HR. destruct w as [m d]. cbn [fst snd] in *.
  destruct (set_facts_rot a a' lc0 lt0 lc lt G G' S) as (K1 & T & T').
  destruct (rot_ready a lc0 lc X Z G T) as (P & O1 & C1 & L1). destruct (rot_ready a' lt0 lt X' Z' G' T') as (P' & O2 & C2 & L2).
  eapply (planar_total fuse show ordt ordp Hp Hpp "rotated_surface_code" lc lt rot_shifts rot_dirn _ _ _ _ P P'); auto.
  - apply rot_shifts_nodup.
  - eapply rot_same; eauto.
  - congruence.
  - destruct O as [->|[-> O]]; [now left|right]. split; [reflexivity|]. now apply (set_facts_rot a' a lt0 lc0 lt lc G' G O).
Qed.
Lemma C81_unrot_lemma fuse show ordt ordp a a' lc0 lt0 lc lt n R di ori rot reset dets gauge w :
  (forall t k s, Permutation (ordt t k s) s) -> (forall t k s, Permutation (ordp t k s) s) ->
  unrot_surface_code_rectangle a = Ok lc0 -> unrot_surface_code_rectangle a' = Ok lt0 -> 1 <= ga_dx a -> 1 <= ga_dz a -> 1 <= ga_dx a' -> 1 <= ga_dz a' ->
  cnot_set set_trans_cnot_unrot (cnot_gate a a') lc0 lt0 lc lt ->
  (ori = "constant" \/ ori = "alternating" /\ cnot_set set_trans_cnot_unrot (cnot_gate a' a) lt0 lc0 lt lc)%string ->
  fits_two lc lt dets (fst w) (snd w) -> uniform (stp (fst w)) -> uniform_pairs (stp (fst w)) -> 0 <= n -> 0 <= R ->
  returns (repeated_cnot_unrot_css fuse show ordt ordp lc lt n R di ori rot reset dets gauge w).
Proof.
  intros Hp Hpp G G' X Z X' Z' S O F U1 U2 Hn HR. destruct w as [m d]. cbn [fst snd] in *.
  destruct (set_facts_unrot a a' lc0 lt0 lc lt G G' S) as (K1 & T & T').
  destruct (unrot_ready a lc0 lc X Z G T) as (P & O1 & C1 & L1). destruct (unrot_ready a' lt0 lt X' Z' G' T') as (P' & O2 & C2 & L2).
  eapply (planar_total fuse show ordt ordp Hp Hpp "unrotated_surface_code" lc lt unrot_shifts unrot_dirn _ _ _ _ P P'); auto.
  - apply unrot_shifts_nodup.
  - eapply unrot_same; eauto.
  - congruence.
  - destruct O as [->|[-> O]]; [now left|right]. split; [reflexivity|]. now apply (set_facts_unrot a' a lt0 lc0 lt lc G' G O).
Qed.
(** * Arguments that raise *)
Lemma cnot_numbers fuse show ordt ordp it lc lt n R di ori rot reset dets gauge w : n < 0 \/ R < 0 ->
  repeated_cnot_with fuse show ordt ordp it lc lt n R di ori rot reset dets gauge w = (w, Err ValueError).
Proof. intros H. unfold repeated_cnot_with. destruct (Z.ltb_spec R 0); [reflexivity|]. destruct (Z.ltb_spec n 0); [reflexivity|lia]. Qed.
Lemma cnot_word fuse show ordt ordp it lc lt n R di ori rot reset dets gauge w : ori <> "constant"%string -> ori <> "alternating"%string ->
  raises (repeated_cnot_with fuse show ordt ordp it lc lt n R di ori rot reset dets gauge w).
Proof.
  intros N1 N2. destruct (repeated_cnot_with fuse show ordt ordp it lc lt n R di ori rot reset dets gauge w) as [w' [c|e]] eqn:E; [|now exists e]. exfalso.
  unfold repeated_cnot_with in E. destruct (R <? 0); [discriminate|]. destruct (n <? 0); [discriminate|]. apply sbind_ok in E as (w1 & ds & _ & E).
  replace (mem ori _) with false in E; [discriminate|]. cbn [mem existsb]. destruct (eqb_spec ori "constant"%string); [contradiction|]. destruct (eqb_spec ori "alternating"%string); [contradiction|reflexivity].
Qed.
Lemma cnot_timed fuse show ordt ordp it lc lt n R di ori rot reset dets gauge w : timed (fst w) ->
  raises (repeated_cnot_with fuse show ordt ordp it lc lt n R di ori rot reset dets gauge w).
Proof.
  intros T. destruct (repeated_cnot_with fuse show ordt ordp it lc lt n R di ori rot reset dets gauge w) as [w' [c|e]] eqn:E; [|now exists e]. exfalso.
  unfold repeated_cnot_with in E. destruct (R <? 0); [discriminate|]. destruct (n <? 0); [discriminate|]. apply sbind_ok in E as (w1 & ds & H1 & E). unfold slift in H1. injection H1 as <- _.
  destruct (negb _); [discriminate|]. apply sbind_ok in E as (w2 & dc & H2 & E). unfold slift in H2. injection H2 as <- _. apply sbind_ok in E as (w3 & dt & H3 & E). unfold slift in H3. injection H3 as <- _.
  apply sbind_ok in E as (w4 & c0 & H4 & E). apply sbind_ok in E as (w5 & ic & H5 & E). unfold init_qubits in H5.
  destruct (init_raises (init_blocks (ordt 1%nat)) lc dc rot w4) as [e He]; [eapply start_static; eauto|apply init_blocks_idle|]. rewrite H5 in He. discriminate.
Qed.
