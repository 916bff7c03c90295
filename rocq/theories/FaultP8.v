(** The circuit distance of the memory experiments on the generated layouts. *)
From Coq Require Import QArith Qcanon.
From Verif Require Import Base Lib StimM SetupM NoiseM SpecNoise NoiseP LayoutM SpecLayout LayoutP LayoutP2 DetM SpecDet DetP DetCountP
  GenM GenP SpecGen GeomP RotP RotP2 UnrotP BlockM ExpM SpecTrack SpecExp SpecFault TrackP ActP RoundP CssP CssP2 PipeP RoundTopP XzzxP
  LiftP ExpDetP ExpP ExpP2 ExpP3 ExpP4 ExpP5 ExpP6 ExpP7 ExpP8 ExpP9 ExpP10 ExpP12 FaultP FaultP2 FaultP3 FaultP6 FaultP7.
Open Scope Z_scope.
Local Opaque rot_ps unrot_ps.

(** * Lines of data qubits *)
Definition rline (rot : bool) (rc : Z * Z) : option nat := Some (Z.to_nat ((if rot then snd rc else fst rc) / 2)).
Definition uline (rot : bool) (rc : Z * Z) : option nat :=
  let i := if rot then snd rc else fst rc in if i mod 2 =? 0 then Some (Z.to_nat (i / 2)) else None.
Lemma odd_in (q : string) T : Nat.odd (count q T) = true -> In q T.
Proof. induction T as [|x T IH]; intros H; [discriminate|]. cbn [count] in H. destruct (eqb_spec q x) as [->|]; [now left|]. right. now apply IH. Qed.

Section RotLines.
  Context (a : gen_args) (l : layout).
  Hypothesis Hx : 1 <= ga_dx a.
  Hypothesis Hz : 1 <= ga_dz a.
  Hypothesis P : planar l rot_shifts rot_dirn (rot_pt a) (rot_ps a).
  Lemma rot_touch (rot : bool) T : (forall b, In b (labs (rot_ps a) (if rot then KX else KZ)) -> par (support l b) T = false) ->
    NoDup (rot_logx a) -> NoDup (rot_logz a) -> par (if rot then rot_logx a else rot_logz a) T = true ->
    forall i, (i < Z.to_nat (if rot then ga_dz a else ga_dx a))%nat -> exists q, In q T /\ line (rot_ps a) (rline rot) q = Some i.
  Proof.
    intros Hb Nx Nz Hl i Hi. set (op := fun q => Nat.odd (count q T)).
    assert (C : forall p, In p (rot_ps a) -> knd p = (if rot then KX else KZ) -> commutes op (support l (pl_lab p))).
    { intros p Hp K. apply commutes_xor. unfold op. rewrite <- par_op by (eapply support_nodup; eauto using rot_shifts_nodup). apply Hb.
      apply mem_In. rewrite (mem_labs _ _ _ _ _ P) by assumption. now apply isk_eq. }
    assert (G0 : exists p, In p (rot_ps a) /\ op (pl_lab p) = true /\ rline rot (pos p) = Some i).
    { destruct rot.
      - rewrite par_op in Hl by exact Nx. fold op in Hl. rewrite (logx_xor a l Hx Hz P) in Hl.
        assert (R : forall c, (c < Z.to_nat (ga_dz a))%nat -> xs (Z.to_nat (ga_dx a)) (fun r => RotP2.G a op r c) = true).
        { induction c as [|c IH]; intros Hc; [exact Hl|]. rewrite (col_step a l Hx Hz P) by assumption. apply IH. lia. }
        apply R, xs_true in Hi as (r & _ & Hr). apply RotP2.G_true in Hr as (p & Hp & K & O & E). exists p. repeat (split; [assumption|]).
        unfold rline. rewrite E. cbn [snd]. f_equal. lia.
      - rewrite par_op in Hl by exact Nz. fold op in Hl. rewrite (logz_xor a l Hx Hz P) in Hl.
        assert (R : forall r, (r < Z.to_nat (ga_dx a))%nat -> xs (Z.to_nat (ga_dz a)) (RotP2.G a op r) = true).
        { induction r as [|r IH]; intros Hr; [exact Hl|]. rewrite (row_step a l Hx Hz P) by assumption. apply IH. lia. }
        apply R, xs_true in Hi as (c & _ & Hc). apply RotP2.G_true in Hc as (p & Hp & K & O & E). exists p. repeat (split; [assumption|]).
        unfold rline. rewrite E. cbn [fst]. f_equal. lia. }
    destruct G0 as (p & Hp & O & E). exists (pl_lab p). split; [now apply odd_in|]. now rewrite (line_at _ _ _ _ _ P).
  Qed.
  Definition rox : list (Z * Z) * list (Z * Z) := ([(1, 1); (1, -1)], [(-1, 1); (-1, -1)]).
  Definition roz : list (Z * Z) * list (Z * Z) := ([(1, 1); (-1, 1)], [(1, -1); (-1, -1)]).
  Lemma rot_whole k : incl (whole rox roz k) rot_shifts /\ NoDup (whole rox roz k).
  Proof.
    split; [|destruct k; cbn; (repeat constructor; cbn; intuition discriminate)].
    intros s Hs. destruct k; cbn in Hs; unfold rot_shifts; cbn; tauto.
  Qed.
  Lemma rot_halves (rot : bool) p s s' k k' : In p (rot_ps a) -> knd p <> KD -> knd p <> (if rot then KX else KZ) ->
    (In s (fst (halves rox roz (knd p))) /\ In s' (fst (halves rox roz (knd p))) \/ In s (snd (halves rox roz (knd p))) /\ In s' (snd (halves rox roz (knd p)))) ->
    rline rot (padd (pos p) s) = Some k -> rline rot (padd (pos p) s') = Some k' -> k = k'.
  Proof.
    intros _ K Kb H E E'. cut (Some k = Some k'); [congruence|]. rewrite <- E, <- E'. unfold rline, padd. f_equal. f_equal. f_equal. clear E E'.
    destruct rot; destruct (knd p); try congruence; cbn in H;
      destruct H as [[[<-|[<-|[]]] [<-|[<-|[]]]]|[[<-|[<-|[]]] [<-|[<-|[]]]]]; reflexivity.
  Qed.
End RotLines.

Section UnrotLines.
  Context (a : gen_args) (l : layout).
  Hypothesis Hx : 1 <= ga_dx a.
  Hypothesis Hz : 1 <= ga_dz a.
  Hypothesis P : planar l unrot_shifts unrot_dirn (ga_pt a) (unrot_ps a).
  Lemma unrot_touch (rot : bool) T : (forall b, In b (labs (unrot_ps a) (if rot then KX else KZ)) -> par (support l b) T = false) ->
    NoDup (unrot_logx a) -> NoDup (unrot_logz a) -> par (if rot then unrot_logx a else unrot_logz a) T = true ->
    forall i, (i < Z.to_nat (if rot then ga_dz a else ga_dx a))%nat -> exists q, In q T /\ line (unrot_ps a) (uline rot) q = Some i.
  Proof.
    intros Hb Nx Nz Hl i Hi. set (op := fun q => Nat.odd (count q T)).
    assert (C : forall p, In p (unrot_ps a) -> knd p = (if rot then KX else KZ) -> commutes op (support l (pl_lab p))).
    { intros p Hp K. apply commutes_xor. unfold op. rewrite <- par_op by (eapply support_nodup; eauto using unrot_shifts_nodup). apply Hb.
      apply mem_In. rewrite (mem_labs _ _ _ _ _ P) by assumption. now apply isk_eq. }
    assert (G0 : exists p, In p (unrot_ps a) /\ op (pl_lab p) = true /\ uline rot (pos p) = Some i).
    { destruct rot.
      - rewrite par_op in Hl by exact Nx. fold op in Hl. rewrite (ulogx_xor a l Hx Hz P) in Hl.
        assert (R : forall c, (c < Z.to_nat (ga_dz a))%nat -> xs (Z.to_nat (ga_dx a)) (fun r => UnrotP.E a op r c) = true).
        { induction c as [|c IH]; intros Hc; [exact Hl|]. rewrite (ucol_step a l Hx Hz P) by assumption. apply IH. lia. }
        apply R, xs_true in Hi as (r & _ & Hr). apply UnrotP.E_true in Hr as (p & Hp & K & O & E). exists p. repeat (split; [assumption|]).
        unfold uline. rewrite E. cbn [snd]. destruct (Z.eqb_spec (2 * Z.of_nat i mod 2) 0); [|lia]. f_equal. lia.
      - rewrite par_op in Hl by exact Nz. fold op in Hl. rewrite (ulogz_xor a l Hx Hz P) in Hl.
        assert (R : forall r, (r < Z.to_nat (ga_dx a))%nat -> xs (Z.to_nat (ga_dz a)) (UnrotP.E a op r) = true).
        { induction r as [|r IH]; intros Hr; [exact Hl|]. rewrite (urow_step a l Hx Hz P) by assumption. apply IH. lia. }
        apply R, xs_true in Hi as (c & _ & Hc). apply UnrotP.E_true in Hc as (p & Hp & K & O & E). exists p. repeat (split; [assumption|]).
        unfold uline. rewrite E. cbn [fst]. destruct (Z.eqb_spec (2 * Z.of_nat i mod 2) 0); [|lia]. f_equal. lia. }
    destruct G0 as (p & Hp & O & E). exists (pl_lab p). split; [now apply odd_in|]. now rewrite (line_at _ _ _ _ _ P).
  Qed.
  Definition uox : list (Z * Z) * list (Z * Z) := ([(0, 1); (-1, 0)], [(1, 0); (0, -1)]).
  Definition uoz : list (Z * Z) * list (Z * Z) := ([(0, 1); (1, 0)], [(-1, 0); (0, -1)]).
  Lemma unrot_whole k : incl (whole uox uoz k) unrot_shifts /\ NoDup (whole uox uoz k).
  Proof.
    split; [|destruct k; cbn; (repeat constructor; cbn; intuition discriminate)].
    intros s Hs. destruct k; cbn in Hs; unfold unrot_shifts; cbn; tauto.
  Qed.
  Lemma unrot_halves (rot : bool) p s s' k k' : In p (unrot_ps a) -> knd p <> KD -> knd p <> (if rot then KX else KZ) ->
    (In s (fst (halves uox uoz (knd p))) /\ In s' (fst (halves uox uoz (knd p))) \/ In s (snd (halves uox uoz (knd p))) /\ In s' (snd (halves uox uoz (knd p)))) ->
    uline rot (padd (pos p) s) = Some k -> uline rot (padd (pos p) s') = Some k' -> k = k'.
  Proof.
    intros Hi K Kb H E E'. apply ups_pos in Hi as [_ Hk]. pose proof (ukind_spec (pos p)) as S. rewrite <- Hk in S. clear Hk.
    assert (A : In s unrot_shifts /\ In s' unrot_shifts).
    { destruct (unrot_whole (knd p)) as [W _]. split; apply W; unfold whole; apply in_app_iff; tauto. }
    clear H. destruct A as [A A']. revert E E'. unfold uline, padd. destruct (pos p) as [r c]. cbn [fst snd] in *.
    destruct rot; destruct (knd p); try congruence; unfold unrot_shifts in *; cbn [In] in A, A';
      (destruct A as [<-|[<-|[<-|[<-|[]]]]], A' as [<-|[<-|[<-|[<-|[]]]]]); cbn [fst snd];
      repeat match goal with |- context [if ?b then _ else _] => destruct b eqn:?B end; intros E E'; try discriminate; injection E as <-; injection E' as <-;
      repeat match goal with B : (_ =? _) = _ |- _ => first [apply Z.eqb_eq in B|apply Z.eqb_neq in B] end; lia.
  Qed.
End UnrotLines.

(** * CSS codes *)
Lemma css_point l ancs data xs zs lx lz (rot : bool) : css_facts l ancs data xs zs lx lz -> forall b q, In b ancs ->
  let hset := if rot then data else [] in
  anti (css l) (px (BS (hs hset) [q])) (pz (BS (hs hset) [q])) b = negb (mem b (if rot then xs else zs)) && mem q (support l b).
Proof.
  intros F b q Hb hset. pose proof (css_sup _ _ _ _ _ _ _ F) as Sp. unfold anti, BS, hset, hs. cbn [px pz].
  apply (css_types _ _ _ _ _ _ _ F) in Hb as [Hb|Hb].
  - destruct (Sp b (or_introl Hb)) as [Ns Is]. rewrite (css_st_x _ _ _ _ _ _ _ F b Hb). cbn [fst snd map]. change (xorl []) with false. rewrite xorb_false_r. destruct rot.
    + rewrite (proj2 (mem_In b xs) Hb). cbn [negb andb]. apply xorl_false. intros c Hc. apply in_map_iff in Hc as (y & <- & Hy).
      now rewrite (proj2 (mem_In y data) (Is y Hy)).
    + rewrite (mem_not b zs) by (now apply (cf_xz _ _ _ _ _ _ _ F)). cbn [negb andb]. rewrite <- (par_single q (support l b) Ns). reflexivity.
  - destruct (Sp b (or_intror Hb)) as [Ns Is]. rewrite (css_st_z _ _ _ _ _ _ _ F b Hb). cbn [fst snd map]. change (xorl []) with false. rewrite xorb_false_l. destruct rot.
    + rewrite (mem_not b xs) by (intros H; now apply (cf_xz _ _ _ _ _ _ _ F b)). cbn [negb andb]. rewrite <- (par_single q (support l b) Ns).
      apply xorl_ext'. intros y Hy. now rewrite (proj2 (mem_In y data) (Is y Hy)).
    + rewrite (proj2 (mem_In b zs) Hb). cbn [negb andb]. apply xorl_false. intros c Hc. apply in_map_iff in Hc as (y & <- & Hy). reflexivity.
Qed.
Lemma fault_css ordt k l R di (rot : bool) reset dets gauge w w' c ancs data xs zs lx lz line d fs :
  (k = RotCss \/ k = UnrotCss \/ k = CssPipelined) ->
  css_facts l ancs data xs zs lx lz -> (forall t n s, Permutation (ordt t n s) s) ->
  (forall r, exists g, round_of l (css l) (round_k ordt k r l) ancs g /\ safe (css l) ancs data (if rot then data else []) line g) ->
  SpecNoise.wf_inds (inds (fst w)) -> NoDup (labels (snd w)) ->
  memory ordt k l R di rot reset dets gauge w = (w', Ok c) ->
  (forall ds, dets = Some ds -> incl (if rot then xs else zs) ds) ->
  (forall T, (forall a, In a (if rot then xs else zs) -> par (support l a) T = false) -> par (if rot then lx else lz) T = true ->
     forall i, (i < d)%nat -> exists q, In q T /\ line q = Some i) ->
  Forall (possible c) fs -> undetected c fs -> logical_error c fs -> (d <= length fs)%nat.
Proof.
  intros Hk F Hp Hr W N E Hds Hdist. pose proof (cf_anc _ _ _ _ _ _ _ F) as Ea. pose proof (css_data _ _ _ _ _ _ _ F) as Ed. pose proof (css_ndata _ _ _ _ _ _ _ F) as Nd.
  assert (Ei : init_of ordt k = init_blocks (ordt 1%nat)) by (destruct Hk as [->|[->| ->]]; reflexivity).
  assert (Em : meas_of ordt k = log_meas_blocks) by (destruct Hk as [->|[->| ->]]; reflexivity).
  set (hset := if rot then data else []) in *. assert (Hh : incl hset data) by (unfold hset; destruct rot; [apply incl_refl|intros q []]).
  destruct (cf_code _ _ _ _ _ _ _ F) as [lg cc]. pose proof (css_types _ _ _ _ _ _ _ F) as Ty. pose proof (css_sup _ _ _ _ _ _ _ F) as Sp.
  destruct (cc_nodup _ _ _ _ _ _ _ cc) as (_ & Nx & Nz). destruct (cc_log _ _ _ _ _ _ _ cc) as [Ix Iz].
  destruct (init_gates (ordt 1%nat) l di rot ancs data Ea Ed) as [exc EI].
  apply (generic_fault ordt k l R di rot reset dets gauge w w' c (css l) ancs data hset (if rot then xs else zs) lg (if rot then lx else lz)
    (ordt 1%nat 0%nat (dedup (data ++ ancs))) exc (if rot then data else []) (if rot then data else []) line d fs); auto.
  - apply (cf_wf _ _ _ _ _ _ _ F).
  - apply (cf_disj _ _ _ _ _ _ _ F).
  - intros a b Ha Hb. eapply css_com; eauto.
  - now rewrite Ei.
  - destruct rot; [exact Nd|constructor].
  - rewrite Em. apply (log_meas_gates l rot data Ed ancs Ea).
  - destruct rot; [exact Nd|constructor].
  - destruct rot; apply cc.
  - intros a Ha. assert (Ha' : In a ancs) by (apply Ty; destruct rot; auto). split; [exact Ha'|].
    assert (Hs : NoDup (support l a) /\ incl (support l a) data) by (apply Sp; destruct rot; auto). split; [apply Hs|]. split; [apply Hs|].
    intros q. unfold hset, hs. destruct rot; [rewrite (css_st_x _ _ _ _ _ _ _ F a Ha)|rewrite (css_st_z _ _ _ _ _ _ _ F a Ha)]; cbn [fst snd on].
    + unfold on. destruct (mem q (support l a)) eqn:M; [|now rewrite !andb_false_r].
      assert (M' : mem q data = true) by (apply mem_In, (proj2 Hs), mem_In, M). now rewrite M'.
    + unfold on. auto.
  - apply cc.
  - destruct rot; apply cc.
  - destruct rot; assumption.
  - destruct rot; assumption.
  - intros a Ha. unfold hset, hs. apply Ty in Ha as [Ha|Ha].
    + unfold anti. rewrite (css_st_x _ _ _ _ _ _ _ F a Ha). cbn [fst snd map]. change (xorl []) with false. rewrite xorb_false_r. destruct rot.
      * apply xorl_false. intros b Hb. apply in_map_iff in Hb as (q & <- & Hq). assert (In q data) by (eapply Sp; eauto).
        now rewrite (proj2 (mem_In q data)).
      * apply commutes_xor. exact (cc_lzx _ _ _ _ _ _ _ cc a Ha).
    + unfold anti. rewrite (css_st_z _ _ _ _ _ _ _ F a Ha). cbn [fst snd map]. change (xorl []) with false. rewrite xorb_false_l. destruct rot.
      * pose proof (cc_lxz _ _ _ _ _ _ _ cc a Ha) as K. apply commutes_xor in K. rewrite <- K. f_equal. apply map_ext_in.
        intros q Hq. assert (In q data) by (eapply Sp; eauto). now rewrite (proj2 (mem_In q data)).
      * apply xorl_false. intros b Hb. apply in_map_iff in Hb as (q & <- & Hq). reflexivity.
Qed.

(** * The generated layouts *)
Lemma planar_point l shifts dirn pt ps g data xs zs lx lz (rot : bool) : planar l shifts dirn pt ps -> css_code l g data xs zs lx lz ->
  data = labs ps KD /\ xs = labs ps KX /\ zs = labs ps KZ /\
  forall p q, In p ps -> knd p <> KD ->
    anti (css l) (px (BS (hs (if rot then data else [])) [q])) (pz (BS (hs (if rot then data else [])) [q])) (pl_lab p) =
    negb (isk (if rot then KX else KZ) p) && mem q (support l (pl_lab p)).
Proof.
  intros P cc. pose proof (planar_facts _ _ _ _ _ _ _ _ _ _ _ P cc) as F.
  pose proof (cc_x _ _ _ _ _ _ _ cc) as Ex. rewrite (pn_x _ _ _ _ _ P) in Ex. injection Ex as Ex.
  pose proof (cc_z _ _ _ _ _ _ _ cc) as Ez. rewrite (pn_z _ _ _ _ _ P) in Ez. injection Ez as Ez.
  pose proof (cc_data _ _ _ _ _ _ _ cc) as Ed. rewrite (pn_data _ _ _ _ _ P) in Ed. injection Ed as Ed.
  split; [now symmetry|]. split; [now symmetry|]. split; [now symmetry|]. intros p q Hi K.
  rewrite (css_point _ _ _ _ _ _ _ rot F (pl_lab p) q); [|apply mem_In; rewrite (mem_ancs _ _ _ _ _ P) by assumption; now apply isanc_spec].
  f_equal. f_equal. rewrite <- (mem_labs _ _ _ _ _ P) by assumption. unfold labs. destruct rot; congruence.
Qed.

Section Generated.
  Context (ordt : nat -> nat -> list string -> list string).
  Hypothesis Hp : forall t n s, Permutation (ordt t n s) s.
  Context (a : gen_args) (l : layout).
  Context (R : Z) (di : dict string Z) (rot reset : bool) (dets : option (list string)) (gauge : bool) (w w' : world) (c : circuit).
  Hypothesis W : SpecNoise.wf_inds (inds (fst w)).
  Hypothesis N : NoDup (labels (snd w)).
  Context (fs : list fault).
  Hypothesis Hds : watched l rot dets.
  Lemma bts_in xs zs : get_stabs l "x_type" = Ok xs -> get_stabs l "z_type" = Ok zs -> forall ds, dets = Some ds -> incl (if rot then xs else zs) ds.
  Proof. intros Ex Ez ds E. unfold watched in Hds. apply Hds; [destruct rot; assumption|exact E]. Qed.

  Lemma fault_rot_css : 1 <= ga_dx a -> 2 <= ga_dz a -> rot_surface_code_rectangle a = Ok l ->
    memory ordt RotCss l R di rot reset dets gauge w = (w', Ok c) ->
    Forall (possible c) fs -> undetected c fs -> logical_error c fs -> (Z.to_nat (if rot then ga_dz a else ga_dx a) <= length fs)%nat.
  Proof.
    intros Hx Hz E. destruct (rot_planar a) as (l1 & r & E1 & _ & _ & P & _ & Lz & Lx & _ & _ & O & Cd); [lia|lia|]. rewrite E in E1. injection E1 as <-.
    destruct (rot_code a) as (l1 & data & xs & zs & lx & lz & E1 & cc & _); [lia|lia|]. rewrite E in E1. injection E1 as <-.
    destruct (planar_point l _ _ _ _ _ data xs zs lx lz rot P cc) as (Ed & Ex & Ez & Pt).
    pose proof (cc_lx _ _ _ _ _ _ _ cc) as Elx. rewrite Lx in Elx. cbn [dget] in Elx. rewrite eqb_refl in Elx. injection Elx as Elx.
    pose proof (cc_lz _ _ _ _ _ _ _ cc) as Elz. rewrite Lz in Elz. cbn [dget] in Elz. rewrite eqb_refl in Elz. injection Elz as Elz.
    destruct (cc_nodup _ _ _ _ _ _ _ cc) as (_ & Nx & Nz).
    pose proof (bts_in xs zs (cc_x _ _ _ _ _ _ _ cc) (cc_z _ _ _ _ _ _ _ cc)) as Eb.
    intros H. apply (fault_css ordt RotCss l R di rot reset dets gauge w w' c (ancs (rot_ps a)) data xs zs lx lz (line (rot_ps a) (rline rot))); auto.
    - eapply planar_facts; eauto.
    - intros r0. cbn [round_k]. destruct (rot_css_round a l (ordt (3 + r0)%nat) (Hp _) Hx Hz E) as [g Hg].
      assert (Eg : g = inner l rot_dirn (rot_ps a) (1, 1) (1, -1) (-1, 1) (-1, -1) (ordt (3 + r0)%nat)).
      { eapply round_is; [exact Hg|]. eapply (round_gates l rot_shifts rot_dirn (rot_pt a) (rot_ps a) P); [exact Cd|exact O]. }
      exists g. split; [exact Hg|]. subst g. rewrite Ed at 1.
      apply (safe_of l rot_shifts rot_dirn (rot_pt a) (rot_ps a) P rot_shifts_nodup (rline rot) (if rot then KX else KZ) rox roz rot_whole (rot_halves a rot)).
      + apply (inner_ok l rot_shifts rot_dirn (rot_pt a) (rot_ps a) P _ _ _ _ rot_Ps). apply Hp.
      + apply (inner_hn l rot_shifts rot_dirn (rot_pt a) (rot_ps a) P). apply Hp.
      + apply (inner_czs l rot_shifts rot_dirn (rot_pt a) (rot_ps a) P _ _ _ _ rot_Ps).
      + exact Pt.
    - intros T HT HL. apply (rot_touch a l); auto; try lia.
      + intros b Hb. apply HT. destruct rot; congruence.
      + now rewrite Elx.
      + now rewrite Elz.
      + destruct rot; congruence.
  Qed.
  Lemma fault_unrot_css : 1 <= ga_dx a -> 2 <= ga_dz a -> unrot_surface_code_rectangle a = Ok l ->
    memory ordt UnrotCss l R di rot reset dets gauge w = (w', Ok c) ->
    Forall (possible c) fs -> undetected c fs -> logical_error c fs -> (Z.to_nat (if rot then ga_dz a else ga_dx a) <= length fs)%nat.
  Proof.
    intros Hx Hz E. destruct (unrot_planar a) as (l1 & r & E1 & _ & _ & P & _ & Lz & Lx & _ & _ & O & Cd); [lia|lia|]. rewrite E in E1. injection E1 as <-.
    destruct (unrot_code a) as (l1 & data & xs & zs & lx & lz & E1 & cc & _); [lia|lia|]. rewrite E in E1. injection E1 as <-.
    destruct (planar_point l _ _ _ _ _ data xs zs lx lz rot P cc) as (Ed & Ex & Ez & Pt).
    pose proof (cc_lx _ _ _ _ _ _ _ cc) as Elx. rewrite Lx in Elx. cbn [dget] in Elx. rewrite eqb_refl in Elx. injection Elx as Elx.
    pose proof (cc_lz _ _ _ _ _ _ _ cc) as Elz. rewrite Lz in Elz. cbn [dget] in Elz. rewrite eqb_refl in Elz. injection Elz as Elz.
    destruct (cc_nodup _ _ _ _ _ _ _ cc) as (_ & Nx & Nz).
    pose proof (bts_in xs zs (cc_x _ _ _ _ _ _ _ cc) (cc_z _ _ _ _ _ _ _ cc)) as Eb.
    intros H. apply (fault_css ordt UnrotCss l R di rot reset dets gauge w w' c (ancs (unrot_ps a)) data xs zs lx lz (line (unrot_ps a) (uline rot))); auto.
    - eapply planar_facts; eauto.
    - intros r0. cbn [round_k]. destruct (unrot_css_round a l (ordt (3 + r0)%nat) (Hp _) Hx Hz E) as [g Hg].
      assert (Eg : g = inner l unrot_dirn (unrot_ps a) (0, 1) (-1, 0) (1, 0) (0, -1) (ordt (3 + r0)%nat)).
      { eapply round_is; [exact Hg|]. eapply (round_gates l unrot_shifts unrot_dirn (ga_pt a) (unrot_ps a) P); [exact Cd|exact O]. }
      exists g. split; [exact Hg|]. subst g. rewrite Ed at 1.
      apply (safe_of l unrot_shifts unrot_dirn (ga_pt a) (unrot_ps a) P unrot_shifts_nodup (uline rot) (if rot then KX else KZ) uox uoz unrot_whole (unrot_halves a rot)).
      + apply (inner_ok l unrot_shifts unrot_dirn (ga_pt a) (unrot_ps a) P _ _ _ _ unrot_Ps). apply Hp.
      + apply (inner_hn l unrot_shifts unrot_dirn (ga_pt a) (unrot_ps a) P). apply Hp.
      + apply (inner_czs l unrot_shifts unrot_dirn (ga_pt a) (unrot_ps a) P _ _ _ _ unrot_Ps).
      + exact Pt.
    - intros T HT HL. apply (unrot_touch a l); auto; try lia.
      + intros b Hb. apply HT. destruct rot; congruence.
      + now rewrite Elx.
      + now rewrite Elz.
      + destruct rot; congruence.
  Qed.
  Lemma fault_css_pipelined : 1 <= ga_dx a -> 1 <= ga_dz a -> rot_surface_code_rectangle a = Ok l ->
    memory ordt CssPipelined l R di rot reset dets gauge w = (w', Ok c) ->
    Forall (possible c) fs -> undetected c fs -> logical_error c fs -> (Z.to_nat (if rot then ga_dz a else ga_dx a) <= length fs)%nat.
  Proof.
    intros Hx Hz E. destruct (rot_planar a) as (l1 & r & E1 & _ & _ & P & _ & Lz & Lx & _ & _ & O & Cd); [lia|lia|]. rewrite E in E1. injection E1 as <-.
    destruct (rot_code a) as (l1 & data & xs & zs & lx & lz & E1 & cc & _); [lia|lia|]. rewrite E in E1. injection E1 as <-.
    destruct (planar_point l _ _ _ _ _ data xs zs lx lz rot P cc) as (Ed & Ex & Ez & Pt).
    pose proof (cc_lx _ _ _ _ _ _ _ cc) as Elx. rewrite Lx in Elx. cbn [dget] in Elx. rewrite eqb_refl in Elx. injection Elx as Elx.
    pose proof (cc_lz _ _ _ _ _ _ _ cc) as Elz. rewrite Lz in Elz. cbn [dget] in Elz. rewrite eqb_refl in Elz. injection Elz as Elz.
    destruct (cc_nodup _ _ _ _ _ _ _ cc) as (_ & Nx & Nz).
    pose proof (bts_in xs zs (cc_x _ _ _ _ _ _ _ cc) (cc_z _ _ _ _ _ _ _ cc)) as Eb.
    intros H. apply (fault_css ordt CssPipelined l R di rot reset dets gauge w w' c (ancs (rot_ps a)) data xs zs lx lz (line (rot_ps a) (rline rot))); auto.
    - eapply planar_facts; eauto.
    - intros r0. cbn [round_k]. destruct (rot_css_pipe a l (ordt (3 + r0)%nat) (Hp _) Hx Hz E) as [g Hg].
      assert (Eg : g = pinner l rot_dirn (rot_ps a) (fst rox ++ snd rox) (fst roz ++ snd roz) (ordt (3 + r0)%nat) css_pipe_rot).
      { eapply round_is; [exact Hg|]. exact (pipe_gates l rot_shifts rot_dirn (rot_pt a) (rot_ps a) P _ _ Cd (eq_trans O rot_order_dirs) (ordt (3 + r0)%nat) css_pipe_rot false). }
      assert (Rx : forall p, In p (rot_ps a) -> knd p <> KD -> mem (pl_lab p) (css_pipe_rot (labs (rot_ps a) KD) "x_type" (labs (rot_ps a) KX)) = isk KX p).
      { intros p Hi K. apply Bool.eq_true_iff_eq. rewrite mem_In. unfold css_pipe_rot, union. rewrite eqb_refl, dedup_In, in_app_iff, dedup_In, <- !mem_In, !(mem_labs _ _ _ _ _ P) by assumption.
        unfold isk. destruct (knd p); intuition congruence. }
      assert (Rz : forall p, In p (rot_ps a) -> knd p <> KD -> mem (pl_lab p) (css_pipe_rot (labs (rot_ps a) KD) "z_type" (labs (rot_ps a) KZ)) = isk KZ p).
      { intros p Hi K. apply Bool.eq_true_iff_eq. rewrite mem_In. unfold css_pipe_rot, union. replace (eqb "z_type"%string "x_type"%string) with false by reflexivity.
        rewrite app_nil_r, !dedup_In, <- !mem_In, !(mem_labs _ _ _ _ _ P) by assumption. reflexivity. }
      exists g. split; [exact Hg|]. subst g. rewrite Ed at 1.
      apply (safe_of l rot_shifts rot_dirn (rot_pt a) (rot_ps a) P rot_shifts_nodup (rline rot) (if rot then KX else KZ) rox roz rot_whole (rot_halves a rot)).
      + apply (pinner_ok l rot_shifts rot_dirn (rot_pt a) (rot_ps a) P rox roz rot_Ps rot_Pz); auto; apply dedup_NoDup.
      + apply (pinner_hn l rot_dirn (rot_ps a) rox roz); auto; apply dedup_NoDup.
      + apply (pinner_czs l rot_shifts rot_dirn (rot_pt a) (rot_ps a) P rox roz rot_Ps rot_Pz).
      + exact Pt.
    - intros T HT HL. apply (rot_touch a l); auto; try lia.
      + intros b Hb. apply HT. destruct rot; congruence.
      + now rewrite Elx.
      + now rewrite Elz.
      + destruct rot; congruence.
  Qed.
  Lemma fault_xzzx_pipelined : 2 <= ga_dx a -> 2 <= ga_dz a -> rot_surface_code_rectangle a = Ok l ->
    memory ordt XzzxPipelined l R di rot reset dets gauge w = (w', Ok c) ->
    Forall (possible c) fs -> undetected c fs -> logical_error c fs -> (Z.to_nat (if rot then ga_dz a else ga_dx a) <= length fs)%nat.
  Proof.
    intros Hx Hz E. destruct (rot_planar a) as (l1 & r & E1 & _ & _ & P & _ & Lz & Lx & _ & _ & O & Cd); [lia|lia|]. rewrite E in E1. injection E1 as <-.
    destruct (rot_code a) as (l1 & data & xs & zs & lx & lz & E1 & cc & _); [lia|lia|]. rewrite E in E1. injection E1 as <-.
    destruct (planar_point l _ _ _ _ _ data xs zs lx lz rot P cc) as (Ed & Ex & Ez & Pt).
    pose proof (cc_lx _ _ _ _ _ _ _ cc) as Elx. rewrite Lx in Elx. cbn [dget] in Elx. rewrite eqb_refl in Elx. injection Elx as Elx.
    pose proof (cc_lz _ _ _ _ _ _ _ cc) as Elz. rewrite Lz in Elz. cbn [dget] in Elz. rewrite eqb_refl in Elz. injection Elz as Elz.
    destruct (cc_nodup _ _ _ _ _ _ _ cc) as (Nd & Nx & Nz). destruct (cc_log _ _ _ _ _ _ _ cc) as [Ix Iz].
    pose proof (bts_in xs zs (cc_x _ _ _ _ _ _ _ cc) (cc_z _ _ _ _ _ _ _ cc)) as Eb.
    pose proof (rot_xzzx_facts a l Hx Hz P _ _ _ _ _ _ cc) as F. pose proof (xf_css _ _ _ _ _ _ _ _ F) as Fc.
    set (hset := nw_se l (if rot then xs else zs)).
    pose proof (xz_stabs _ _ _ _ _ _ _ _ F rot) as Es.
    destruct (init_xzzx_gates (ordt 1%nat) l di rot (ancs (rot_ps a)) data _ Cd (cf_anc _ _ _ _ _ _ _ Fc) (css_data _ _ _ _ _ _ _ Fc) Es) as [exc EI]. fold hset in EI.
    assert (Hm : forall n t q, mem q (ordt n t hset) = hs hset q) by (intros n t q; apply (ord_mem (ordt n) (Hp n))).
    assert (Hn : forall n t, NoDup (ordt n t hset)) by (intros n t; apply (ord_nodup (ordt n) (Hp n)); apply dedup_NoDup).
    intros H. apply (generic_fault ordt XzzxPipelined l R di rot reset dets gauge w w' c (xzzx l) (ancs (rot_ps a)) data hset (if rot then xs else zs) (ga_log a) (if rot then lx else lz)
      (ordt 1%nat 0%nat (dedup (data ++ ancs (rot_ps a)))) exc (ordt 1%nat 3%nat hset) (ordt 2%nat 0%nat hset) (line (rot_ps a) (rline rot)) _ fs); auto.
    - apply (cf_wf _ _ _ _ _ _ _ Fc).
    - apply (cf_anc _ _ _ _ _ _ _ Fc).
    - apply (css_data _ _ _ _ _ _ _ Fc).
    - apply (cf_disj _ _ _ _ _ _ _ Fc).
    - intros b b'. apply (xz_com _ _ _ _ _ _ _ _ F).
    - intros r0. cbn [round_k]. destruct (rot_xzzx_pipe a l (ordt (3 + r0)%nat) (Hp _) Hx Hz E) as [g Hg].
      assert (Eg : g = pinner l rot_dirn (rot_ps a) (fst rox ++ snd rox) (fst roz ++ snd roz) (ordt (3 + r0)%nat) (xzzx_pipe_rot l)).
      { eapply round_is; [exact Hg|]. exact (pipe_gates l rot_shifts rot_dirn (rot_pt a) (rot_ps a) P _ _ Cd (eq_trans O rot_order_dirs) (ordt (3 + r0)%nat) (xzzx_pipe_rot l) false). }
      assert (Nw : forall k p, k <> KD -> In p (rot_ps a) -> knd p <> KD -> ~ In (pl_lab p) (nw_se l (labs (rot_ps a) k))).
      { intros k p Hk Hi K Hq. apply (nw_se_data a l P k) in Hq as (d & Hd & Kd & Ed'); [|exact Hk]. apply (lab_eq _ _ _ _ _ P) in Ed'; auto. congruence. }
      assert (Rx : forall p, In p (rot_ps a) -> knd p <> KD -> mem (pl_lab p) (xzzx_pipe_rot l (labs (rot_ps a) KD) "x_type" (labs (rot_ps a) KX)) = isk KX p).
      { intros p Hi K. apply Bool.eq_true_iff_eq. rewrite mem_In. unfold xzzx_pipe_rot, union. rewrite dedup_In, in_app_iff, dedup_In, <- mem_In, !(mem_labs _ _ _ _ _ P) by assumption.
        pose proof (Nw KX p ltac:(discriminate) Hi K). tauto. }
      assert (Rz : forall p, In p (rot_ps a) -> knd p <> KD -> mem (pl_lab p) (xzzx_pipe_rot l (labs (rot_ps a) KD) "z_type" (labs (rot_ps a) KZ)) = isk KZ p).
      { intros p Hi K. apply Bool.eq_true_iff_eq. rewrite mem_In. unfold xzzx_pipe_rot, union. rewrite dedup_In, in_app_iff, dedup_In, <- mem_In, !(mem_labs _ _ _ _ _ P) by assumption.
        pose proof (Nw KZ p ltac:(discriminate) Hi K). tauto. }
      exists g. split; [exact Hg|]. subst g. rewrite Ed at 1.
      apply (safe_of l rot_shifts rot_dirn (rot_pt a) (rot_ps a) P rot_shifts_nodup (rline rot) (if rot then KX else KZ) rox roz rot_whole (rot_halves a rot)).
      + apply (pinner_ok l rot_shifts rot_dirn (rot_pt a) (rot_ps a) P rox roz rot_Ps rot_Pz); auto; apply dedup_NoDup.
      + apply (pinner_hn l rot_dirn (rot_ps a) rox roz); auto; apply dedup_NoDup.
      + apply (pinner_czs l rot_shifts rot_dirn (rot_pt a) (rot_ps a) P rox roz rot_Ps rot_Pz).
      + intros p q Hi K. rewrite <- (Pt p q Hi K). assert (Hb : In (pl_lab p) (ancs (rot_ps a))) by (apply mem_In; rewrite (mem_ancs _ _ _ _ _ P) by assumption; now apply isanc_spec).
        rewrite (xf_anti _ _ _ _ _ _ _ _ F _ _ _ Hb). unfold anti, BS. cbn [px pz].
        assert (Ev : forall y, In y data -> hs hset y = (if rot then cls a l y else negb (cls a l y)) /\ hs (if rot then data else []) y = rot).
        { intros y Hy. split; [apply (xz_hs _ _ _ _ _ _ _ _ F rot y Hy)|]. unfold hs. destruct rot; [now apply mem_In|reflexivity]. }
        f_equal; apply xorl_ext'; intros y Hy; (assert (Hy' : In y data) by (eapply (css_in _ _ _ _ _ _ _ Fc (pl_lab p)); [exact Hb|tauto]));
          destruct (Ev y Hy') as [-> ->]; destruct rot, (cls a l y); reflexivity.
    - apply (log_meas_xzzx_gates (ordt 2%nat) l rot (ancs (rot_ps a)) data _ (cf_anc _ _ _ _ _ _ _ Fc) (css_data _ _ _ _ _ _ _ Fc) Es).
    - intros b. apply (xz_bt _ _ _ _ _ _ _ _ F).
    - apply cc.
    - destruct rot; apply cc.
    - destruct rot; assumption.
    - destruct rot; assumption.
    - intros b Hb. apply (xz_log _ _ _ _ _ _ _ _ F rot b Hb).
    - intros T HT HL. apply (rot_touch a l); auto; try lia.
      + intros b Hb. apply HT. destruct rot; congruence.
      + now rewrite Elx.
      + now rewrite Elz.
      + destruct rot; congruence.
  Qed.
End Generated.
