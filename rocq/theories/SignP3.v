(** Proofs about the transversal gates with signs, part 3: the generators (C70). *)
From Coq Require Import QArith Qcanon.
From Verif Require Import Base Lib StimM NoiseM SpecNoise NoiseP DetM LayoutM SpecLayout LayoutP LayoutP2 GenM GenP SpecGen GeomP BlockM SpecTrack TrackP
  RoundP RotP RotP2 UnrotP LiftP SpecLog SpecSign LogM LogP LogP2 LogP3 LogP4 LogP5 LogP6 LogP7 LogP8 LogP9 LogP10 LogP11 LogP12 LogP13 RepP7 SignP SignP2.
Open Scope Z_scope.

(** * The sign is determined *)
Lemma represented qi xs zs : SpecNoise.wf_inds qi -> exists P, represents qi xs zs P.
Proof.
  intros W. set (at_ := fun i => find (fun e : string * Z => eqb (snd e) i) qi).
  exists (Pauli (fun i => match at_ i with Some (q, _) => xs q | None => false end) (fun i => match at_ i with Some (q, _) => zs q | None => false end)).
  split.
  - intros q i E. cbn [px pz]. assert (K : exists e, at_ i = Some e /\ fst e = q).
    { pose proof E as E0. apply dget_In in E. unfold at_. destruct (find _ qi) as [[q' i']|] eqn:F.
      - apply find_some in F as [F1 F2]. cbn [snd] in F2. destruct (eqb_spec i' i) as [->|]; [|discriminate]. exists (q', i). split; [reflexivity|].
        cbn [fst]. eapply NoiseP.inj_inds; [exact W| |exact E0]. apply In_dget; [apply W|exact F1].
      - apply (find_none _ _ F) in E. cbn [snd] in E. rewrite eqb_refl in E. discriminate. }
    destruct K as ([q' j] & -> & <-). auto.
  - intros i N. cbn [px pz]. destruct (at_ i) as [[q j]|] eqn:F; [|auto]. exfalso. apply N. apply find_some in F as [F1 F2]. cbn [snd] in F2.
    destruct (eqb_spec j i) as [->|]; [|discriminate]. unfold dvals. apply in_map_iff. exists (q, i). auto.
Qed.

Lemma becomes_sign qi c k k1 xs zs k' xs' zs' : SpecNoise.wf_inds qi -> becomes qi c k xs zs k' xs' zs' -> becomes qi c k1 xs zs k' xs' zs' -> k mod 4 = k1 mod 4.
Proof.
  intros W B B1. destruct (represented qi xs' zs' W) as [P HP]. destruct (B P HP) as (k0 & R & E & <- & _). destruct (B1 P HP) as (k2 & R2 & E2 & <- & _).
  rewrite E in E2. now injection E2 as -> _.
Qed.
Lemma becomes_ext qi c k k' xs zs xs' zs' ys ws ys' ws' : (forall q, xs q = ys q) -> (forall q, zs q = ws q) ->
  (forall q, xs' q = ys' q) -> (forall q, zs' q = ws' q) -> becomes qi c k xs zs k' xs' zs' -> becomes qi c k ys ws k' ys' ws'.
Proof.
  intros E1 E2 E3 E4 H P R. destruct (H P) as (k0 & P' & B & K & R'); [|exists k0, P'; split; [exact B|split; [exact K|]]].
  - destruct R as [R1 R2]. split; [|exact R2]. intros q i E. rewrite E3, E4. now apply R1.
  - destruct R' as [R1 R2]. split; [|exact R2]. intros q i E. rewrite <- E1, <- E2. now apply R1.
Qed.
Lemma prod_x_ext st st' g q : (forall x, st x = st' x) -> prod_x st g q = prod_x st' g q.
Proof. intros E. unfold prod_x. do 2 f_equal. apply filter_ext. intros x. now rewrite E. Qed.
Lemma prod_z_ext st st' g q : (forall x, st x = st' x) -> prod_z st g q = prod_z st' g q.
Proof. intros E. unfold prod_z. do 2 f_equal. apply filter_ext. intros x. now rewrite E. Qed.
Lemma prod_phase_ext st st' g : (forall x, st x = st' x) -> prod_phase st g = prod_phase st' g.
Proof.
  intros E. induction g as [|x g IH]; [reflexivity|]. cbn [prod_phase]. rewrite IH, E. do 3 f_equal. apply map_ext. intros y. now rewrite E.
Qed.
Lemma carries_ext qi st st' c k x new : (forall x, st x = st' x) -> carries qi st c k x new -> carries qi st' c k x new.
Proof.
  intros E H. unfold carries in *. rewrite <- (prod_phase_ext st st' new E).
  eapply becomes_ext; [intros q; now apply prod_x_ext|intros q; now apply prod_z_ext|intros q; now apply prod_x_ext|intros q; now apply prod_z_ext|exact H].
Qed.
(* the operator of a circuit with its sign *)
Lemma label_becomes prefix git l3 st ancs op nd lq ord ordp w w' c k k0 k' xs zs xs' zs' :
  (forall n s, Permutation (ord n s) s) -> (forall n s, Permutation (ordp n s) s) ->
  first_log l3 = Ok lq -> label_act (fun o p => git o p l3) st ancs op nd ->
  SpecNoise.wf_inds (inds (fst w)) -> log_trans prefix (git ord ordp) l3 w = (w', Ok c) ->
  peq (op (Pauli xs' zs')) (Pauli xs zs) ->
  (exists R, sback (lg_blocks (git ord ordp l3)) (k', Pauli xs' zs') = Some (k0, R)) -> k0 mod 4 = k mod 4 ->
  becomes (inds (fst w)) c k xs zs k' xs' zs'.
Proof.
  intros Ho Hp El A W H Q S K. apply log_trans_ok in H as (lq' & nd' & El' & _ & R & _).
  destruct (la_bk _ _ _ _ _ A ord ordp Ho Hp) as [O B].
  eapply blocks_becomes; [exact R|exact O|exact W| |exact S|exact K].
  eapply turns_intro; eauto.
Qed.
Lemma label_carries prefix git l3 st ancs op nd lq ord ordp w w' c k k0 x new :
  (forall n s, Permutation (ord n s) s) -> (forall n s, Permutation (ordp n s) s) ->
  first_log l3 = Ok lq -> label_act (fun o p => git o p l3) st ancs op nd ->
  SpecNoise.wf_inds (inds (fst w)) -> log_trans prefix (git ord ordp) l3 w = (w', Ok c) -> dget x nd = Some new ->
  (exists R, sback (lg_blocks (git ord ordp l3)) (prod_phase st new, gens st new) = Some (k0, R)) -> k0 mod 4 = k mod 4 ->
  carries (inds (fst w)) st c k x new.
Proof.
  intros Ho Hp El A W H E S K. unfold carries. eapply label_becomes; eauto. destruct (la_gen _ _ _ _ _ A x new E) as [_ G]. exact G.
Qed.

(** * Products of generators *)
Section Css.
  Context (l : layout) (shifts : list (Z * Z)) (dirn : Z * Z -> string) (pt : Qc * Qc) (ps : list placed).
  Hypothesis P : planar l shifts dirn pt ps.
  Lemma css_x x : In x (labs ps KX) -> css l x = (support l x, []).
  Proof.
    intros Hx. unfold css, of_type. rewrite (pn_x _ _ _ _ _ P), (pn_z _ _ _ _ _ P), (proj2 (mem_In x _) Hx).
    rewrite (mem_not x (labs ps KZ)); [reflexivity|]. intros Hz. exact (labs_disj _ _ _ _ _ P KX KZ x ltac:(discriminate) Hx Hz).
  Qed.
  Lemma css_z x : In x (labs ps KZ) -> css l x = ([], support l x).
  Proof.
    intros Hz. unfold css, of_type. rewrite (pn_x _ _ _ _ _ P), (pn_z _ _ _ _ _ P), (proj2 (mem_In x _) Hz).
    rewrite (mem_not x (labs ps KX)); [reflexivity|]. intros Hx. exact (labs_disj _ _ _ _ _ P KX KZ x ltac:(discriminate) Hx Hz).
  Qed.
  Lemma shape_x nd x new : s_shape (labs ps KX) (labs ps KZ) nd -> dget x nd = Some new ->
    prod_phase (css l) new = 0 /\ forall q, prod_x (css l) new q = mem q (fst (css l x)).
  Proof.
    intros Sh E. unfold prod_x. destruct (Sh x new E) as [[Iz ->]|[Ix [->|(az & Iz & ->)]]].
    - rewrite (css_z x Iz). split; [reflexivity|]. intros q. now rewrite prod_one, (css_z x Iz).
    - rewrite (css_x x Ix). split; [reflexivity|]. intros q. now rewrite prod_one, (css_x x Ix).
    - rewrite (css_x x Ix). split; [cbn [prod_phase]; rewrite (css_x x Ix); reflexivity|]. intros q.
      rewrite prod_two, (css_x x Ix), (css_z az Iz). cbn [fst mem existsb]. apply xorb_false_r.
  Qed.
End Css.
Lemma s_phase_ext data pf loc x y : (forall q, x q = y q) -> s_phase data pf loc x = s_phase data pf loc y.
Proof.
  intros E. unfold s_phase. rewrite (filter_ext x y E). apply sum_ext. intros q _. unfold s_term. f_equal. f_equal. destruct (pf q); [apply E|reflexivity].
Qed.
Lemma s_phase_none data pf loc : s_phase data pf loc (fun _ => false) = 0.
Proof. unfold s_phase. rewrite filter_all_false; [reflexivity|auto]. Qed.

(** * S of the unrotated code *)
Section UnrotS.
  Context (a : gen_args) (l l2 l3 : layout) (dq : string).
  Notation ps := (unrot_ps a).
  Hypothesis P : planar l unrot_shifts unrot_dirn (ga_pt a) ps.
  Hypothesis Hlog : l_logs l = [ga_log a].
  Hypothesis Hcode : l_code l = "unrotated_surface_code".
  Hypothesis Hdx : l_dx l = ga_dx a.
  Hypothesis Hdz : l_dz l = ga_dz a.
  Hypothesis T3 : touched (("trans-s_" ++ ga_log a) :: structure)%string l2 l3.
  Lemma unrot_s_facts : set_trans_s_unrot l dq = Ok l2 ->
    exists c0 e tab cz s nd, (fst e = 1 \/ fst e = -1) /\ (snd e = 1 \/ snd e = -1) /\ ukind c0 = KD /\ ga_dz a = ga_dx a /\
      label_table l = Ok tab /\ partners l tab (crd (ga_pt a) c0) (vz e) (labs ps KD) = Ok cz /\ diagonal_gates l tab (crd (ga_pt a) c0) (vz e) (labs ps KD) = Ok s /\
      pairing (labs ps KD) (czf cz (labs ps KD)) /\ first_log l3 = Ok (ga_log a) /\ new_stab_dict l3 ("trans-s_" ++ ga_log a) = Ok nd /\
      label_act (fun ord ordp => trans_s_blocks ord ordp l3) (css l) (ancs ps) (s_op (labs ps KD) (czf cz (labs ps KD)) (sf s)) nd /\
      s_attrs l3 ("trans-s_" ++ ga_log a) (labs ps KD) (czf cz (labs ps KD)) (sf s) /\ s_shape (labs ps KX) (labs ps KZ) nd.
  Proof.
    intros H. unfold set_trans_s_unrot in H. apply bind_ok in H as [[] [F H]]. rewrite (role_data a l P) in H. cbn [bind] in H.
    unfold gate_s in H. rewrite (first_one l _ Hlog) in H. cbn [bind] in H. apply bind_ok in H as [[[ax p] v] [L H]].
    apply bind_ok in H as [tab [Et H]]. apply bind_ok in H as [cz [Ec H]]. apply bind_ok in H as [s [Es H]].
    destruct (fold_unrot a l dq P _ _ _ _ F L) as (c0 & e & E1 & E2 & Kc & -> & ->).
    apply fold_data in F as (_ & _ & _ & _ & F). exists c0, e, tab, cz, s.
    destruct (s_labels_at cz s false None l l2 l3 (labs ps KD) (labs ps KX) (labs ps KZ) (ancs ps) (ga_log a)) as (nd & A1 & A2 & A3 & A4 & A5 & A6); auto.
    - apply (partners_inv a l P c0 e E1 E2 Kc tab Et cz Ec).
    - intros q g _ Eg. destruct (diagonal_get a l P c0 e tab Et s Es q g Eg) as [|[]]; auto.
    - intros _. apply (diagonal_none a l P c0 e E1 E2 Kc tab Et cz Ec s Es).
    - apply role_data, P.
    - apply P.
    - apply P.
    - apply P.
    - apply (data_ancs _ _ _ _ _ P).
    - intros x. apply (labs_disj _ _ _ _ _ P). discriminate.
    - apply ancs_labs.
    - apply (support_ok _ _ _ _ _ P unrot_shifts_nodup).
    - now apply first_one.
    - unfold trans_code_ok. now rewrite Hcode.
    - discriminate.
    - exists nd. repeat (split; [assumption|]). split; [|repeat (split; [assumption|]); assumption].
      rewrite Hdx, Hdz in F. destruct (eqb_spec (ga_dz a) (ga_dx a)); [assumption|discriminate].
  Qed.
End UnrotS.

(** * The final lemmas *)
Section One.
  Context (ord : nat -> list string -> list string) (ordp : nat -> list (string * string) -> list (string * string)).
  Hypothesis Hord : forall n s, Permutation (ord n s) s.
  Hypothesis Hordp : forall n s, Permutation (ordp n s) s.
  Context (a : gen_args) (l0 l l1 l2 : layout) (dq : string) (w w' : world) (c : circuit).
  Hypothesis A1 : annotated structure l0 l.
  Hypothesis W : SpecNoise.wf_inds (inds (fst w)).
  Lemma after_all' gate : touched structure l l1 -> annotated (gate :: structure) l1 l2 -> touched structure l l2.
  Proof. intros T B. eapply touched_trans; [exact T|]. eapply touched_incl; [|apply annotated_touched, B]. intros x Hx. now right. Qed.
  Lemma s_sign shifts dirn pt ps pf loc nd x new k :
    planar l shifts dirn pt ps -> touched structure l l2 -> trans_code_ok l = true -> pairing (labs ps KD) pf -> first_log l2 = Ok (ga_log a) ->
    label_act (fun ord ordp => trans_s_blocks ord ordp l2) (css l) (ancs ps) (s_op (labs ps KD) pf loc) nd ->
    s_attrs l2 ("trans-s_" ++ ga_log a) (labs ps KD) pf loc -> s_shape (labs ps KX) (labs ps KZ) nd ->
    log_trans_s ord ordp l2 w = (w', Ok c) -> dget x nd = Some new ->
    (s_phase (labs ps KD) pf loc (fun q => mem q (fst (css l x)))) mod 4 = k mod 4 ->
    carries (inds (fst w)) (css l) c k x new.
  Proof.
    intros P T Hc Hp El A At Sh H E K. destruct (shape_x l shifts dirn pt ps P nd x new Sh E) as [E0 Ex].
    eapply (label_carries "trans-s_" trans_s_blocks l2) with (k0 := 0 + s_phase (labs ps KD) pf loc (px (gens (css l) new))); eauto.
    1: rewrite E0; apply (trans_s_sign ord ordp Hord Hordp l2 (labs ps KD) (ga_log a) pf loc); auto.
    - rewrite (touched_role _ _ _ T (incl_refl _)). apply P.
    - apply (kind_nodup _ _ _ _ _ P).
    - unfold trans_code_ok in *. destruct (touched_fields _ _ _ T) as (-> & _). exact Hc.
    - rewrite Z.add_0_l, <- K. unfold gens. cbn [px]. f_equal. now apply s_phase_ext.
  Qed.
  Lemma C70_s_unrot_lemma : unrot_surface_code_rectangle a = Ok l0 -> set_trans_s_unrot l dq = Ok l1 ->
    annotated (("trans-s_" ++ ga_log a) :: structure)%string l1 l2 -> log_trans_s ord ordp l2 w = (w', Ok c) ->
    exists anc nd, get_role l0 "anc" = Ok anc /\ new_stab_dict l2 ("trans-s_" ++ ga_log a) = Ok nd /\
      forall x, In x anc -> exists new, dget x nd = Some new /\ carries (inds (fst w)) (css l0) c 0 x new.
  Proof.
    intros G S B H. destruct (unrot_after _ _ _ G (annotated_touched _ _ _ A1)) as (P & Hlog & Hc & Hx & Hz & An & Cs).
    destruct (unrot_s_facts a l l1 l2 dq P Hlog Hc Hx Hz (annotated_touched _ _ _ B) S) as
      (c0 & e & tab & cz & s & nd & E1 & E2 & Kc & Sq & Et & Ec & Es & Hp & El & En & A & At & Sh).
    exists (ancs (unrot_ps a)), nd. split; [exact An|]. split; [exact En|]. intros x Ix. pose proof Ix as Ia.
    apply (la_dom _ _ _ _ _ A) in Ia. unfold dmem in Ia. destruct (dget x nd) as [new|] eqn:E; [|discriminate]. exists new. split; [reflexivity|].
    eapply carries_ext; [exact Cs|]. eapply s_sign; eauto.
    - eapply after_all'; [eapply s_unrot_touched; exact S|exact B].
    - unfold trans_code_ok. now rewrite Hc.
    - apply ancs_labs in Ix as [Ix|Ix].
      + rewrite (css_x _ _ _ _ _ P x Ix). cbn [fst]. apply labs_place in Ix as (p & Hp' & Kp & <-).
        rewrite (unrot_s_phase a l P Hz Sq c0 e E1 E2 Kc tab Et cz s Ec Es p Hp' Kp). reflexivity.
      + rewrite (css_z _ _ _ _ _ P x Ix). cbn [fst]. rewrite (s_phase_ext _ _ _ _ (fun _ => false)) by reflexivity. now rewrite s_phase_none.
  Qed.
  Lemma C70_s_rot_lemma : rot_surface_code_rectangle a = Ok l0 -> set_trans_s_rot l dq = Ok l1 ->
    annotated (("trans-s_" ++ ga_log a) :: structure)%string l1 l2 -> log_trans_s ord ordp l2 w = (w', Ok c) ->
    exists anc data nd q0 x0, get_role l0 "anc" = Ok anc /\ get_role l0 "data" = Ok data /\ new_stab_dict l2 ("trans-s_" ++ ga_log a) = Ok nd /\
      In q0 data /\ (forall q, In q data -> local_gate l2 ("trans-s_" ++ ga_log a) q = Some (PStr "S_DAG") <-> q = q0) /\
      In x0 anc /\ In q0 (fst (css l0 x0)) /\
      forall x, In x anc -> exists new, dget x nd = Some new /\ carries (inds (fst w)) (css l0) c (if eqb x x0 then 2 else 0) x new.
  Proof.
    intros G S B H. destruct (rot_big a l0 l l1 dq A1 G S) as [Bx _].
    destruct (rot_after _ _ _ G (annotated_touched _ _ _ A1)) as (P & Hlog & Hc & Hx & Hz & An & Cs).
    destruct (rot_s_labels_at ord Hord a l l1 l2 dq P Hlog Hc Hx Hz S (annotated_touched _ _ _ B)) as (pf & loc & nd & Hp & El & En & A & At & Sh & Pl & _).
    destruct (proj2 (cell_some a l pf loc P Pl (ga_dx a - 1) (ga_dx a)) ltac:(lia)) as [q0 E0].
    pose proof Pl as [Dz Pl'].
    assert (Kx : xpos (ga_dx a) (ga_dz a) (2 * (ga_dx a - 1), 2 * ga_dx a)) by (unfold xpos; cbn [fst snd]; rewrite Dz; lia).
    destruct (kpos_ps a KX _ Kx) as (p0 & Hp0 & Kp0 & Ep0).
    assert (Ix0 : In (pl_lab p0) (labs (rot_ps a) KX)) by (apply labs_place; eauto).
    assert (Data : get_role l0 "data" = Ok (labs (rot_ps a) KD)).
    { rewrite <- (touched_role _ _ _ (annotated_touched _ _ _ A1) (incl_refl _)). apply P. }
    assert (Cell : forall q, In q (labs (rot_ps a) KD) -> exists i j, cell a i j = Some q /\ 0 <= i /\ 0 <= j).
    { intros q Hq. apply labs_place in Hq as (p & Hp' & Kp & <-). pose proof (ps_kpos a p Hp') as K. rewrite Kp in K. cbn [kpos] in K. unfold dpos in K.
      exists (fst (pos p) / 2), (snd (pos p) / 2). split; [|lia]. unfold cell.
      replace (2 * (fst (pos p) / 2) + 1, 2 * (snd (pos p) / 2) + 1) with (pos p); [now apply (labat_lab _ _ _ _ _ P)|].
      rewrite (surjective_pairing (pos p)) at 1. f_equal; lia. }
    assert (Loc : forall q, In q (labs (rot_ps a) KD) -> loc q = "S_DAG" <-> q = q0).
    { intros q Hq. destruct (Cell q Hq) as (i & j & Eq & I & J). destruct (Pl' i j q I J Eq) as [_ ->]. split.
      - intros K. destruct (i =? 0) eqn:Ei; cbn [andb] in K.
        + destruct (j =? 0) eqn:Ej; [discriminate|]. destruct (Z.eqb_spec j (i + 1)); [|discriminate]. destruct (Z.eqb_spec i (ga_dx a - 1)); [|discriminate].
          subst. replace (ga_dx a - 1 + 1) with (ga_dx a) in Eq by lia. congruence.
        + destruct (Z.eqb_spec j (i + 1)); [|discriminate]. destruct (Z.eqb_spec i (ga_dx a - 1)); [|discriminate].
          subst. replace (ga_dx a - 1 + 1) with (ga_dx a) in Eq by lia. congruence.
      - intros ->. pose proof (labat_one _ _ _ _ _ P _ _ _ Eq E0) as K. pose proof (f_equal fst K) as K1. pose proof (f_equal snd K) as K2. cbn [fst snd] in K1, K2. clear K.
        replace (i =? ga_dx a - 1) with true by lia. replace (j =? i + 1) with true by lia. replace (j =? 0) with false by lia. now rewrite andb_false_r. }
    assert (D0 : In q0 (labs (rot_ps a) KD)).
    { apply (labat_some _ _ _ _ _ P) in E0 as (p & Hp' & Ep & <-). apply labs_place. exists p. split; [exact Hp'|]. split; [|reflexivity].
      pose proof (ps_kpos a p Hp') as K. rewrite Ep in K. destruct (knd p); [reflexivity| |]; cbn [kpos] in K; unfold xpos, zpos in K; cbn [fst snd] in K; lia. }
    exists (ancs (rot_ps a)), (labs (rot_ps a) KD), nd, q0, (pl_lab p0).
    split; [exact An|]. split; [exact Data|]. split; [exact En|]. split; [exact D0|]. split; [|split; [|split]].
    - intros q Hq. unfold local_gate. rewrite (At q Hq). cbn [dget find fst snd]. rewrite <- (Loc q Hq). cbn. split; [intros [= E]; exact E|intros ->; reflexivity].
    - apply ancs_labs. auto.
    - rewrite <- Cs, (css_x _ _ _ _ _ P _ Ix0). cbn [fst]. apply mem_In, (in_support _ _ _ _ _ P rot_shifts_nodup p0 q0 _ Hp0 E0), In_rot_shifts.
      rewrite Ep0. cbn [fst snd]. lia.
    - intros x Ix. pose proof Ix as Ia. apply (la_dom _ _ _ _ _ A) in Ia. unfold dmem in Ia. destruct (dget x nd) as [new|] eqn:E; [|discriminate].
      exists new. split; [reflexivity|]. eapply carries_ext; [exact Cs|]. eapply s_sign; eauto.
      + eapply after_all'; [eapply s_rot_touched; exact S|exact B].
      + unfold trans_code_ok. now rewrite Hc.
      + apply ancs_labs in Ix as [Ix|Ix].
        * rewrite (css_x _ _ _ _ _ P x Ix). cbn [fst]. apply labs_place in Ix as (p & Hp' & Kp & <-).
          rewrite (rot_s_phase a l pf loc P Pl p Hp' Kp).
          assert (Q : existsb (fun q => eqb (loc q) "S_DAG") (support l (pl_lab p)) = eqb (pl_lab p) (pl_lab p0)).
          { apply eq_true_iff_eq. rewrite existsb_exists. destruct (eqb_spec (pl_lab p) (pl_lab p0)) as [Ep|Np]; (split; [|try discriminate; try reflexivity]).
            - intros _. reflexivity.
            - intros _. apply (lab_eq _ _ _ _ _ P) in Ep; auto. subst p. exists q0. split.
              + apply mem_In, (in_support _ _ _ _ _ P rot_shifts_nodup p0 q0 _ Hp0 E0), In_rot_shifts. rewrite Ep0. cbn [fst snd]. lia.
              + rewrite (proj2 (Loc q0 D0) eq_refl). reflexivity.
            - intros (q & Iq & Lq). exfalso. destruct (eqb_spec (loc q) "S_DAG") as [El'|]; [|discriminate].
              assert (Dq : In q (labs (rot_ps a) KD)).
              { apply (support_ok _ _ _ _ _ P rot_shifts_nodup (pl_lab p)); [apply ancs_labs; left; apply labs_place; eauto|exact Iq]. }
              apply (Loc q Dq) in El'. subst q. apply mem_In, (in_support _ _ _ _ _ P rot_shifts_nodup p q0 _ Hp' E0), In_rot_shifts in Iq.
              pose proof (ps_kpos a p Hp') as K. rewrite Kp in K. cbn [kpos] in K. unfold xpos in K. cbn [fst snd] in Iq.
              apply Np. f_equal. apply (pos_eq _ _ _ _ _ P); auto. rewrite Ep0. destruct (pos p). cbn [fst snd] in *. f_equal; lia. }
          rewrite Q. destruct (eqb (pl_lab p) (pl_lab p0)); reflexivity.
        * rewrite (css_z _ _ _ _ _ P x Ix). cbn [fst]. rewrite (s_phase_ext _ _ _ _ (fun _ => false)) by reflexivity. rewrite s_phase_none.
          destruct (eqb_spec x (pl_lab p0)) as [->|]; [|reflexivity]. destruct (labs_disj _ _ _ _ _ P KX KZ _ ltac:(discriminate) Ix0 Ix).
  Qed.
  Lemma C70_h_lemma : unrot_surface_code_rectangle a = Ok l0 -> set_trans_h l dq = Ok l1 ->
    annotated (("trans-h_" ++ ga_log a) :: structure)%string l1 l2 -> log_trans_h ord ordp l2 w = (w', Ok c) ->
    exists anc nd, get_role l0 "anc" = Ok anc /\ new_stab_dict l2 ("trans-h_" ++ ga_log a) = Ok nd /\
      forall x, In x anc -> exists new, dget x nd = Some new /\ carries (inds (fst w)) (css l0) c 0 x new.
  Proof.
    intros G S B H. destruct (unrot_after _ _ _ G (annotated_touched _ _ _ A1)) as (P & Hlog & Hc & Hx & Hz & An & Cs).
    destruct (unrot_h_labels_at a l l1 l2 dq P Hlog Hc S (annotated_touched _ _ _ B)) as (pf & nd & Hp & El & En & A & Rd & Hc3 & At & Sh & _).
    exists (ancs (unrot_ps a)), nd. split; [exact An|]. split; [exact En|]. intros x Ix. pose proof Ix as Ia.
    apply (la_dom _ _ _ _ _ A) in Ia. unfold dmem in Ia. destruct (dget x nd) as [new|] eqn:E; [|discriminate]. exists new. split; [reflexivity|].
    eapply carries_ext; [exact Cs|]. destruct (Sh x new E) as (b & Ib & ->).
    eapply (label_carries "trans-h_" trans_h_blocks l2); eauto.
    eapply (trans_h_sign ord ordp Hord Hordp l2 (labs (unrot_ps a) KD) (ga_log a) pf (fun _ => "H")); auto.
    - rewrite Hc3. reflexivity.
    - unfold gens. cbn [px pz]. intros q. unfold prod_x, prod_z. rewrite !prod_one. apply ancs_labs in Ib as [Ib|Ib].
      + rewrite (css_x _ _ _ _ _ P b Ib). apply andb_false_r.
      + rewrite (css_z _ _ _ _ _ P b Ib). reflexivity.
  Qed.
End One.
Section Two.
  Context (ord : nat -> list string -> list string) (ordp : nat -> list (string * string) -> list (string * string)).
  Hypothesis Hordp : forall n s, Permutation (ordp n s) s.
  Context (a a' : gen_args) (lc0 lc lc1 lc2 lt0 lt lt1 lt2 : layout) (monos : list (dict string string)) (w w' : world) (c : circuit).
  Hypothesis Ac : annotated structure lc0 lc.
  Hypothesis At : annotated structure lt0 lt.
  Hypothesis Hm : Forall (monomorphism lc lt) monos.
  Let gate := ("trans-cnot_" ++ ga_log a ++ "_" ++ ga_log a')%string.
  Hypothesis Ac2 : annotated (gate :: structure) lc1 lc2.
  Hypothesis At2 : annotated (gate :: structure) lt1 lt2.
  Hypothesis W : SpecNoise.wf_inds (inds (fst w)).
  Hypothesis H : log_trans_cnot ord ordp lc2 lt2 w = (w', Ok c).
  Lemma C70_cnot_rot_lemma : rot_surface_code_rectangle a = Ok lc0 -> rot_surface_code_rectangle a' = Ok lt0 ->
    set_trans_cnot_rot monos lc lt = Ok (lc1, lt1) ->
    exists ac at_ nc nt, get_role lc0 "anc" = Ok ac /\ get_role lt0 "anc" = Ok at_ /\
      new_stab_dict lc2 gate = Ok nc /\ new_stab_dict lt2 gate = Ok nt /\
      forall x, In x (ac ++ at_) -> exists new, dget x (dupdate nc nt) = Some new /\ carries (inds (fst w)) (joint (css lc0) (css lt0)) c 0 x new.
  Proof.
    intros G G' S. destruct (rot_after _ _ _ G (annotated_touched _ _ _ Ac)) as (P & Hlog & Hc & Hx & Hz & An & Cs).
    destruct (rot_after _ _ _ G' (annotated_touched _ _ _ At)) as (P' & Hlog' & Hc' & Hx' & Hz' & An' & Cs').
    destruct (cnot_sizes lc lc1 lt lt1 monos _ S) as [Sx Sz].
    assert (It : map pl_item (rot_ps a) = map pl_item (rot_ps a')).
    { unfold rot_ps. rewrite !place_items. congruence. }
    destruct (cnot_facts ord ordp Hordp lc lt lc1 lt1 lc2 lt2 _ _ _ _ _ _ _ P P' rot_shifts_nodup It "rotated_surface_code" monos (ga_log a) (ga_log a')
      (or_introl eq_refl) Hm Hlog Hlog' S (annotated_touched _ _ _ Ac2) (annotated_touched _ _ _ At2) w w' c W H) as (nc & nt & fw & bw & E1 & E2 & U & I & K & R & O & _).
    exists (ancs (rot_ps a)), (ancs (rot_ps a')), nc, nt. do 4 (split; [assumption|]).
    intros x Hx2. destruct (K x Hx2) as (new & E & C & Z0). exists new. split; [exact E|].
    apply (carries_ext _ (joint (css lc) (css lt))); [intros y; unfold joint; now rewrite Cs, Cs'|].
    unfold carries. rewrite Z0. eapply blocks_becomes; [exact R|exact O|exact W|apply C|apply trans_cnot_sign|reflexivity].
  Qed.
  Lemma C70_cnot_unrot_lemma : unrot_surface_code_rectangle a = Ok lc0 -> unrot_surface_code_rectangle a' = Ok lt0 ->
    set_trans_cnot_unrot monos lc lt = Ok (lc1, lt1) ->
    exists ac at_ nc nt, get_role lc0 "anc" = Ok ac /\ get_role lt0 "anc" = Ok at_ /\
      new_stab_dict lc2 gate = Ok nc /\ new_stab_dict lt2 gate = Ok nt /\
      forall x, In x (ac ++ at_) -> exists new, dget x (dupdate nc nt) = Some new /\ carries (inds (fst w)) (joint (css lc0) (css lt0)) c 0 x new.
  Proof.
    intros G G' S. destruct (unrot_after _ _ _ G (annotated_touched _ _ _ Ac)) as (P & Hlog & Hc & Hx & Hz & An & Cs).
    destruct (unrot_after _ _ _ G' (annotated_touched _ _ _ At)) as (P' & Hlog' & Hc' & Hx' & Hz' & An' & Cs').
    destruct (cnot_sizes lc lc1 lt lt1 monos _ S) as [Sx Sz].
    assert (It : map pl_item (unrot_ps a) = map pl_item (unrot_ps a')).
    { unfold unrot_ps. rewrite !place_items. congruence. }
    destruct (cnot_facts ord ordp Hordp lc lt lc1 lt1 lc2 lt2 _ _ _ _ _ _ _ P P' unrot_shifts_nodup It "unrotated_surface_code" monos (ga_log a) (ga_log a')
      (or_intror eq_refl) Hm Hlog Hlog' S (annotated_touched _ _ _ Ac2) (annotated_touched _ _ _ At2) w w' c W H) as (nc & nt & fw & bw & E1 & E2 & U & I & K & R & O & _).
    exists (ancs (unrot_ps a)), (ancs (unrot_ps a')), nc, nt. do 4 (split; [assumption|]).
    intros x Hx2. destruct (K x Hx2) as (new & E & C & Z0). exists new. split; [exact E|].
    apply (carries_ext _ (joint (css lc) (css lt))); [intros y; unfold joint; now rewrite Cs, Cs'|].
    unfold carries. rewrite Z0. eapply blocks_becomes; [exact R|exact O|exact W|apply C|apply trans_cnot_sign|reflexivity].
  Qed.
End Two.
