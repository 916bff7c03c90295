(** Proofs about C77, part 4: setting the transversal CNOT on two codes of one size. *)
From Coq Require Import QArith Qcanon.
From Verif Require Import Base Lib StimM NoiseM DetM LayoutM SpecLayout LayoutP LayoutP2 GenM GenP SpecGen GeomP BlockM SpecTrack TrackP
  RoundP UnrotP LiftP SpecLog LogM LogP LogP2 LogP3 LogP4 LogP5 LogP6 LogP8 LogP9 LogP13 LogP7 SetOkP.
Open Scope Z_scope.

(** * Overlaps do not depend on other attributes *)
Lemma touched_coords l l' : touched structure l l' -> qubit_coords_attr l' = qubit_coords_attr l.
Proof.
  intros (n & -> & F). unfold qubit_coords_attr. cbn [with_nodes l_nodes].
  induction F as [|[k x] [k' y] r s [E K] F IH]; [reflexivity|]. cbn [flat_map fst snd] in *. subst k'.
  rewrite IH, K by (cbn; tauto). reflexivity.
Qed.
Lemma touched_overlaps a a' b b' : touched structure a a' -> touched structure b b' -> check_overlaps [a'; b'] = check_overlaps [a; b].
Proof.
  intros T T'. cbn [check_overlaps mapM]. unfold check_overlap_pair, tuple_coords, get_coords.
  rewrite (touched_keys _ _ _ T), (touched_keys _ _ _ T'), !(touched_inds _ _ _ T), !(touched_inds _ _ _ T'), (touched_coords _ _ T), (touched_coords _ _ T').
  destruct (touched_fields _ _ _ T) as (_ & -> & _). destruct (touched_fields _ _ _ T') as (_ & -> & _). reflexivity.
Qed.
Lemma disjoint_layouts a b : loaded a -> loaded b -> SpecLayout.all_coords a -> SpecLayout.all_coords b -> ~ share a b -> check_overlaps [a; b] = Ok tt.
Proof.
  intros La Lb Ca Cb N. destruct (overlaps_lemma [a; b]) as [[E _]|[_ (pre & x & mid & y & post & E & S)]]; [auto|auto|exact E|].
  exfalso. apply N. destruct pre as [|p pre]; [|destruct pre as [|p' pre]; cbn in E; [injection E as _ E; destruct mid; discriminate|]; injection E as _ _ E; destruct pre; discriminate].
  injection E as -> E. destruct mid as [|z mid]; [now injection E as -> _|]. injection E as _ E. destruct mid; discriminate.
Qed.
Lemma planar_coords l sh dn pt ps : planar l sh dn pt ps -> SpecLayout.all_coords l.
Proof. intros P q Hq. rewrite (pn_nodes _ _ _ _ _ P) in Hq. apply in_map_iff in Hq as (p & <- & Hp). eexists. apply (pn_coord _ _ _ _ _ P _ Hp). Qed.

Section Cnot.
  Context (lc lt : layout) (shifts : list (Z * Z)) (dirn dirn' : Z * Z -> string) (ptc ptt : Qc * Qc) (pc pt : list placed).
  Hypothesis Pc : planar lc shifts dirn ptc pc.
  Hypothesis Pt : planar lt shifts dirn' ptt pt.
  Hypothesis Hit : map pl_item pc = map pl_item pt.
  Context (code : string) (monos : list (dict string string)) (gc gt : string).
  Hypothesis Hmonos : Forall (monomorphism lc lt) monos.
  Hypothesis Hall : forall m, monomorphism lc lt m -> exists m', In m' monos /\ Permutation m m'.
  Hypothesis Hgc : l_logs lc = [gc].
  Hypothesis Hgt : l_logs lt = [gt].
  Hypothesis Hcc : l_code lc = code.
  Hypothesis Hct : l_code lt = code.
  Hypothesis Hdx : l_dx lc = l_dx lt.
  Hypothesis Hdz : l_dz lc = l_dz lt.
  Hypothesis Hov : check_overlaps [lc; lt] = Ok tt.
  Hypothesis Hne : pc <> [].
  Definition translate : dict string string := combine (map pl_lab pc) (map pl_lab pt).
  Lemma translate_at c t : In (c, t) translate -> exists p p', In p pc /\ In p' pt /\ pl_lab p = c /\ pl_lab p' = t /\ pl_item p' = pl_item p.
  Proof.
    unfold translate. clear -Hit. revert pt Hit. induction pc as [|p r IH]; intros [|p' r'] E H; cbn in *; try tauto; try discriminate.
    injection E as E1 E. destruct H as [[= <- <-]|H]; [exists p, p'; auto 8|]. destruct (IH _ E H) as (x & x' & ? & ? & ?). exists x, x'. tauto.
  Qed.
  Lemma len_eq : length (map pl_lab pc) = length (map pl_lab pt).
  Proof. pose proof (f_equal (@length item) Hit) as E. rewrite !map_length in *. exact E. Qed.
  Lemma split_combine_ {A B} (x : list A) : forall y : list B, length x = length y -> map fst (combine x y) = x /\ map snd (combine x y) = y.
  Proof. induction x as [|h x IH]; intros [|k y] E; cbn in *; try discriminate; [auto|]. destruct (IH y) as [E1 E2]; [congruence|]. now rewrite E1, E2. Qed.
  Lemma translate_mono : monomorphism lc lt translate.
  Proof.
    destruct (split_combine_ _ _ len_eq) as [K V]. fold translate in K, V. constructor.
    - unfold dkeys. rewrite K. apply Pc.
    - unfold dkeys. rewrite K, (pn_nodes _ _ _ _ _ Pc). intros x Hx. exact Hx.
    - rewrite V. apply Pt.
    - intros t. unfold dkeys. rewrite V, (pn_nodes _ _ _ _ _ Pt). reflexivity.
    - intros c t c' t' I I' N. destruct (translate_at _ _ I) as (p & p' & Hp & Hp' & <- & <- & E).
      destruct (translate_at _ _ I') as (q & q' & Hq & Hq' & <- & <- & E').
      unfold get_neighbors in *. apply in_map_iff in N as ([x y] & Ey & N). cbn [snd] in Ey. subst y.
      apply (pn_any _ _ _ _ _ Pt) in N as [[Ex|[]] (d & p1 & q1 & s & Hp1 & Hq1 & Hs & L1 & L2 & _ & Ps)]. subst x.
      apply (lab_eq _ _ _ _ _ Pt _ _ Hp1 Hp') in L1. apply (lab_eq _ _ _ _ _ Pt _ _ Hq1 Hq') in L2. subst p1 q1.
      apply in_map_iff. exists (pl_lab p, pl_lab q). split; [reflexivity|]. apply (pn_any _ _ _ _ _ Pc). split; [now left|].
      exists (dirn s), p, q, s. unfold pos in *. rewrite <- E, <- E'. auto 8.
  Qed.
  Lemma vector_all m c t : monomorphism lc lt m -> In (c, t) m -> exists v, vector lc lt (c, t) = Ok v.
  Proof.
    intros M I. assert (Ic : In c (map pl_lab pc)) by (rewrite <- (pn_nodes _ _ _ _ _ Pc); apply (mo_from _ _ _ M); exact (in_map fst _ _ I)).
    assert (It : In t (map pl_lab pt)) by (rewrite <- (pn_nodes _ _ _ _ _ Pt); apply (mo_onto _ _ _ M); exact (in_map snd _ _ I)).
    apply in_map_iff in Ic as (p & <- & Hp). apply in_map_iff in It as (p' & <- & Hp'). eexists.
    exact (vector_ok lc lt shifts dirn dirn' ptc ptt pc pt Pc Pt p p' Hp Hp').
  Qed.
  Lemma vector_translate ct : In ct translate -> vector lc lt ct = Ok (vsub ptt ptc).
  Proof.
    destruct ct as [c t]. intros I. destruct (translate_at _ _ I) as (p & p' & Hp & Hp' & <- & <- & E).
    rewrite (vector_ok lc lt shifts dirn dirn' ptc ptt pc pt Pc Pt p p' Hp Hp'). f_equal. unfold pos. rewrite E.
    unfold vsub, crd. cbn [fst snd]. f_equal; ring.
  Qed.
  Lemma parallel_all base m : (forall ct, In ct m -> exists v, vector lc lt ct = Ok v) -> exists b, all_parallel lc lt base m = Ok b /\
    ((forall ct, In ct m -> vector lc lt ct = Ok base) -> b = true).
  Proof.
    induction m as [|ct m IH]; intros H; cbn [all_parallel]; [eauto|]. destruct (H ct (or_introl eq_refl)) as [v Ev]. rewrite Ev. cbn [bind].
    destruct IH as (b & Eb & Hb); [intros x Hx; apply H; now right|]. destruct (eqb_spec v base) as [->|N].
    - exists b. split; [exact Eb|]. intros K. apply Hb. intros x Hx. apply K. now right.
    - exists false. split; [reflexivity|]. intros K. specialize (K ct (or_introl eq_refl)). congruence.
  Qed.
  Lemma choose_all : exists m, choose_mapping lc lt monos = Ok (Some m).
  Proof.
    destruct (Hall _ translate_mono) as (m0 & I0 & Pm0). unfold choose_mapping.
    assert (V0 : forall ct, In ct m0 -> vector lc lt ct = Ok (vsub ptt ptc)).
    { intros ct I. apply vector_translate. eapply Permutation_in; [apply Permutation_sym; exact Pm0|exact I]. }
    match goal with |- exists m, foldM ?f _ _ = _ => set (F := f) end.
    assert (G : forall ms acc, Forall (monomorphism lc lt) ms -> In m0 ms \/ acc <> None -> exists m, foldM F ms acc = Ok (Some m)).
    { induction ms as [|m ms IH]; intros acc Fm H; cbn [foldM].
      - destruct acc as [m|]; [eauto|]. destruct H as [[]|H]; congruence.
      - inversion Fm as [|? ? M Fm']; subst.
        assert (Nm : m <> []).
        { intros ->. destruct pt as [|p' r] eqn:Ep; [destruct pc; [congruence|discriminate]|].
          assert (K : In (pl_lab p') (map snd ([] : dict string string))).
          { apply (mo_onto _ _ _ M). unfold dkeys. rewrite (pn_nodes _ _ _ _ _ Pt). now left. }
          destruct K. }
        destruct m as [|ct m]; [congruence|]. destruct (vector_all _ (fst ct) (snd ct) M) as [base Eb]; [left; now destruct ct|].
        replace (fst ct, snd ct) with ct in Eb by (now destruct ct).
        destruct (parallel_all base (ct :: m)) as (b & Ep & Hb).
        { intros [x y] I. exact (vector_all _ _ _ M I). }
        assert (EF : F acc (ct :: m) = Ok (if b then Some (ct :: m) else acc)) by (unfold F; rewrite Eb; cbn [bind]; rewrite Ep; reflexivity).
        rewrite EF. cbn [bind]. apply IH; [exact Fm'|].
        destruct H as [[E|H]|H]; [right|now left|right; destruct b; [discriminate|exact H]].
        rewrite Hb; [discriminate|]. subst m0. assert (base = vsub ptt ptc) by (rewrite (V0 ct (or_introl eq_refl)) in Eb; now injection Eb). subst base. exact V0. }
    apply G; [exact Hmonos|now left].
  Qed.
  Lemma set_cnot_all : exists lc2 lt2, set_trans_cnot code monos lc lt = Ok (lc2, lt2).
  Proof.
    unfold set_trans_cnot. rewrite Hcc, Hct, Hdx, Hdz, !eqb_refl. cbn [negb orb]. rewrite Hov. cbn [bind].
    unfold cnot_label. rewrite (first_one _ _ Hgc), (first_one _ _ Hgt). cbn [bind].
    set (gate := ("trans-cnot_" ++ gc ++ "_" ++ gt)%string).
    assert (Ng : ~ In gate structure) by (unfold gate; cbn; intros [E|[E|[E|[E|[E|[E|[]]]]]]]; discriminate).
    destruct (Nat.eqb_spec (length monos) 0) as [E0|_].
    { destruct (Hall _ translate_mono) as (m0 & I0 & _). destruct monos; [destruct I0|discriminate]. }
    destruct choose_all as [m Em]. rewrite Em. cbn [bind of_opt]. apply choose_in in Em as [Im [base Hpar]].
    assert (Hm : monomorphism lc lt m) by (rewrite Forall_forall in Hmonos; now apply Hmonos).
    assert (Dc : get_role lc "data" = Ok (labs pc KD)) by apply Pc. assert (Dt : get_role lt "data" = Ok (labs pt KD)) by apply Pt.
    rewrite Dc, Dt. cbn [bind]. fold (inverse m).
    pose proof (fwd_at lc lt shifts dirn dirn' ptc ptt pc pt Pc Pt Hit m Hm base Hpar) as FA.
    pose proof (bwd_at lc lt shifts dirn dirn' ptc ptt pc pt Pc Pt Hit m Hm base Hpar) as BA.
    assert (Kc : forall k q, In q (labs pc k) -> In q (dkeys (l_nodes lc))).
    { intros k q I. apply labs_place in I as (p & Hp & _ & <-). unfold dkeys. rewrite (pn_nodes _ _ _ _ _ Pc). now apply in_map. }
    assert (Kt : forall k q, In q (labs pt k) -> In q (dkeys (l_nodes lt))).
    { intros k q I. apply labs_place in I as (p & Hp & _ & <-). unfold dkeys. rewrite (pn_nodes _ _ _ _ _ Pt). now apply in_map. }
    assert (Fc : forall k q, In q (labs pc k) -> exists b, dget_err q m = Ok b).
    { intros k q I. apply labs_place in I as (p & Hp & _ & <-). destruct (FA p Hp) as (p' & _ & _ & _ & D & _). exists (pl_lab p'). unfold dget_err. now rewrite D. }
    assert (Ft : forall k q, In q (labs pt k) -> exists b, dget_err q (inverse m) = Ok b).
    { intros k q I. apply labs_place in I as (p & Hp & _ & <-). destruct (BA p Hp) as (p' & _ & _ & _ & _ & D). exists (pl_lab p'). unfold dget_err. now rewrite D. }
    destruct (set_params_all gate (fun q => do b <- dget_err q m; Ok (PDict [("cnot", PStr b)])) (labs pc KD) lc) as [lc1 E1].
    { intros q I. split; [now apply (Kc KD)|]. destruct (Fc _ _ I) as [b ->]. cbn [bind]. eauto. }
    rewrite E1. cbn [bind].
    destruct (set_params_all gate (fun q => do b <- dget_err q (inverse m); Ok (PDict [("cnot", PStr b)])) (labs pt KD) lt) as [lt1 E2].
    { intros q I. split; [now apply (Kt KD)|]. destruct (Ft _ _ I) as [b ->]. cbn [bind]. eauto. }
    rewrite E2. cbn [bind].
    destruct (set_params_ok structure _ _ _ Ng _ _ E1) as (T1 & _ & _). destruct (set_params_ok structure _ _ _ Ng _ _ E2) as (T2 & _ & _).
    rewrite !(touched_stabs _ _ _ T1 (incl_refl _)), !(touched_stabs _ _ _ T2 (incl_refl _)),
            !(touched_role _ _ _ T1 (incl_refl _)), !(touched_role _ _ _ T2 (incl_refl _)).
    assert (Zc : get_stabs lc "z_type" = Ok (labs pc KZ)) by apply Pc. assert (Xc : get_stabs lc "x_type" = Ok (labs pc KX)) by apply Pc.
    assert (Zt : get_stabs lt "z_type" = Ok (labs pt KZ)) by apply Pt. assert (Xt : get_stabs lt "x_type" = Ok (labs pt KX)) by apply Pt.
    assert (Ac : get_role lc "anc" = Ok (ancs pc)) by apply Pc. assert (At : get_role lt "anc" = Ok (ancs pt)) by apply Pt.
    rewrite Zc, Xc, Zt, Xt, Ac, At. cbn [bind].
    destruct (foldM_all (fun (d : dict string (list string)) a => Ok (dset a [a] d)) (fun _ => True) (labs pc KZ) [] I) as (n1 & N1 & _); [eauto|].
    rewrite N1. cbn [bind].
    destruct (foldM_all (fun (d : dict string (list string)) a => do b <- dget_err a m; Ok (dset a [a; b] d)) (fun _ => True) (labs pc KX) n1 I) as (n2 & N2 & _).
    { intros d q Iq _. destruct (Fc _ _ Iq) as [b ->]. cbn [bind]. eauto. }
    rewrite N2. cbn [bind].
    destruct (foldM_all (fun (d : dict string (list string)) a => do b <- dget_err a (inverse m); Ok (dset a [a; b] d)) (fun _ => True) (labs pt KZ) n2 I) as (n3 & N3 & _).
    { intros d q Iq _. destruct (Ft _ _ Iq) as [b ->]. cbn [bind]. eauto. }
    rewrite N3. cbn [bind].
    destruct (foldM_all (fun (d : dict string (list string)) a => Ok (dset a [a] d)) (fun _ => True) (labs pt KX) n3 I) as (n4 & N4 & _); [eauto|].
    rewrite N4. cbn [bind].
    pose proof (alone_get _ _ _ N1) as G1. pose proof (paired_get _ _ _ _ N2) as G2. pose proof (paired_get _ _ _ _ N3) as G3. pose proof (alone_get _ _ _ N4) as G4.
    assert (V : forall q, (In q (labs pc KX) \/ In q (labs pc KZ)) \/ (In q (labs pt KX) \/ In q (labs pt KZ)) ->
      exists v, (do st <- dget_err q n4; Ok (new_stab_gen st)) = Ok v).
    { intros q Hq. unfold dget_err. rewrite G4, G3, G2, G1. rewrite <- !mem_In in Hq.
      destruct (mem q (labs pt KX)); cbn [of_opt bind]; [eauto|]. destruct (mem q (labs pt KZ)); cbn [of_opt bind]; [eauto|].
      destruct (mem q (labs pc KX)); cbn [of_opt bind]; [eauto|]. destruct (mem q (labs pc KZ)); cbn [of_opt bind]; [eauto|].
      destruct Hq as [[?|?]|[?|?]]; discriminate. }
    destruct (set_params_all gate (fun a => do st <- dget_err a n4; Ok (new_stab_gen st)) (ancs pc) lc1) as [lc2 E3].
    { intros q Iq. apply ancs_labs in Iq. rewrite (touched_keys _ _ _ T1). split; [destruct Iq as [K|K]; exact (Kc _ _ K)|]. apply V. now left. }
    rewrite E3. cbn [bind].
    destruct (set_params_all gate (fun a => do st <- dget_err a n4; Ok (new_stab_gen st)) (ancs pt) lt1) as [lt2 E4].
    { intros q Iq. apply ancs_labs in Iq. rewrite (touched_keys _ _ _ T2). split; [destruct Iq as [K|K]; exact (Kt _ _ K)|]. apply V. now right. }
    rewrite E4. cbn [bind]. eauto.
  Qed.
End Cnot.
