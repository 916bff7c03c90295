(** Proofs about the transversal gates, part 9: the mapping between two layouts on the
    same grid, and CNOT. *)
From Coq Require Import QArith Qcanon.
From Verif Require Import Base Lib StimM NoiseM DetM LayoutM SpecLayout LayoutP LayoutP2 SetupP GenM GenP SpecGen GeomP BlockM SpecTrack TrackP
  RoundP LiftP SpecLog LogM LogP LogP2 LogP3 LogP4 LogP5 LogP6 LogP7 LogP8.
Open Scope Z_scope.

Lemma inverse_get (m : dict string string) : NoDup (map snd m) -> NoDup (dkeys m) ->
  let inv := fold_left (fun d ct => dset (snd ct) (fst ct) d) m [] in
  forall c t, dget c m = Some t <-> dget t inv = Some c.
Proof.
  intros Nv Nk inv c t.
  assert (G : forall (m : dict string string) d, NoDup (map snd m) ->
    forall t, dget t (fold_left (fun d ct => dset (snd ct) (fst ct) d) m d) =
      match dget t (map (fun ct => (snd ct, fst ct)) m) with Some c => Some c | None => dget t d end).
  { clear. induction m as [|[c t] m IH]; intros d N x; [reflexivity|]. cbn [map snd fst] in N. inversion N as [|? ? Hn N']; subst.
    cbn [fold_left map dget fst snd]. rewrite IH by exact N'. rewrite dget_dset, (eqb_sym t x).
    destruct (eqb_spec x t) as [->|]; [|reflexivity].
    destruct (dget t (map (fun ct => (snd ct, fst ct)) m)) as [c'|] eqn:E; [|reflexivity]. exfalso. apply Hn.
    apply dget_In in E. apply in_map_iff in E as ([a b] & [= -> ->] & I). change t with (snd (c', t)). now apply in_map. }
  unfold inv. rewrite G by exact Nv. cbn [dget].
  assert (K : NoDup (dkeys (map (fun ct => (snd ct, fst ct)) m))).
  { unfold dkeys. rewrite map_map. exact Nv. }
  split.
  - intros E. apply dget_In in E. rewrite (In_dget t c) ; [reflexivity|exact K|]. apply in_map_iff. exists (c, t). auto.
  - intros E. destruct (dget t (map _ m)) as [c'|] eqn:E'; [|discriminate]. injection E as ->. apply dget_In in E'.
    apply in_map_iff in E' as ([a b] & [= -> ->] & I). now apply In_dget.
Qed.
Lemma not_overlapping lc lt : check_overlaps [lc; lt] = Ok tt -> forall q, In q (dkeys (l_nodes lc)) -> ~ In q (dkeys (l_nodes lt)).
Proof.
  cbn [check_overlaps mapM]. intros H. apply bind_ok in H as [u [H _]]. apply bind_ok in H as [v [H _]]. unfold check_overlap_pair in H.
  destruct (disjointb (dkeys (l_nodes lc)) (dkeys (l_nodes lt))) eqn:E; [|discriminate]. intros q Hq Hq'. unfold disjointb in E.
  rewrite forallb_forall in E. specialize (E q Hq). apply negb_true_iff in E. apply mem_In in Hq'. congruence.
Qed.

Section Cnot.
  Context (lc lt : layout) (shifts : list (Z * Z)) (dirn dirn' : Z * Z -> string) (ptc ptt : Qc * Qc) (pc pt : list placed).
  Hypothesis Pc : planar lc shifts dirn ptc pc.
  Hypothesis Pt : planar lt shifts dirn' ptt pt.
  Hypothesis Ns : NoDup shifts.
  Hypothesis Hit : map pl_item pc = map pl_item pt.
  Context (m : dict string string).
  Hypothesis Hm : monomorphism lc lt m.
  Context (base : vec).
  Hypothesis Hpar : forall ct, In ct m -> vector lc lt ct = Ok base.
  Lemma m_len : length m = length pc.
  Proof.
    assert (Permutation (map snd m) (map pl_lab pt)).
    { apply NoDup_Permutation; [apply Hm|apply Pt|]. intros x. rewrite (mo_onto _ _ _ Hm). unfold dkeys. now rewrite (pn_nodes _ _ _ _ _ Pt). }
    apply Permutation_length in H. rewrite !map_length in H. rewrite H. rewrite <- (map_length pl_item pc), Hit. symmetry. apply map_length.
  Qed.
  Lemma m_keys : Permutation (dkeys m) (map pl_lab pc).
  Proof.
    apply NoDup_Permutation_bis; [apply Hm| |].
    - unfold dkeys. rewrite !map_length, m_len. auto.
    - intros x Hx. rewrite <- (pn_nodes _ _ _ _ _ Pc). now apply (mo_from _ _ _ Hm).
  Qed.
  Lemma m_vals : Permutation (map snd m) (map pl_lab pt).
  Proof.
    apply NoDup_Permutation; [apply Hm|apply Pt|]. intros x. rewrite (mo_onto _ _ _ Hm). unfold dkeys. now rewrite (pn_nodes _ _ _ _ _ Pt).
  Qed.
  Definition place_at (ps : list placed) (q : string) : Z * Z :=
    match filter (fun p => eqb (pl_lab p) q) ps with p :: _ => pos p | [] => (0, 0) end.
  Lemma place_at_ok l sh dn pp ps p : planar l sh dn pp ps -> In p ps -> place_at ps (pl_lab p) = pos p.
  Proof.
    intros P Hp. unfold place_at. destruct (filter (fun p0 => eqb (pl_lab p0) (pl_lab p)) ps) as [|p0 r] eqn:E.
    - assert (I : In p (filter (fun p0 => eqb (pl_lab p0) (pl_lab p)) ps)) by (apply filter_In; split; [exact Hp|apply eqb_refl]).
      rewrite E in I. destruct I.
    - assert (I : In p0 (filter (fun p0 => eqb (pl_lab p0) (pl_lab p)) ps)) by (rewrite E; now left).
      apply filter_In in I as [Hp0 L]. apply eqb_true in L. now rewrite (lab_eq _ _ _ _ _ P _ _ Hp0 Hp L).
  Qed.
  Lemma vector_ok p p' : In p pc -> In p' pt -> vector lc lt (pl_lab p, pl_lab p') = Ok (vsub (crd ptt (pos p')) (crd ptc (pos p))).
  Proof.
    intros Hp Hp'. unfold vector. cbn [fst snd]. rewrite (get_coords_ok _ _ _ _ _ Pc p Hp), (get_coords_ok _ _ _ _ _ Pt p' Hp').
    reflexivity.
  Qed.
  Lemma m_places c t : In (c, t) m -> exists p p', In p pc /\ In p' pt /\ pl_lab p = c /\ pl_lab p' = t /\
    base = vsub (crd ptt (pos p')) (crd ptc (pos p)).
  Proof.
    intros I. assert (Ic : In c (map pl_lab pc)) by (eapply Permutation_in; [apply m_keys|]; exact (in_map fst _ _ I)).
    assert (It : In t (map pl_lab pt)) by (eapply Permutation_in; [apply m_vals|]; exact (in_map snd _ _ I)).
    apply in_map_iff in Ic as (p & <- & Hp). apply in_map_iff in It as (p' & <- & Hp'). exists p, p'. do 2 (split; [assumption|]).
    do 2 (split; [reflexivity|]). pose proof (Hpar _ I) as V. rewrite vector_ok in V by assumption. now injection V as <-.
  Qed.
  (* one coordinate of the common vector *)
  Lemma base_coord (pr : vec -> Qc) (pz : Z * Z -> Z) :
    (forall x rc, pr (crd x rc) = (zq (pz rc) + pr x)%Qc) -> (forall x y, pr (vsub x y) = (pr x - pr y)%Qc) -> m <> [] ->
    pr base = (pr ptt - pr ptc)%Qc.
  Proof.
    intros Hc Hs Ne.
    set (ft := fun q => (zq (pz (place_at pt q)) + pr ptt)%Qc). set (fc := fun q => (zq (pz (place_at pc q)) + pr ptc)%Qc).
    assert (E : map (fun ct : string * string => (ft (snd ct) - fc (fst ct))%Qc) m = map (fun _ => pr base) m).
    { apply map_ext_in. intros [c t] I. destruct (m_places c t I) as (p & p' & Hp & Hp' & <- & <- & B). cbn [fst snd]. unfold ft, fc.
      rewrite (place_at_ok _ _ _ _ _ _ Pc Hp), (place_at_ok _ _ _ _ _ _ Pt Hp'), B, Hs, !Hc. reflexivity. }
    apply (f_equal qsum) in E. rewrite qsum_sub, qsum_const in E.
    assert (S1 : qsum (map (fun ct : string * string => ft (snd ct)) m) = (qsum (map (fun p => zq (pz (pos p))) pt) + zq (Z.of_nat (length m)) * pr ptt)%Qc).
    { rewrite <- (map_map snd ft). rewrite (qsum_perm _ _ (Permutation_map ft m_vals)), map_map.
      replace (length m) with (length pt). 2: { rewrite m_len, <- (map_length pl_item pt), <- Hit. apply map_length. }
      rewrite <- qsum_add. f_equal. apply map_ext_in. intros p Hp. unfold ft. now rewrite (place_at_ok _ _ _ _ _ _ Pt Hp). }
    assert (S2 : qsum (map (fun ct : string * string => fc (fst ct)) m) = (qsum (map (fun p => zq (pz (pos p))) pc) + zq (Z.of_nat (length m)) * pr ptc)%Qc).
    { rewrite <- (map_map fst fc). change (map fst m) with (dkeys m). rewrite (qsum_perm _ _ (Permutation_map fc m_keys)), map_map, m_len.
      rewrite <- qsum_add. f_equal. apply map_ext_in. intros p Hp. unfold fc. now rewrite (place_at_ok _ _ _ _ _ _ Pc Hp). }
    assert (S3 : map (fun p => zq (pz (pos p))) pc = map (fun p => zq (pz (pos p))) pt).
    { unfold pos. rewrite <- (map_map pl_item (fun i => zq (pz (it_pos i))) pc), <- (map_map pl_item (fun i => zq (pz (it_pos i))) pt). now rewrite Hit. }
    rewrite S1, S2, S3 in E.
    assert (N : zq (Z.of_nat (length m)) <> 0%Qc).
    { change 0%Qc with (zq 0). intros K. apply zq_inj in K. destruct m; [congruence|discriminate]. }
    assert (E' : (zq (Z.of_nat (length m)) * pr base = zq (Z.of_nat (length m)) * (pr ptt - pr ptc))%Qc) by (rewrite <- E; ring).
    apply (f_equal (fun x => (x / zq (Z.of_nat (length m)))%Qc)) in E'.
    transitivity ((zq (Z.of_nat (length m)) * pr base / zq (Z.of_nat (length m)))%Qc); [field; exact N|]. rewrite E'. field. exact N.
  Qed.
  Lemma m_pos c t : In (c, t) m -> exists p p', In p pc /\ In p' pt /\ pl_lab p = c /\ pl_lab p' = t /\ pos p' = pos p.
  Proof.
    intros I. destruct (m_places c t I) as (p & p' & Hp & Hp' & Lp & Lp' & B). exists p, p'. do 4 (split; [assumption|]).
    assert (Ne : m <> []) by (intros ->; destruct I).
    pose proof (base_coord fst fst (fun x rc => eq_refl) (fun x y => eq_refl) Ne) as B1.
    pose proof (base_coord snd snd (fun x rc => eq_refl) (fun x y => eq_refl) Ne) as B2.
    rewrite B in B1, B2. unfold vsub, crd in B1, B2. cbn [fst snd] in B1, B2.
    assert (Q : forall x y u v : Qc, (x + u - (y + v))%Qc = (u - v)%Qc -> x = y).
    { intros x y u v K. apply (f_equal (fun w => (w + y + v - u)%Qc)) in K. ring_simplify in K. exact K. }
    apply Q in B1, B2. apply zq_inj in B1, B2. destruct (pos p), (pos p'). cbn [fst snd] in *. congruence.
  Qed.
  Lemma same_knd p p' : In p pc -> In p' pt -> pos p' = pos p -> knd p' = knd p.
  Proof.
    intros Hp Hp' E. assert (I : In (pl_item p) (map pl_item pt)) by (rewrite <- Hit; now apply in_map).
    apply in_map_iff in I as (p2 & E2 & Hp2). assert (pos p2 = pos p) by (unfold pos; now rewrite E2).
    assert (p2 = p') by (apply (pos_eq _ _ _ _ _ Pt); congruence). subst p2. unfold knd. now rewrite E2.
  Qed.
  Definition inverse : dict string string := fold_left (fun d ct => dset (snd ct) (fst ct) d) m [].
  Definition fwd (q : string) : string := odef q (dget q m).
  Definition bwd (q : string) : string := odef q (dget q inverse).
  Lemma fwd_at p : In p pc -> exists p', In p' pt /\ pos p' = pos p /\ knd p' = knd p /\ dget (pl_lab p) m = Some (pl_lab p') /\
    dget (pl_lab p') inverse = Some (pl_lab p).
  Proof.
    intros Hp. assert (I : In (pl_lab p) (dkeys m)) by (eapply Permutation_in; [symmetry; apply m_keys|]; now apply in_map).
    destruct (key_dget _ _ I) as [t Et]. pose proof Et as Et'. apply dget_In in Et'.
    destruct (m_pos _ _ Et') as (q & p' & Hq & Hp' & Lq & <- & E). apply (lab_eq _ _ _ _ _ Pc _ _ Hq Hp) in Lq. subst q.
    exists p'. do 2 (split; [assumption|]). split; [now apply same_knd|]. split; [exact Et|].
    apply (inverse_get m (mo_values _ _ _ Hm) (mo_keys _ _ _ Hm)). exact Et.
  Qed.
  Lemma bwd_at p' : In p' pt -> exists p, In p pc /\ pos p' = pos p /\ knd p' = knd p /\ dget (pl_lab p) m = Some (pl_lab p') /\
    dget (pl_lab p') inverse = Some (pl_lab p).
  Proof.
    intros Hp'. assert (I : In (pl_lab p') (map snd m)) by (eapply Permutation_in; [symmetry; apply m_vals|]; now apply in_map).
    apply in_map_iff in I as ([c t] & E & I). cbn [snd] in E. subst t.
    destruct (m_pos _ _ I) as (p & q & Hp & Hq & <- & Lq & E). apply (lab_eq _ _ _ _ _ Pt _ _ Hq Hp') in Lq. subst q.
    apply (In_dget _ _ _ (mo_keys _ _ _ Hm)) in I.
    exists p. do 2 (split; [assumption|]). split; [now apply same_knd|]. split; [exact I|].
    apply (inverse_get m (mo_values _ _ _ Hm) (mo_keys _ _ _ Hm)). exact I.
  Qed.
  Lemma sup_pair x x' y y' : In x pc -> In x' pt -> In y pc -> In y' pt -> pos x' = pos x -> pos y' = pos y ->
    mem (pl_lab y) (support lc (pl_lab x)) = mem (pl_lab y') (support lt (pl_lab x')).
  Proof.
    intros Hx Hx' Hy Hy' Ex Ey. apply eq_true_iff_eq. rewrite !mem_In, (support_mem _ _ _ _ _ Pc Ns x _ Hx), (support_mem _ _ _ _ _ Pt Ns x' _ Hx'). split.
    - intros (q & s & Hq & Hs & L & E). apply (lab_eq _ _ _ _ _ Pc _ _ Hq Hy) in L. subst q. exists y', s. rewrite Ex, Ey. auto.
    - intros (q & s & Hq & Hs & L & E). apply (lab_eq _ _ _ _ _ Pt _ _ Hq Hy') in L. subst q. exists y, s. rewrite <- Ex, <- Ey. auto.
  Qed.
End Cnot.
