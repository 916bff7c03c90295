(** Proofs about the transversal gates, part 5: coordinates and the folding line in a
    layout whose qubits are on a grid. *)
From Coq Require Import QArith Qcanon.
From Verif Require Import Base Lib StimM NoiseM LayoutM SpecLayout LayoutP LayoutP2 GenM GenP SpecGen GeomP BlockM SpecTrack TrackP
  LogM.
Open Scope Z_scope.

Lemma strict_one q (K : list string) : In q K -> strict_superset [q] K = false.
Proof.
  intros H. unfold strict_superset. apply andb_false_iff. right. apply negb_false_iff. apply forallb_forall.
  intros x [<-|[]]. now apply mem_In.
Qed.
Section Grid.
  Context (l : layout) (shifts : list (Z * Z)) (dirn : Z * Z -> string) (pt : Qc * Qc) (ps : list placed).
  Hypothesis P : planar l shifts dirn pt ps.
  Definition crd (rc : Z * Z) : vec := ((zq (fst rc) + fst pt)%Qc, (zq (snd rc) + snd pt)%Qc).
  Definition vz (rc : Z * Z) : vec := (zq (fst rc), zq (snd rc)).
  Definition labat (rc : Z * Z) : option string := match at_pos ps rc with p :: _ => Some (pl_lab p) | [] => None end.
  Lemma crd_inj a b : crd a = crd b -> a = b.
  Proof.
    destruct a, b. unfold crd. cbn [fst snd]. intros E. pose proof (f_equal fst E) as E1. pose proof (f_equal snd E) as E2. cbn [fst snd] in E1, E2.
    apply Qc_add_cancel in E1, E2. apply zq_inj in E1, E2. congruence.
  Qed.
  Lemma labat_some rc q : labat rc = Some q <-> exists p, In p ps /\ pos p = rc /\ pl_lab p = q.
  Proof.
    unfold labat. split.
    - destruct (at_pos ps rc) as [|p r] eqn:E; [discriminate|]. intros [= <-]. assert (H : In p (at_pos ps rc)) by (rewrite E; now left).
      apply filter_In in H as [Hp Ep]. apply eqb_true in Ep. eauto.
    - intros (p & Hp & <- & <-). rewrite (at_pos_one ps p (pn_npos _ _ _ _ _ P) Hp). reflexivity.
  Qed.
  Lemma labat_none rc : labat rc = None <-> forall p, In p ps -> pos p <> rc.
  Proof.
    split.
    - intros E p Hp Ep. assert (labat rc = Some (pl_lab p)) by (apply labat_some; eauto). congruence.
    - intros H. destruct (labat rc) as [q|] eqn:E; [|reflexivity]. apply labat_some in E as (p & Hp & Ep & _). destruct (H p Hp Ep).
  Qed.
  Lemma node_keys : NoDup (dkeys (l_nodes l)).
  Proof. change (NoDup (map fst (l_nodes l))). rewrite (pn_nodes _ _ _ _ _ P). apply (pn_nlab _ _ _ _ _ P). Qed.
  Lemma node_coord q a : In (q, a) (l_nodes l) -> exists p, In p ps /\ pl_lab p = q /\
    dget "coords" a = Some (PList [PNum (fst (crd (pos p))); PNum (snd (crd (pos p)))]).
  Proof.
    intros H. assert (Hq : In q (map pl_lab ps)).
    { rewrite <- (pn_nodes _ _ _ _ _ P). apply (in_map fst) in H. exact H. }
    apply in_map_iff in Hq as (p & <- & Hp). exists p. split; [exact Hp|]. split; [reflexivity|].
    pose proof (pn_coord _ _ _ _ _ P p Hp) as C. unfold has_coord, lparam, dget_err in C.
    rewrite (In_dget _ _ _ node_keys H) in C. cbn [of_opt bind map] in C.
    destruct (dget "coords" a) as [v|]; cbn [odef] in C; [|discriminate]. injection C as ->. reflexivity.
  Qed.
  Lemma table_ok : exists tab, label_table l = Ok tab /\ forall rc, dget (crd rc) tab = labat rc.
  Proof.
    unfold label_table.
    assert (G : forall ns d, incl ns (l_nodes l) -> exists tab,
      foldM (fun d qa => do v <- dget_err "coords" (snd qa); do c <- as_vec v; Ok (dset c (fst qa) d)) ns d = Ok tab /\
      forall rc, dget (crd rc) tab = match labat rc with Some q => if mem q (map fst ns) then Some q else dget (crd rc) d | None => dget (crd rc) d end).
    { induction ns as [|[q a] ns IH]; intros d I; cbn [foldM].
      - exists d. split; [reflexivity|]. intros rc. now destruct (labat rc).
      - destruct (node_coord q a (I _ (or_introl eq_refl))) as (p & Hp & Lp & E). cbn [snd fst]. unfold dget_err at 1. rewrite E.
        cbn [of_opt bind as_vec as_num_list mapM].
        destruct (IH (dset (fst (crd (pos p)), snd (crd (pos p))) q d)) as (tab & Et & Ht); [intros x Hx; apply I; now right|].
        exists tab. split; [exact Et|]. intros rc. rewrite Ht. cbn [map fst]. rewrite dget_dset.
        change (fst (crd (pos p)), snd (crd (pos p))) with (crd (pos p)).
        destruct (eqb_spec (crd (pos p)) (crd rc)) as [Ec|Nc].
        + apply crd_inj in Ec. assert (Er : labat rc = Some q) by (apply labat_some; eauto). rewrite Er, mem_cons, eqb_refl. cbn [orb].
          now destruct (mem q (map fst ns)).
        + destruct (labat rc) as [q'|] eqn:Er; [|reflexivity]. rewrite mem_cons. destruct (eqb_spec q' q) as [->|]; [|reflexivity].
          exfalso. apply labat_some in Er as (p' & Hp' & Ep' & Lp'). rewrite <- Lp in Lp'. apply (lab_eq _ _ _ _ _ P _ _ Hp' Hp) in Lp'. congruence. }
    destruct (G (l_nodes l) [] (incl_refl _)) as (tab & Et & Ht). exists tab. split; [exact Et|]. intros rc. rewrite Ht.
    destruct (labat rc) as [q|] eqn:E; [|reflexivity]. apply labat_some in E as (p & Hp & _ & <-).
    rewrite (proj2 (mem_In (pl_lab p) _)); [reflexivity|]. rewrite (pn_nodes _ _ _ _ _ P). now apply in_map.
  Qed.
  Lemma table_any tab k q : label_table l = Ok tab -> dget k tab = Some q -> exists p, In p ps /\ pl_lab p = q /\ k = crd (pos p).
  Proof.
    unfold label_table.
    assert (G : forall ns d, incl ns (l_nodes l) ->
      foldM (fun d qa => do v <- dget_err "coords" (snd qa); do c <- as_vec v; Ok (dset c (fst qa) d)) ns d = Ok tab ->
      dget k tab = Some q -> dget k d = Some q \/ exists p, In p ps /\ pl_lab p = q /\ k = crd (pos p)).
    { induction ns as [|[q' a] ns IH]; intros d I F E; cbn [foldM] in F; [injection F as ->; now left|].
      destruct (node_coord q' a (I _ (or_introl eq_refl))) as (p & Hp & Lp & Ea). cbn [snd fst] in F. unfold dget_err at 1 in F. rewrite Ea in F.
      cbn [of_opt bind as_vec as_num_list mapM] in F. destruct (IH _ (fun x Hx => I x (or_intror Hx)) F E) as [H|H]; [|now right].
      rewrite dget_dset in H. change (fst (crd (pos p)), snd (crd (pos p))) with (crd (pos p)) in H.
      destruct (eqb_spec (crd (pos p)) k) as [<-|]; [|now left]. injection H as ->. right. eauto. }
    intros F E. destruct (G _ [] (incl_refl _) F E) as [H|H]; [discriminate|exact H].
  Qed.
  Lemma coords_of_ok p : In p ps -> coords_of l (pl_lab p) = Ok (crd (pos p)).
  Proof. intros Hp. unfold coords_of. rewrite (pn_coord _ _ _ _ _ P p Hp). reflexivity. Qed.
  Lemma get_coords_ok p : In p ps -> get_coords l [pl_lab p] = Ok [PList [PNum (fst (crd (pos p))); PNum (snd (crd (pos p)))]].
  Proof.
    intros Hp. unfold get_coords. pose proof (coords_attr l (pl_lab p) node_keys) as A.
    assert (In (pl_lab p) (dkeys (l_nodes l))).
    { change (In (pl_lab p) (map fst (l_nodes l))). rewrite (pn_nodes _ _ _ _ _ P). now apply in_map. }
    destruct (key_dget _ _ H) as [a Ea]. pose proof (dget_In _ _ _ Ea) as Ha.
    destruct (node_coord _ _ Ha) as (p' & Hp' & Lp & E). apply (lab_eq _ _ _ _ _ P _ _ Hp' Hp) in Lp. subst p'.
    rewrite Ea, E in A. rewrite strict_one by (eapply dget_Some_key; exact A). cbn [mapM]. unfold dget_err. rewrite A. reflexivity.
  Qed.
  Lemma vz_sub a b : vsub (crd a) (crd b) = vz (fst a - fst b, snd a - snd b).
  Proof.
    unfold vsub, crd, vz. cbn [fst snd]. f_equal.
    - replace (fst a) with ((fst a - fst b) + fst b) at 1 by lia. rewrite zq_add. ring.
    - replace (snd a) with ((snd a - snd b) + snd b) at 1 by lia. rewrite zq_add. ring.
  Qed.
  Lemma vadd_crd a b : vadd (crd a) (vz b) = crd (padd a b).
  Proof. unfold vadd, crd, vz, padd. cbn [fst snd]. rewrite !zq_add. f_equal; ring. Qed.
  Lemma vadd_vz a b : vadd (vz a) (vz b) = vz (padd a b).
  Proof. unfold vadd, vz, padd. cbn [fst snd]. now rewrite !zq_add. Qed.
  Lemma zq_mul a b : zq (a * b) = (zq a * zq b)%Qc.
  Proof. unfold zq, Qcmult. apply Q2Qc_eq_iff. cbn [this Q2Qc]. rewrite inject_Z_mult, !Qred_correct. reflexivity. Qed.
  Lemma natq_zq n : natq n = zq (Z.of_nat n).
  Proof. reflexivity. Qed.
  Definition pscale (k : Z) (a : Z * Z) : Z * Z := (k * fst a, k * snd a).
  Lemma vscale_vz n a : vscale (natq n) (vz a) = vz (pscale (Z.of_nat n) a).
  Proof. unfold vscale, vz, pscale. cbn [fst snd]. now rewrite !zq_mul. Qed.
  Lemma zq_opp a : zq (- a) = (- zq a)%Qc.
  Proof. unfold zq, Qcopp. apply Q2Qc_eq_iff. cbn [this Q2Qc]. rewrite inject_Z_opp, Qred_correct. reflexivity. Qed.

  Lemma first_nbr_ok p row stabs d q : In p ps -> lparam l "neighbors" (pl_lab p) = Ok (PDict row) -> first_nbr row stabs = Ok (d, q) ->
    In q stabs /\ next dirn shifts ps (pl_lab p) d q.
  Proof.
    intros Hp L H. destruct (pn_nbrs _ _ _ _ _ P p Hp) as (row' & L' & K). rewrite L in L'. injection L' as <-.
    unfold first_nbr in H. destruct (flat_map _ row) as [|x r] eqn:E; [discriminate|]. injection H as ->.
    assert (I : In (d, q) (flat_map (fun dq => match snd dq with PStr q => if mem q stabs then [(fst dq, q)] else [] | _ => [] end) row)).
    { rewrite E. now left. }
    apply in_flat_map in I as ([d' v] & Hv & I). cbn [fst snd] in I. destruct v; try destruct I.
    destruct (mem s stabs) eqn:M; [|destruct I]. destruct I as [[= <- <-]|[]]. split; [now apply mem_In|]. now apply K.
  Qed.
  Lemma fold_line_ok d ax c h : In d ps -> fold_line l (pl_lab d) = Ok (ax, c, h) ->
    exists pa pz ph s1 s2, In pa ps /\ In pz ps /\ In ph ps /\ In s1 shifts /\ In s2 shifts /\
      knd pa = KX /\ knd pz = KZ /\ pl_lab pa = ax /\ pos pa = padd (pos d) s1 /\ pos pz = padd (pos d) s2 /\
      pos ph = padd (pos pa) s2 /\ c = crd (pos d) /\ h = vz (padd s1 s2).
  Proof.
    intros Hd H. unfold fold_line in H. rewrite (pn_x _ _ _ _ _ P), (pn_z _ _ _ _ _ P) in H. cbn [bind] in H.
    destruct (pn_nbrs _ _ _ _ _ P d Hd) as (row & L & K). rewrite L in H. cbn [bind] in H.
    apply bind_ok in H as [[d1 a1] [F1 H]]. apply bind_ok in H as [[d2 a2] [F2 H]].
    apply bind_ok in H as [hq [Fh H]]. apply bind_ok in H as [ch [Fc H]]. rewrite (coords_of_ok d Hd) in H. cbn [bind] in H. injection H as <- <- <-.
    destruct (first_nbr_ok _ _ _ _ _ Hd L F1) as [I1 (p1 & pa & s1 & Hp1 & Hpa & Hs1 & L1 & La & D1 & E1)].
    destruct (first_nbr_ok _ _ _ _ _ Hd L F2) as [I2 (p2 & pz & s2 & Hp2 & Hpz & Hs2 & L2 & Lz & D2 & E2)].
    apply (lab_eq _ _ _ _ _ P _ _ Hp1 Hd) in L1. apply (lab_eq _ _ _ _ _ P _ _ Hp2 Hd) in L2. subst p1 p2.
    destruct (get_neighbors l [a1] (Some d2)) as [|hq' r] eqn:Eh; [discriminate|]. injection Fh as ->.
    assert (Ih : In hq (get_neighbors l [a1] (Some d2))) by (rewrite Eh; now left).
    unfold get_neighbors in Ih. apply in_map_iff in Ih as ([x y] & Ey & Ih). cbn in Ey. subst y.
    apply (pn_dir _ _ _ _ _ P) in Ih as [[<-|[]] (p3 & ph & s3 & Hp3 & Hph & Hs3 & L3 & Lh & D3 & E3)].
    assert (s3 = s2) by (apply (pn_dinj _ _ _ _ _ P); auto; congruence). subst s3.
    rewrite <- La in L3. apply (lab_eq _ _ _ _ _ P _ _ Hp3 Hpa) in L3. subst p3.
    rewrite <- Lh, (coords_of_ok ph Hph) in Fc. injection Fc as <-.
    exists pa, pz, ph, s1, s2. do 5 (split; [assumption|]).
    split; [|split]; [| |split; [exact La|do 4 (split; [first [assumption|reflexivity]|])]].
    - rewrite <- La in I1. apply in_map_iff in I1 as (p' & Ep' & I1). apply filter_In in I1 as [I1 K1].
      apply (lab_eq _ _ _ _ _ P _ _ I1 Hpa) in Ep'. subst p'. unfold isk in K1. destruct (knd pa); congruence || discriminate.
    - rewrite <- Lz in I2. apply in_map_iff in I2 as (p' & Ep' & I2). apply filter_In in I2 as [I2 K2].
      apply (lab_eq _ _ _ _ _ P _ _ I2 Hpz) in Ep'. subst p'. unfold isk in K2. destruct (knd pz); congruence || discriminate.
    - rewrite vz_sub, E3, E1. f_equal. unfold padd. cbn [fst snd]. f_equal; lia.
  Qed.
  Lemma data_place q : forall data, get_role l "data" = Ok data -> In q data <-> exists p, In p ps /\ knd p = KD /\ pl_lab p = q.
  Proof.
    intros data E. rewrite (pn_data _ _ _ _ _ P) in E. injection E as <-. rewrite in_map_iff. split.
    - intros (p & <- & H). apply filter_In in H as [Hp K]. exists p. split; [exact Hp|]. split; [|reflexivity]. unfold isk in K. destruct (knd p); congruence.
    - intros (p & Hp & K & <-). exists p. split; [reflexivity|]. apply filter_In. split; [exact Hp|]. unfold isk. now rewrite K.
  Qed.
End Grid.
