(** Proofs about the transversal gates, part 6: S and H of the unrotated code. *)
From Coq Require Import QArith Qcanon.
From Verif Require Import Base Lib StimM NoiseM DetM LayoutM SpecLayout LayoutP LayoutP2 GenM GenP SpecGen GeomP BlockM SpecTrack TrackP
  RoundP UnrotP LiftP SpecLog LogM LogP LogP2 LogP3 LogP4 LogP5.
Open Scope Z_scope.

(** * What the general theorem about S needs, for a layout on a grid *)
Section Planar.
  Context (l : layout) (shifts : list (Z * Z)) (dirn : Z * Z -> string) (pt : Qc * Qc) (ps : list placed).
  Hypothesis P : planar l shifts dirn pt ps.
  Hypothesis Ns : NoDup shifts.
  Lemma labs_place k q : In q (labs ps k) <-> exists p, In p ps /\ knd p = k /\ pl_lab p = q.
  Proof.
    unfold labs. rewrite in_map_iff. split.
    - intros (p & <- & H). apply filter_In in H as [Hp K]. exists p. split; [exact Hp|]. split; [|reflexivity].
      unfold isk in K. destruct k, (knd p); congruence.
    - intros (p & Hp & <- & <-). exists p. split; [reflexivity|]. apply filter_In. split; [exact Hp|]. unfold isk. now destruct (knd p).
  Qed.
  Lemma labs_disj k k' q : k <> k' -> In q (labs ps k) -> ~ In q (labs ps k').
  Proof.
    intros N H H'. apply labs_place in H as (p & Hp & K & L). apply labs_place in H' as (p' & Hp' & K' & L').
    rewrite <- L in L'. apply (lab_eq _ _ _ _ _ P _ _ Hp' Hp) in L'. congruence.
  Qed.
  Lemma ancs_labs q : In q (ancs ps) <-> In q (labs ps KX) \/ In q (labs ps KZ).
  Proof.
    rewrite !labs_place. split.
    - intros H. apply anc_place in H as (p & Hp & K & L). destruct (knd p) eqn:E; [tauto| |]; [left|right]; eauto.
    - intros H. assert (exists p, In p ps /\ knd p <> KD /\ pl_lab p = q) as (p & Hp & K & <-).
      { destruct H as [(p & Hp & K & L)|(p & Hp & K & L)]; exists p; (split; [exact Hp|]); (split; [congruence|exact L]). }
      unfold ancs. apply in_map. apply filter_In. split; [exact Hp|]. unfold isanc. destruct (knd p) eqn:E; congruence || reflexivity.
  Qed.
  Lemma data_ancs q : In q (labs ps KD) -> ~ In q (ancs ps).
  Proof. intros H K. apply ancs_labs in K as [K|K]; revert K; (apply (labs_disj KD); [discriminate|exact H]). Qed.
  Lemma support_ok a : In a (ancs ps) -> NoDup (support l a) /\ incl (support l a) (labs ps KD).
  Proof.
    intros H. apply anc_place in H as (p & Hp & K & <-). split; [now apply (support_nodup _ _ _ _ _ P Ns)|].
    intros b Hb. apply (support_mem _ _ _ _ _ P Ns) in Hb as (q & s & Hq & Hs & <- & E); [|exact Hp]. apply labs_place.
    exists q. split; [exact Hq|]. split; [|reflexivity].
    pose proof (pn_par _ _ _ _ _ P p q s Hp Hq Hs E) as R. destruct (knd q) eqn:Eq; [reflexivity| |]; exfalso; apply K, R; congruence.
  Qed.
End Planar.

(** * Reflections in a diagonal *)
Section Reflect.
  Context (pt : Qc * Qc) (c e : Z * Z).
  Hypothesis He1 : fst e = 1 \/ fst e = -1.
  Hypothesis He2 : snd e = 1 \/ snd e = -1.
  Definition mirror (rc : Z * Z) : Z * Z :=
    (fst c + fst e * snd e * (snd rc - snd c), snd c + fst e * snd e * (fst rc - fst c)).
  Lemma eps : fst e * snd e = 1 \/ fst e * snd e = -1.
  Proof. destruct He1 as [-> | ->], He2 as [-> | ->]; auto. Qed.
  Lemma mirror_inv rc : mirror (mirror rc) = rc.
  Proof. unfold mirror. cbn [fst snd]. destruct rc as [r k]. cbn [fst snd]. destruct eps as [-> | ->]; f_equal; lia. Qed.
  Lemma mirror_fixed k : mirror (padd c (pscale k e)) = padd c (pscale k e).
  Proof.
    unfold mirror, padd, pscale. cbn [fst snd]. destruct He1 as [-> | ->], He2 as [-> | ->]; f_equal; lia.
  Qed.
  Definition mshift (s : Z * Z) : Z * Z := (fst e * snd e * snd s, fst e * snd e * fst s).
  Lemma mirror_add rc s : mirror (padd rc s) = padd (mirror rc) (mshift s).
  Proof. unfold mirror, padd, mshift. cbn [fst snd]. f_equal; lia. Qed.
  Lemma mshift_in s : In s unrot_shifts -> In (mshift s) unrot_shifts.
  Proof. rewrite !In_unrot_shifts. unfold mshift. cbn [fst snd]. destruct eps as [-> | ->]; lia. Qed.
  Lemma reflection_ok x : reflection (crd pt x) (crd pt c) (vz e) = Ok (crd pt (mirror x)).
  Proof.
    unfold reflection.
    assert (D : vdot (vz e) (vz e) = zq 2).
    { unfold vdot, vz. cbn [fst snd]. rewrite <- !zq_mul, <- zq_add. f_equal. destruct He1 as [-> | ->], He2 as [-> | ->]; reflexivity. }
    rewrite D. replace (eqb (zq 2) 0%Qc) with false by reflexivity. f_equal.
    rewrite vz_sub. set (a := fst x - fst c). set (b := snd x - snd c).
    assert (Dy : vdot (vz (a, b)) (vz e) = zq (a * fst e + b * snd e)).
    { unfold vdot, vz. cbn [fst snd]. now rewrite zq_add, !zq_mul. }
    rewrite Dy.
    replace (Q2Qc 2 * zq (a * fst e + b * snd e) / zq 2)%Qc with (zq (a * fst e + b * snd e)).
    2: { change (Q2Qc 2) with (zq 2). field. discriminate. }
    unfold vsub, vadd, vscale, vz, crd, mirror. cbn [fst snd]. fold a b.
    replace (zq a) with (zq (a * (fst e * fst e))) by (f_equal; destruct He1 as [-> | ->]; lia).
    replace (zq b) with (zq (b * (snd e * snd e))) by (f_equal; destruct He2 as [-> | ->]; lia).
    rewrite !zq_add, !zq_mul. f_equal; ring.
  Qed.
End Reflect.

Section Unrot.
  Context (a : gen_args) (l : layout).
  Notation ps := (unrot_ps a).
  Notation pt := (ga_pt a).
  Hypothesis P : planar l unrot_shifts unrot_dirn pt ps.
  Context (c e : Z * Z).
  Hypothesis He1 : fst e = 1 \/ fst e = -1.
  Hypothesis He2 : snd e = 1 \/ snd e = -1.
  Hypothesis Hc : ukind c = KD.
  Context (tab : dict vec string).
  Hypothesis Htab : label_table l = Ok tab.
  Notation R := (mirror c e).
  Lemma mirror_kind rc : ukind (R rc) = match ukind rc with KD => KD | KX => KZ | KZ => KX end.
  Proof.
    pose proof (ukind_spec c) as Sc. rewrite Hc in Sc. pose proof (ukind_spec rc) as Sr. unfold mirror.
    destruct (eps e He1 He2) as [-> | ->], (ukind rc); first [apply ukind_D|apply ukind_X|apply ukind_Z]; cbn [fst snd]; lia.
  Qed.
  Lemma reflected_ok l1 p b : touched structure l l1 -> In p ps -> reflected l1 tab (crd pt c) (vz e) (pl_lab p) = Ok b ->
    exists p', In p' ps /\ pl_lab p' = b /\ pos p' = R (pos p) /\ knd p' = match knd p with KD => KD | KX => KZ | KZ => KX end.
  Proof.
    intros T Hp H. assert (P1 : planar l1 unrot_shifts unrot_dirn pt ps) by (apply (touched_planar _ _ _ T (incl_refl _)); exact P).
    unfold reflected in H. rewrite (get_coords_ok _ _ _ _ _ P1 p Hp) in H. cbn [bind as_vec as_num_list mapM] in H.
    change (fst (crd pt (pos p)), snd (crd pt (pos p))) with (crd pt (pos p)) in H.
    rewrite (reflection_ok pt c e He1 He2) in H. cbn [bind] in H. unfold dget_err in H.
    destruct (dget _ tab) as [b'|] eqn:E; [|discriminate]. injection H as ->.
    destruct (table_ok _ _ _ _ _ P) as (tab' & Et & Ht). rewrite Htab in Et. injection Et as <-. rewrite Ht in E.
    apply (labat_some _ _ _ _ _ P) in E as (p' & Hp' & Ep' & L). exists p'. split; [exact Hp'|]. split; [exact L|]. split; [exact Ep'|].
    destruct (ups_pos _ _ Hp') as [_ ->]. destruct (ups_pos _ _ Hp) as [_ ->]. rewrite Ep'. apply mirror_kind.
  Qed.
  Lemma partners_get data cz : partners l tab (crd pt c) (vz e) data = Ok cz ->
    (forall q, In q data -> exists b, reflected l tab (crd pt c) (vz e) q = Ok b /\ dget (Some q) cz = Some (if eqb b q then None else Some b)).
  Proof.
    unfold partners.
    assert (G : forall qs d cz, foldM (fun d q => do b <- reflected l tab (crd pt c) (vz e) q;
        Ok (dset (Some q) (if eqb b q then None else Some b) d)) qs d = Ok cz ->
      (forall q, In q qs -> exists b, reflected l tab (crd pt c) (vz e) q = Ok b /\ dget (Some q) cz = Some (if eqb b q then None else Some b)) /\
      forall k, ~ In k (map Some qs) -> dget k cz = dget k d).
    { clear. induction qs as [|q qs IH]; intros d cz H; cbn [foldM] in H.
      - injection H as <-. split; [intros q []|reflexivity].
      - apply bind_ok in H as [d1 [H1 H]]. apply bind_ok in H1 as [b [Eb H1]]. injection H1 as <-. destruct (IH _ _ H) as [A B]. split.
        + intros q' [<-|Hq']; [|now apply A]. exists b. split; [exact Eb|].
          destruct (in_dec string_dec q qs) as [I|I].
          * destruct (A q I) as (b' & Eb' & D). rewrite Eb in Eb'. now injection Eb' as <-.
          * rewrite B; [apply dget_dset_same|]. intros K. apply in_map_iff in K as (x & [= ->] & K). contradiction.
        + intros k Hk. rewrite B; [|intros K; apply Hk; now right]. apply dget_dset_other. intros <-. apply Hk. now left. }
    intros H. apply (G _ _ _ H).
  Qed.
  Context (cz : dict (option string) (option string)).
  Hypothesis Hcz : partners l tab (crd pt c) (vz e) (labs ps KD) = Ok cz.
  Lemma partner_at p : In p ps -> knd p = KD -> exists p', In p' ps /\ knd p' = KD /\ pos p' = R (pos p) /\
    dget (Some (pl_lab p)) cz = Some (if eqb (pl_lab p') (pl_lab p) then None else Some (pl_lab p')).
  Proof.
    intros Hp K. destruct (partners_get _ _ Hcz (pl_lab p)) as (b & Eb & D); [apply labs_place; eauto|].
    apply (reflected_ok l p b (touched_refl _ _) Hp) in Eb as (p' & Hp' & <- & Ep & Kp). rewrite K in Kp. exists p'. auto.
  Qed.
  Lemma partners_inv q b : In q (labs ps KD) -> dget (Some q) cz = Some (Some b) ->
    In b (labs ps KD) /\ dget (Some b) cz = Some (Some q) /\ b <> q.
  Proof.
    intros Hq D. apply labs_place in Hq as (p & Hp & K & <-). destruct (partner_at p Hp K) as (p' & Hp' & K' & E' & D').
    rewrite D' in D. destruct (eqb_spec (pl_lab p') (pl_lab p)) as [|N]; [discriminate|]. injection D as <-.
    split; [apply labs_place; eauto|]. split; [|exact N].
    destruct (partner_at p' Hp' K') as (p2 & Hp2 & K2 & E2 & D2). rewrite E', (mirror_inv c e He1 He2) in E2.
    apply (pos_eq _ _ _ _ _ P _ _ Hp2 Hp) in E2. subst p2. rewrite D2. destruct (eqb_spec (pl_lab p) (pl_lab p')); [congruence|reflexivity].
  Qed.
  (** S *)
  Lemma diagonal_get s : diagonal_gates l tab (crd pt c) (vz e) (labs ps KD) = Ok s ->
    forall q g, dget (Some q) s = Some g -> g = "I" \/ is_s g = true /\ exists k, labat ps (padd c (pscale k e)) = Some q.
  Proof.
    unfold diagonal_gates. generalize (seq 0 (Z.to_nat (2 * l_dz l - 1))). intros ks.
    assert (G : forall ks d s, (forall q g, dget (Some q) d = Some g -> g = "I" \/ is_s g = true /\ exists k, labat ps (padd c (pscale k e)) = Some q) ->
      foldM (fun d k => do q <- dget_err (vadd (crd pt c) (vscale (natq k) (vz e))) tab;
                    Ok (dset (Some q) (if Nat.even k then "S" else "S_DAG") d)) ks d = Ok s ->
      forall q g, dget (Some q) s = Some g -> g = "I" \/ is_s g = true /\ exists k, labat ps (padd c (pscale k e)) = Some q).
    { clear ks. induction ks as [|k ks IH]; intros d s0 I H; cbn [foldM] in H; [injection H as <-; exact I|].
      apply bind_ok in H as [d1 [H1 H]]. apply bind_ok in H1 as [b [Eb H1]]. injection H1 as <-. apply (IH _ _) with (2 := H).
      intros q g. rewrite dget_dset. destruct (eqb_spec (Some b) (Some q)) as [[= <-]|]; [|apply I]. intros [= <-]. right.
      split; [now destruct (Nat.even k)|]. unfold dget_err in Eb. rewrite vscale_vz, vadd_crd in Eb.
      destruct (table_ok _ _ _ _ _ P) as (tab' & Et & Ht). rewrite Htab in Et. injection Et as <-. rewrite Ht in Eb.
      destruct (labat ps _) as [b'|] eqn:E; [|discriminate]. injection Eb as ->. eauto. }
    intros H. apply (G ks (no_gate (labs ps KD)) s); [|exact H].
    intros q g E. left. unfold no_gate in E. apply dget_In in E. apply in_map_iff in E as (x & [= _ <-] & _). reflexivity.
  Qed.
  Lemma diagonal_none s : diagonal_gates l tab (crd pt c) (vz e) (labs ps KD) = Ok s ->
    forall q g, In q (labs ps KD) -> dget (Some q) s = Some g -> g <> "I" -> dget (Some q) cz = Some None.
  Proof.
    intros H q g Hq E N. destruct (diagonal_get s H q g E) as [|[_ [k L]]]; [contradiction|].
    apply (labat_some _ _ _ _ _ P) in L as (p & Hp & Ep & <-). apply labs_place in Hq as (p0 & Hp0 & K & L0).
    apply (lab_eq _ _ _ _ _ P _ _ Hp0 Hp) in L0. subst p0. destruct (partner_at p Hp K) as (p' & Hp' & K' & E' & D').
    rewrite Ep, (mirror_fixed c e He1 He2), <- Ep in E'. apply (pos_eq _ _ _ _ _ P _ _ Hp' Hp) in E'. subst p'. now rewrite D', eqb_refl.
  Qed.
  (** H *)
  Definition swf (q : string) : option string :=
    if mem q (labs ps KD) then match dget (Some q) cz with Some o => o | None => None end else None.
  Lemma swf_in q b : swf q = Some b -> In q (labs ps KD) /\ In b (labs ps KD) /\ swf b = Some q /\ b <> q.
  Proof.
    unfold swf. destruct (mem q (labs ps KD)) eqn:M; [|discriminate]. apply mem_In in M. destruct (dget (Some q) cz) as [o|] eqn:E; [|discriminate].
    intros ->. destruct (partners_inv q b M E) as (Hb & E' & Ne). rewrite (proj2 (mem_In b _) Hb), E'. auto.
  Qed.
  Lemma swf_at p : In p ps -> knd p = KD -> exists p', In p' ps /\ knd p' = KD /\ pos p' = R (pos p) /\ odef (pl_lab p) (swf (pl_lab p)) = pl_lab p'.
  Proof.
    intros Hp K. destruct (partner_at p Hp K) as (p' & Hp' & K' & E & D). exists p'. do 3 (split; [assumption|]).
    unfold swf. rewrite (proj2 (mem_In (pl_lab p) _)) by (apply labs_place; eauto). rewrite D.
    destruct (eqb_spec (pl_lab p') (pl_lab p)) as [->|]; reflexivity.
  Qed.
  Lemma support_mirror x x' q : In x ps -> In x' ps -> pos x' = R (pos x) -> In q (labs ps KD) ->
    mem (odef q (swf q)) (support l (pl_lab x')) = mem q (support l (pl_lab x)).
  Proof.
    intros Hx Hx' Ex Hq. apply labs_place in Hq as (p & Hp & K & <-). destruct (swf_at p Hp K) as (p' & Hp' & K' & E & ->).
    apply eq_true_iff_eq. rewrite !mem_In, (support_mem _ _ _ _ _ P unrot_shifts_nodup x' _ Hx'), (support_mem _ _ _ _ _ P unrot_shifts_nodup x _ Hx). split.
    - intros (y & s & Hy & Hs & L & Ey). apply (lab_eq _ _ _ _ _ P _ _ Hy Hp') in L. subst y.
      exists p, (mshift e s). split; [exact Hp|]. split; [now apply mshift_in|]. split; [reflexivity|].
      rewrite E, Ex in Ey. apply (f_equal (R)) in Ey. rewrite mirror_add, !(mirror_inv c e He1 He2) in Ey. exact Ey.
    - intros (y & s & Hy & Hs & L & Ey). apply (lab_eq _ _ _ _ _ P _ _ Hy Hp) in L. subst y.
      exists p', (mshift e s). split; [exact Hp'|]. split; [now apply mshift_in|]. split; [reflexivity|].
      rewrite E, Ex, Ey. apply mirror_add.
  Qed.
End Unrot.
