(** Proofs about the transversal gates, part 11: S of the rotated code. *)
From Coq Require Import QArith Qcanon.
From Verif Require Import Base Lib StimM NoiseM DetM LayoutM SpecLayout LayoutP LayoutP2 GenM GenP SpecGen GeomP BlockM SpecTrack TrackP
  RoundP RotP RotP2 LiftP SpecLog LogM LogP LogP2 LogP3 LogP4 LogP5 LogP6 LogP7.
Open Scope Z_scope.

Section Walks.
  Context (pt : Qc * Qc) (at_ : Z * Z -> option string) (tab : dict vec string).
  Hypothesis Htab : forall rc, dget (crd pt rc) tab = at_ rc.
  Hypothesis Hat : forall rc rc' q, at_ rc = Some q -> at_ rc' = Some q -> rc = rc'.
  Context (c h : Z * Z).
  Hypothesis Hh : (fst h = 0 /\ (snd h = 2 \/ snd h = -2)) \/ (snd h = 0 /\ (fst h = 2 \/ fst h = -2)).
  Notation v := (snd h, - fst h).
  (* [i] steps along v and [j] steps along h *)
  Definition at2 (i j : Z) : Z * Z := (fst c + i * snd h + j * fst h, snd c - i * fst h + j * snd h).
  Definition other (ij : Z * Z) : Z * Z := if snd ij <=? fst ij then (snd ij, fst ij + 1) else (snd ij - 1, fst ij).
  Definition at2' (ij : Z * Z) : Z * Z := at2 (fst ij) (snd ij).
  Lemma at2_inj i j i' j' : at2 i j = at2 i' j' -> i = i' /\ j = j'.
  Proof. unfold at2. intros E. injection E as E1 E2. destruct Hh as [[H0 [H|H]]|[H0 [H|H]]]; rewrite H0, H in *; lia. Qed.
  Lemma other_inv ij : other (other ij) = ij.
  Proof. destruct ij as [i j]. unfold other. cbn [fst snd]. destruct (Z.leb_spec j i); cbn [fst snd]; [destruct (Z.leb_spec (i + 1) j)|destruct (Z.leb_spec i (j - 1))]; f_equal; lia. Qed.
  Lemma other_neq ij : other ij <> ij.
  Proof. destruct ij as [i j]. unfold other. cbn [fst snd]. destruct (Z.leb_spec j i); intros [= E1 E2]; lia. Qed.
  Definition walk_ok (cz : dict (option string) (option string)) : Prop :=
    forall q o, dget (Some q) cz = Some o -> exists i j, 0 <= i /\ 0 <= j /\ at_ (at2 i j) = Some q /\ o = at_ (at2' (other (i, j))) /\
      (forall b, o = Some b -> exists o', dget (Some b) cz = Some o').
  Lemma vec_v : (snd (vz h), (- fst (vz h))%Qc) = vz v.
  Proof. unfold vz. cbn [fst snd]. now rewrite zq_opp. Qed.
  Lemma step_v t k : vadd (crd pt (at2 t t)) (vscale (natq k) (vz v)) = crd pt (at2 (t + Z.of_nat k) t).
  Proof. rewrite vscale_vz, vadd_crd. f_equal. unfold padd, pscale, at2. cbn [fst snd]. f_equal; lia. Qed.
  Lemma step_h t k : vadd (crd pt (at2 t t)) (vscale (natq k) (vz h)) = crd pt (at2 t (t + Z.of_nat k)).
  Proof. rewrite vscale_vz, vadd_crd. f_equal. unfold padd, pscale, at2. cbn [fst snd]. f_equal; lia. Qed.
  Lemma step_vh i j : vadd (crd pt (at2 i j)) (vadd (vz v) (vz h)) = crd pt (at2 (i + 1) (j + 1)).
  Proof. rewrite vadd_vz, vadd_crd. f_equal. unfold padd, at2. cbn [fst snd]. f_equal; lia. Qed.
  Lemma step_hv i j : vadd (crd pt (at2 i j)) (vadd (vz h) (vz v)) = crd pt (at2 (i + 1) (j + 1)).
  Proof. rewrite vadd_vz, vadd_crd. f_equal. unfold padd, at2. cbn [fst snd]. f_equal; lia. Qed.
  Lemma cz_loop_ok fuel : forall t k cz cz', 0 <= t -> walk_ok cz ->
    cz_loop (fun p => dget p tab) (vz h) (vz v) fuel (crd pt (at2 t t)) k cz = Ok cz' -> walk_ok cz'.
  Proof.
    induction fuel as [|n IH]; intros t k cz cz' Ht W H; [discriminate|]. cbn [cz_loop] in H. rewrite Htab in H.
    destruct (at_ (at2 t t)) as [q0|]; [|now injection H as <-].
    rewrite step_v, Htab in H. destruct (at_ (at2 (t + Z.of_nat k) t)) as [q1|] eqn:E1.
    2: { rewrite step_vh in H. apply (IH (t + 1) 0%nat cz cz'); [lia|exact W|exact H]. }
    rewrite step_h, Htab in H. set (o2 := at_ (at2 t (t + Z.of_nat (S k)))) in *.
    apply (IH t (S k) _ cz' Ht) with (2 := H).
    assert (Ot : at2' (other (t + Z.of_nat k, t)) = at2 t (t + Z.of_nat (S k))).
    { unfold other, at2'. cbn [fst snd]. destruct (Z.leb_spec t (t + Z.of_nat k)); [|lia]. cbn [fst snd]. f_equal. lia. }
    assert (Ot' : at2' (other (t, t + Z.of_nat (S k))) = at2 (t + Z.of_nat k) t).
    { unfold other, at2'. cbn [fst snd]. destruct (Z.leb_spec (t + Z.of_nat (S k)) t); [lia|]. cbn [fst snd]. f_equal. lia. }
    assert (Mono : forall b, (exists o', dget (Some b) cz = Some o') -> exists o', dget (Some b) (dset (Some q1) o2 (dset o2 (Some q1) cz)) = Some o').
    { intros b [o' Hb]. rewrite !dget_dset. destruct (eqb (Some q1) (Some b)); [eauto|]. destruct (eqb o2 (Some b)); eauto. }
    intros q o. rewrite !dget_dset. destruct (eqb_spec (Some q1) (Some q)) as [[= <-]|N1].
    - intros [= <-]. exists (t + Z.of_nat k), t. split; [lia|]. split; [exact Ht|]. split; [exact E1|]. split; [now rewrite Ot|].
      intros b Eb. rewrite !dget_dset, Eb, eqb_refl. destruct (eqb (Some q1) (Some b)); eauto.
    - destruct (eqb_spec o2 (Some q)) as [E2|N2].
      + intros [= <-]. exists t, (t + Z.of_nat (S k)). split; [exact Ht|]. split; [lia|]. split; [exact E2|]. split; [now rewrite Ot', E1|].
        intros b [= <-]. rewrite !dget_dset, eqb_refl. eauto.
      + intros Hq. destruct (W q o Hq) as (i & j & Hi & Hj & Ha & Ho & Hb). exists i, j. do 4 (split; [assumption|]).
        intros b Eb. apply Mono. now apply Hb.
  Qed.
  Lemma walk_inv cz : walk_ok cz -> forall q b, dget (Some q) cz = Some (Some b) ->
    dget (Some b) cz = Some (Some q) /\ b <> q /\ exists i j, at_ (at2 i j) = Some b.
  Proof.
    intros W q b H. destruct (W q _ H) as (i & j & Hi & Hj & Ha & Ho & Hb). destruct (Hb b eq_refl) as [o' Hb'].
    destruct (W b _ Hb') as (i' & j' & Hi' & Hj' & Ha' & Ho' & _). symmetry in Ho. pose proof (Hat _ _ _ Ho Ha') as E.
    unfold at2' in E. apply at2_inj in E as [E1 E2]. assert (E : (i', j') = other (i, j)) by (destruct (other (i, j)); cbn [fst snd] in *; congruence).
    rewrite E, other_inv in Ho'. unfold at2' in Ho'. cbn [fst snd] in Ho'. rewrite Ha in Ho'. subst o'. split; [exact Hb'|]. split; [|eauto].
    intros ->. pose proof (Hat _ _ _ Ha Ha') as K. apply at2_inj in K as [-> ->]. exact (other_neq _ (eq_sym E)).
  Qed.
  (** the S gates *)
  Lemma s_loop_ok fuel : forall i s s' e, 0 <= i ->
    s_loop (fun p => dget p tab) (vz h) (vz v) fuel (crd pt (at2 i (i + 1))) s = Ok (s', e) ->
    (exists i', i <= i' /\ e = crd pt (at2 i' (i' + 1)) /\ (at_ (at2 i (i + 1)) <> None -> i < i')) /\
    (forall q g, dget (Some q) s' = Some g -> dget (Some q) s = Some g \/ g = "S" /\ exists k, 0 <= k /\ at_ (at2 k (k + 1)) = Some q) /\
    (forall q, (exists g, dget (Some q) s = Some g /\ is_s g = true) -> exists g, dget (Some q) s' = Some g /\ is_s g = true) /\
    (forall q, at_ (at2 i (i + 1)) = Some q -> exists g, dget (Some q) s' = Some g /\ is_s g = true).
  Proof.
    induction fuel as [|n IH]; intros i s s' e Hi H; [discriminate|]. cbn [s_loop] in H. rewrite Htab in H.
    destruct (at_ (at2 i (i + 1))) as [q1|] eqn:E.
    - rewrite step_hv in H. replace (i + 1 + 1) with ((i + 1) + 1) in H by lia. destruct (IH (i + 1) _ _ _ ltac:(lia) H) as ((i' & L & Ee & _) & A & B & _).
      split; [exists i'; split; [lia|]; split; [exact Ee|]; intros _; lia|]. split; [|split].
      + intros q g Hg. destruct (A q g Hg) as [Hd|K]; [|now right]. rewrite dget_dset in Hd. destruct (eqb_spec (Some q1) (Some q)) as [[= <-]|]; [|now left].
        injection Hd as <-. right. split; [reflexivity|]. exists i. auto.
      + intros q [g [Hg Sg]]. apply B. rewrite dget_dset. destruct (eqb (Some q1) (Some q)); [exists "S"; auto|eauto].
      + intros q [= <-]. apply B. rewrite dget_dset_same. exists "S". auto.
    - injection H as <- <-. split; [exists i; split; [lia|]; split; [reflexivity|]; congruence|]. split; [auto|]. split; [auto|discriminate].
  Qed.
  Lemma s_loop_all fuel : forall i s s' e, 0 <= i ->
    s_loop (fun p => dget p tab) (vz h) (vz v) fuel (crd pt (at2 i (i + 1))) s = Ok (s', e) ->
    exists i', e = crd pt (at2 i' (i' + 1)) /\ at_ (at2 i' (i' + 1)) = None /\
      (forall k, i <= k < i' -> exists q, at_ (at2 k (k + 1)) = Some q /\ dget (Some q) s' = Some "S").
  Proof.
    induction fuel as [|n IH]; intros i s s' e Hi H; [discriminate|]. pose proof H as H0. cbn [s_loop] in H. rewrite Htab in H.
    destruct (at_ (at2 i (i + 1))) as [q1|] eqn:E.
    - rewrite step_hv in H. replace (i + 1 + 1) with ((i + 1) + 1) in H by lia. destruct (IH (i + 1) _ _ _ ltac:(lia) H) as (i' & Ee & N & K).
      exists i'. split; [exact Ee|]. split; [exact N|]. intros k Hk. destruct (Z.eq_dec k i) as [->|Nk]; [|apply K; lia].
      exists q1. split; [exact E|]. destruct (s_loop_ok n (i + 1) _ _ _ ltac:(lia) H) as (_ & A & B & _).
      destruct (B q1) as (g & Eg & _); [rewrite dget_dset_same; exists "S"; auto|].
      destruct (A q1 g Eg) as [Ed|[-> _]]; [|exact Eg]. rewrite dget_dset_same in Ed. now injection Ed as <-.
    - injection H as <- <-. exists i. split; [reflexivity|]. split; [exact E|]. intros k Hk. lia.
  Qed.
End Walks.

Section Rot.
  Context (a : gen_args) (l : layout) (dq : string).
  Notation ps := (rot_ps a).
  Notation dx := (ga_dx a).
  Notation dz := (ga_dz a).
  Notation pt := (rot_pt a).
  Hypothesis P : planar l rot_shifts rot_dirn pt ps.
  Hypothesis Hlog : l_logs l = [ga_log a].
  Hypothesis Hcode : l_code l = "rotated_surface_code".
  Hypothesis Hdx : l_dx l = dx.
  Hypothesis Hdz : l_dz l = dz.
  Lemma rot_data : get_role l "data" = Ok (labs ps KD). Proof. apply P. Qed.
  Lemma labat_inj rc rc' q : labat ps rc = Some q -> labat ps rc' = Some q -> rc = rc'.
  Proof.
    intros H H'. apply (labat_some _ _ _ _ _ P) in H as (p & Hp & <- & L). apply (labat_some _ _ _ _ _ P) in H' as (p' & Hp' & <- & L').
    f_equal. apply (lab_eq _ _ _ _ _ P); congruence.
  Qed.
  Lemma labat_data rc q : fst rc mod 2 = 1 -> labat ps rc = Some q -> In q (labs ps KD).
  Proof.
    intros O H. apply (labat_some _ _ _ _ _ P) in H as (p & Hp & <- & L). apply labs_place. exists p. split; [exact Hp|]. split; [|exact L].
    pose proof (ps_kpos _ _ Hp) as K. destruct (knd p); [reflexivity| |]; cbn [kpos] in K; unfold xpos, zpos in K; exfalso; lia.
  Qed.
  Lemma data_at r k : r mod 2 = 1 -> k mod 2 = 1 -> 0 < r < 2 * dx + 1 -> 0 < k < 2 * dz + 1 -> exists q, labat ps (r, k) = Some q /\ In q (labs ps KD).
  Proof.
    intros H1 H2 H3 H4. destruct (kpos_ps a KD (r, k)) as (p & Hp & K & E); [cbn [kpos]; unfold dpos; cbn [fst snd]; auto|].
    exists (pl_lab p). split; [apply (labat_some _ _ _ _ _ P); eauto|]. apply labs_place. eauto.
  Qed.
End Rot.
