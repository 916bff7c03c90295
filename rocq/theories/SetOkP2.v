(** Proofs about C77, part 2: set_trans_s and set_trans_h of the unrotated code, on a
    square code with at least two rows, from any of the corners. *)
From Coq Require Import QArith Qcanon.
From Verif Require Import Base Lib StimM NoiseM DetM LayoutM SpecLayout LayoutP LayoutP2 GenM GenP SpecGen GeomP BlockM SpecTrack TrackP
  RoundP UnrotP LiftP SpecLog LogM LogP LogP2 LogP3 LogP4 LogP5 LogP6 LogP7 SetOkP.
Open Scope Z_scope.

Section Corner.
  Context (a : gen_args) (l : layout).
  Notation ps := (unrot_ps a).
  Notation pt := (ga_pt a).
  Notation n := (ga_dx a).
  Hypothesis P : planar l unrot_shifts unrot_dirn pt ps.
  Hypothesis Hlog : l_logs l = [ga_log a].
  Hypothesis Hcode : l_code l = "unrotated_surface_code".
  Hypothesis Hdx : l_dx l = ga_dx a.
  Hypothesis Hdz : l_dz l = ga_dz a.
  Hypothesis Hsq : ga_dz a = ga_dx a.
  Hypothesis Hn : 2 <= ga_dx a.
  Context (d : placed).
  Hypothesis Hd : In d ps.
  Hypothesis Hr : fst (pos d) = 0 \/ fst (pos d) = 2 * n - 2.
  Hypothesis Hc : snd (pos d) = 0 \/ snd (pos d) = 2 * n - 2.
  Notation c := (pos d).

  Lemma corner_data : knd d = KD /\ ukind c = KD.
  Proof. destruct (ups_pos _ _ Hd) as [_ ->]. split; apply ukind_D; lia. Qed.
  Definition inward : Z * Z := (if fst c =? 0 then 1 else -1, if snd c =? 0 then 1 else -1).
  Lemma inward_1 : fst inward = 1 \/ fst inward = -1. Proof. unfold inward. cbn [fst]. destruct (fst c =? 0); auto. Qed.
  Lemma inward_2 : snd inward = 1 \/ snd inward = -1. Proof. unfold inward. cbn [snd]. destruct (snd c =? 0); auto. Qed.
  Lemma in_box rc : uin (ga_dx a) (ga_dz a) rc <-> 0 <= fst rc <= 2 * n - 2 /\ 0 <= snd rc <= 2 * n - 2.
  Proof. unfold uin. rewrite Hsq. lia. Qed.
  Lemma corner_line : exists ax, fold_line l (pl_lab d) = Ok (ax, crd pt c, vz inward).
  Proof.
    destruct (fold_line_all _ _ _ _ _ P d Hd) as [[[ax p] v] E].
    - intros k [-> | ->].
      + destruct (pos_ups a (padd c (0, snd inward))) as (p & Hp & Kp & Ep).
        { apply in_box. unfold inward, padd. cbn [fst snd]. destruct (Z.eqb_spec (snd c) 0); lia. }
        exists p, (0, snd inward). split; [exact Hp|]. split; [apply In_unrot_shifts; cbn [fst snd]; pose proof inward_2; lia|]. split; [|exact Ep].
        rewrite Kp. apply ukind_X; unfold padd; cbn [fst snd]; pose proof inward_2; lia.
      + destruct (pos_ups a (padd c (fst inward, 0))) as (p & Hp & Kp & Ep).
        { apply in_box. unfold inward, padd. cbn [fst snd]. destruct (Z.eqb_spec (fst c) 0); lia. }
        exists p, (fst inward, 0). split; [exact Hp|]. split; [apply In_unrot_shifts; cbn [fst snd]; pose proof inward_1; lia|]. split; [|exact Ep].
        rewrite Kp. apply ukind_Z; unfold padd; cbn [fst snd]; pose proof inward_1; lia.
    - intros pa pz s1 s2 Ha Hz S1 S2 Ka Kz Ea Ez. destruct (ups_pos _ _ Ha) as [B1 K1]. destruct (ups_pos _ _ Hz) as [B2 K2].
      rewrite Ka in K1. rewrite Kz in K2. pose proof (ukind_spec (pos pa)) as X1. pose proof (ukind_spec (pos pz)) as X2.
      rewrite <- K1 in X1. rewrite <- K2 in X2. apply in_box in B1, B2. rewrite Ea in *. rewrite Ez in *. apply In_unrot_shifts in S1, S2.
      destruct (pos_ups a (padd (padd c s1) s2)) as (p & Hp & Kp & Ep); [|exists p; auto].
      apply in_box. unfold padd in *. cbn [fst snd] in *. lia.
    - exists ax. rewrite E. destruct (fold_line_ok _ _ _ _ _ P d ax p v Hd E) as (pa & pz & ph & s1 & s2 & Ha & Hz & _ & S1 & S2 & Ka & Kz & _ & Ea & Ez & _ & -> & ->).
      do 2 f_equal. f_equal. destruct (ups_pos _ _ Ha) as [B1 K1]. destruct (ups_pos _ _ Hz) as [B2 K2].
      rewrite Ka in K1. rewrite Kz in K2. pose proof (ukind_spec (pos pa)) as X1. pose proof (ukind_spec (pos pz)) as X2.
      rewrite <- K1 in X1. rewrite <- K2 in X2. apply in_box in B1, B2. rewrite Ea in *. rewrite Ez in *. apply In_unrot_shifts in S1, S2.
      unfold padd, inward in *. cbn [fst snd] in *. destruct (Z.eqb_spec (fst c) 0), (Z.eqb_spec (snd c) 0); f_equal; lia.
  Qed.
  Notation R := (mirror c inward).
  Lemma mirror_in rc : uin (ga_dx a) (ga_dz a) rc -> uin (ga_dx a) (ga_dz a) (R rc).
  Proof.
    rewrite !in_box. unfold mirror, inward. cbn [fst snd]. destruct (Z.eqb_spec (fst c) 0), (Z.eqb_spec (snd c) 0); lia.
  Qed.
  Lemma line_in k : 0 <= k <= 2 * n - 2 -> uin (ga_dx a) (ga_dz a) (padd c (pscale k inward)).
  Proof.
    rewrite !in_box. unfold padd, pscale, inward. cbn [fst snd]. destruct (Z.eqb_spec (fst c) 0), (Z.eqb_spec (snd c) 0); lia.
  Qed.
  Lemma fixed_line rc : uin (ga_dx a) (ga_dz a) rc -> R rc = rc -> exists k, 0 <= k <= 2 * n - 2 /\ rc = padd c (pscale k inward).
  Proof.
    rewrite in_box. destruct rc as [r k]. unfold mirror, padd, pscale, inward. cbn [fst snd]. intros B E.
    pose proof (f_equal fst E) as E1. pose proof (f_equal snd E) as E2. cbn [fst snd] in E1, E2.
    exists (if fst c =? 0 then r else 2 * n - 2 - r).
    destruct (Z.eqb_spec (fst c) 0), (Z.eqb_spec (snd c) 0); (split; [lia|f_equal; lia]).
  Qed.
  Context (tab : dict vec string).
  Hypothesis Htab : label_table l = Ok tab.
  Lemma tab_get rc : dget (crd pt rc) tab = labat ps rc.
  Proof. destruct (table_ok _ _ _ _ _ P) as (tab' & Et & Ht). rewrite Htab in Et. injection Et as <-. apply Ht. Qed.
  Lemma reflected_all l1 p : touched structure l l1 -> In p ps ->
    exists p', In p' ps /\ pos p' = R (pos p) /\ reflected l1 tab (crd pt c) (vz inward) (pl_lab p) = Ok (pl_lab p') /\
      knd p' = match knd p with KD => KD | KX => KZ | KZ => KX end.
  Proof.
    intros T Hp. assert (P1 : planar l1 unrot_shifts unrot_dirn pt ps) by (apply (touched_planar _ _ _ T (incl_refl _)); exact P).
    destruct (ups_pos _ _ Hp) as [B K]. destruct (pos_ups a (R (pos p)) (mirror_in _ B)) as (p' & Hp' & K' & E').
    exists p'. split; [exact Hp'|]. split; [exact E'|]. split.
    - unfold reflected. rewrite (get_coords_ok _ _ _ _ _ P1 p Hp). cbn [bind as_vec as_num_list mapM].
      change (fst (crd pt (pos p)), snd (crd pt (pos p))) with (crd pt (pos p)).
      rewrite (reflection_ok pt c inward inward_1 inward_2). cbn [bind]. unfold dget_err. rewrite tab_get.
      assert (L : labat ps (R (pos p)) = Some (pl_lab p')) by (apply (labat_some _ _ _ _ _ P); eauto). now rewrite L.
    - rewrite K', K. apply (mirror_kind c inward inward_1 inward_2). apply corner_data.
  Qed.
  Lemma partners_all : exists cz, partners l tab (crd pt c) (vz inward) (labs ps KD) = Ok cz.
  Proof.
    unfold partners. edestruct (foldM_all (fun d0 q => do b <- reflected l tab (crd pt c) (vz inward) q;
        Ok (dset (Some q) (if eqb b q then None else Some b) d0)) (fun _ => True) (labs ps KD) []) as (cz & E & _); [exact I| |eauto].
    intros d0 q Hq _. apply labs_place in Hq as (p & Hp & K & <-). destruct (reflected_all l p (touched_refl _ _) Hp) as (p' & _ & _ & -> & _).
    cbn [bind]. eauto.
  Qed.
  Lemma no_gate_get data q : In q data -> dget (Some q) (no_gate data) = Some "I".
  Proof.
    unfold no_gate. induction data as [|x data IH]; intros []; cbn [map dget].
    - subst x. now rewrite eqb_refl.
    - destruct (eqb_spec (Some q) (Some x)); [reflexivity|auto].
  Qed.
  Lemma diagonal_all : exists s, diagonal_gates l tab (crd pt c) (vz inward) (labs ps KD) = Ok s /\
    (forall q, In q (labs ps KD) -> exists g, dget (Some q) s = Some g) /\
    forall p k, In p ps -> 0 <= k <= 2 * n - 2 -> pos p = padd c (pscale k inward) -> exists g, dget (Some (pl_lab p)) s = Some g /\ is_s g = true.
  Proof.
    unfold diagonal_gates.
    assert (G : forall ks d0, (forall k, In k ks -> (k < Z.to_nat (2 * n - 1))%nat) -> exists s,
      foldM (fun d0 k => do q <- dget_err (vadd (crd pt c) (vscale (natq k) (vz inward))) tab;
                    Ok (dset (Some q) (if Nat.even k then "S" else "S_DAG") d0)) ks d0 = Ok s /\
      (forall q, (exists g, dget (Some q) d0 = Some g) -> exists g, dget (Some q) s = Some g) /\
      (forall q, (exists g, dget (Some q) d0 = Some g /\ is_s g = true) -> exists g, dget (Some q) s = Some g /\ is_s g = true) /\
      (forall p k, In p ps -> In k ks -> pos p = padd c (pscale (Z.of_nat k) inward) -> exists g, dget (Some (pl_lab p)) s = Some g /\ is_s g = true)).
    { induction ks as [|k ks IH]; intros d0 B; cbn [foldM].
      - exists d0. split; [reflexivity|]. split; [auto|]. split; [auto|]. intros p k _ [].
      - rewrite vscale_vz, vadd_crd. unfold dget_err at 1. rewrite tab_get.
        assert (Bk : (k < Z.to_nat (2 * n - 1))%nat) by (apply B; now left).
        destruct (pos_ups a (padd c (pscale (Z.of_nat k) inward))) as (p & Hp & _ & Ep); [apply line_in; lia|].
        assert (L : labat ps (padd c (pscale (Z.of_nat k) inward)) = Some (pl_lab p)) by (apply (labat_some _ _ _ _ _ P); eauto). rewrite L.
        cbn [of_opt bind]. set (g0 := if Nat.even k then "S" else "S_DAG").
        assert (G0 : is_s g0 = true) by (unfold g0; now destruct (Nat.even k)).
        destruct (IH (dset (Some (pl_lab p)) g0 d0)) as (s & Es & S1 & S2 & S3); [intros k' Hk'; apply B; now right|].
        exists s. split; [exact Es|]. split; [|split].
        + intros q [g Eg]. apply S1. rewrite dget_dset. destruct (eqb _ _); eauto.
        + intros q [g [Eg Sg]]. apply S2. rewrite dget_dset. destruct (eqb _ _); eauto.
        + intros p' k' Hp' [<-|Hk'] E'; [|eauto]. rewrite <- Ep in E'. apply (pos_eq _ _ _ _ _ P _ _ Hp' Hp) in E'. subst p'.
          apply S2. rewrite dget_dset_same. eauto. }
    destruct (G (seq 0 (Z.to_nat (2 * l_dz l - 1))) (no_gate (labs ps KD))) as (s & Es & S1 & S2 & S3).
    { intros k Hk. apply in_seq in Hk. rewrite Hdz, Hsq in Hk. lia. }
    exists s. split; [exact Es|]. split.
    - intros q Hq. apply S1. exists "I". now apply no_gate_get.
    - intros p k Hp Bk E. apply (S3 p (Z.to_nat k) Hp); [apply in_seq; rewrite Hdz, Hsq; lia|]. rewrite Z2Nat.id by lia. exact E.
  Qed.
  Lemma anc_sup p : In p ps -> knd p <> KD -> NoDup (support l (pl_lab p)) /\ incl (support l (pl_lab p)) (labs ps KD).
  Proof.
    intros Hp K. apply (support_ok _ _ _ _ _ P unrot_shifts_nodup). apply ancs_labs. rewrite !labs_place. destruct (knd p) eqn:E; [tauto| |]; [left|right]; eauto.
  Qed.
  Lemma z_apart x y : In x (labs ps KZ) -> In y (labs ps KZ) -> (forall q, In q (support l x) <-> In q (support l y)) -> x = y.
  Proof.
    intros Hx Hy E. apply labs_place in Hx as (p & Hp & Kp & <-). apply labs_place in Hy as (p' & Hp' & Kp' & <-). f_equal.
    apply (pos_eq _ _ _ _ _ P _ _ Hp Hp'). destruct (ups_pos _ _ Hp) as [B K]. destruct (ups_pos _ _ Hp') as [B' K'].
    rewrite Kp in K. rewrite Kp' in K'. pose proof (ukind_spec (pos p)) as X. pose proof (ukind_spec (pos p')) as X'. rewrite <- K in X. rewrite <- K' in X'.
    apply in_box in B, B'.
    assert (N : forall s, s = (1, 0) \/ s = (-1, 0) -> exists s', In s' unrot_shifts /\ padd (pos p) s = padd (pos p') s').
    { intros s Hs. destruct (pos_ups a (padd (pos p) s)) as (q & Hq & _ & Eq).
      { apply in_box. unfold padd. destruct Hs as [-> | ->]; cbn [fst snd]; lia. }
      assert (Iq : In (pl_lab q) (support l (pl_lab p))).
      { apply (support_mem _ _ _ _ _ P unrot_shifts_nodup p _ Hp). exists q, s. split; [exact Hq|].
        split; [apply In_unrot_shifts; destruct Hs as [-> | ->]; cbn [fst snd]; lia|]. auto. }
      apply E in Iq. apply (support_mem _ _ _ _ _ P unrot_shifts_nodup p' _ Hp') in Iq as (q' & s' & Hq' & Hs' & L & E').
      apply (lab_eq _ _ _ _ _ P _ _ Hq' Hq) in L. subst q'. exists s'. split; [exact Hs'|]. congruence. }
    destruct (N (1, 0)) as (s1 & S1 & E1); [auto|]. destruct (N (-1, 0)) as (s2 & S2 & E2); [auto|]. apply In_unrot_shifts in S1, S2.
    pose proof (f_equal fst E1) as F1. pose proof (f_equal snd E1) as F2. pose proof (f_equal fst E2) as F3. pose proof (f_equal snd E2) as F4.
    unfold padd in *. cbn [fst snd] in *. apply injective_projections; lia.
  Qed.
  Lemma all_keys : incl (labs ps KD ++ ancs ps) (dkeys (l_nodes l)).
  Proof.
    intros q Hq. apply (node_place _ _ _ _ _ P). apply in_app_or in Hq as [Hq|Hq].
    - apply labs_place in Hq as (p & Hp & _ & L). eauto.
    - apply anc_place in Hq as (p & Hp & _ & L). eauto.
  Qed.
  Lemma corner_checks : fold_checks l "unrotated_surface_code" (eqb (l_dz l) (l_dx l)) (pl_lab d) = Ok tt.
  Proof.
    rewrite Hdz, Hdx, Hsq, eqb_refl. apply (fold_checks_all _ _ _ _ _ P _ _ _ Hcode Hlog). apply labs_place. exists d.
    split; [exact Hd|]. split; [apply corner_data|reflexivity].
  Qed.
End Corner.

Section Gates.
  Context (a : gen_args) (l : layout).
  Notation ps := (unrot_ps a).
  Hypothesis P : planar l unrot_shifts unrot_dirn (ga_pt a) ps.
  Hypothesis Hlog : l_logs l = [ga_log a].
  Hypothesis Hcode : l_code l = "unrotated_surface_code".
  Hypothesis Hdx : l_dx l = ga_dx a.
  Hypothesis Hdz : l_dz l = ga_dz a.
  Hypothesis Hsq : ga_dz a = ga_dx a.
  Hypothesis Hn : 2 <= ga_dx a.
  Context (d : placed).
  Hypothesis Hd : In d ps.
  Hypothesis Hr : fst (pos d) = 0 \/ fst (pos d) = 2 * ga_dx a - 2.
  Hypothesis Hc : snd (pos d) = 0 \/ snd (pos d) = 2 * ga_dx a - 2.
  Lemma set_h_all : exists l2, set_trans_h l (pl_lab d) = Ok l2.
  Proof.
    unfold set_trans_h. rewrite (corner_checks a l P Hlog Hcode Hdx Hdz Hsq d Hd Hr Hc). cbn [bind].
    rewrite (pn_data _ _ _ _ _ P), (pn_anc _ _ _ _ _ P). cbn [bind]. fold (labs ps KD) (ancs ps). unfold gate_h.
    rewrite (first_one l _ Hlog). cbn [bind]. destruct (corner_line a l P Hsq Hn d Hd Hr Hc) as [ax ->]. cbn [bind].
    destruct (table_ok _ _ _ _ _ P) as (tab & Et & _). rewrite Et. cbn [bind].
    destruct (partners_all a l P Hsq Hn d Hd Hr Hc tab Et) as [cz Ec]. rewrite Ec. cbn [bind].
    pose proof (partners_get a l (pos d) (inward d) tab _ _ Ec) as Pg.
    match goal with |- context [set_params ?g ?v ?q l] => destruct (set_params_all g v q l) as [l1 E1] end.
    { intros q Hq. split; [apply (all_keys a l P), in_or_app; now left|]. destruct (Pg q Hq) as (b & _ & Db). unfold dget_err. rewrite Db. cbn [of_opt bind]. eauto. }
    rewrite E1. cbn [bind]. assert (Ng : ~ In ("trans-h_" ++ ga_log a)%string structure) by (cbn; intros [E|[E|[E|[E|[E|[E|[]]]]]]]; discriminate).
    destruct (set_params_ok structure _ _ _ Ng _ _ E1) as (T1 & _ & _).
    assert (New : exists new, foldM (fun d0 a0 => do b <- reflected l1 tab (crd (ga_pt a) (pos d)) (vz (inward d)) a0; Ok (dset a0 [b] d0)) (ancs ps) [] = Ok new /\
      forall x, In x (ancs ps) -> dmem x new = true).
    { assert (G : forall qs d0, incl qs (ancs ps) -> exists new,
        foldM (fun d0 a0 => do b <- reflected l1 tab (crd (ga_pt a) (pos d)) (vz (inward d)) a0; Ok (dset a0 [b] d0)) qs d0 = Ok new /\
        (forall x, dmem x d0 = true -> dmem x new = true) /\ forall x, In x qs -> dmem x new = true).
      { induction qs as [|q qs IH]; intros d0 I; cbn [foldM]; [exists d0; split; [reflexivity|]; split; [auto|intros x []]|].
        pose proof (I q (or_introl eq_refl)) as Iq. apply anc_place in Iq as (p & Hp & _ & <-).
        destruct (reflected_all a l P Hsq Hn d Hd Hr Hc tab Et l1 p T1 Hp) as (p' & _ & _ & -> & _). cbn [bind].
        destruct (IH (dset (pl_lab p) [pl_lab p'] d0)) as (new & En & K1 & K2); [intros x Hx; apply I; now right|]. exists new.
        split; [exact En|]. unfold dmem in *. split.
        - intros x Hx. apply K1. rewrite dget_dset. destruct (eqb _ _); [reflexivity|exact Hx].
        - intros x [<-|Hx]; [|auto]. apply K1. now rewrite dget_dset_same. }
      destruct (G (ancs ps) [] (incl_refl _)) as (new & En & _ & K). eauto. }
    destruct New as (new & -> & Kn). cbn [bind]. apply set_params_all. intros q Hq.
    split; [rewrite (touched_keys _ _ _ T1); apply (all_keys a l P), in_or_app; now right|].
    specialize (Kn q Hq). unfold dmem in Kn. unfold dget_err. destruct (dget q new); [|discriminate]. cbn [of_opt bind]. eauto.
  Qed.
  Lemma set_s_all : exists l2, set_trans_s_unrot l (pl_lab d) = Ok l2.
  Proof.
    unfold set_trans_s_unrot. rewrite (corner_checks a l P Hlog Hcode Hdx Hdz Hsq d Hd Hr Hc). cbn [bind].
    rewrite (pn_data _ _ _ _ _ P). cbn [bind]. fold (labs ps KD). unfold gate_s.
    rewrite (first_one l _ Hlog). cbn [bind]. destruct (corner_line a l P Hsq Hn d Hd Hr Hc) as [ax ->]. cbn [bind].
    destruct (table_ok _ _ _ _ _ P) as (tab & Et & _). rewrite Et. cbn [bind].
    destruct (partners_all a l P Hsq Hn d Hd Hr Hc tab Et) as [cz Ec]. rewrite Ec. cbn [bind].
    destruct (diagonal_all a l P Hdz Hsq Hn d Hr Hc tab Et) as (s & Es & Sg & Sd). rewrite Es. cbn [bind].
    pose proof (partners_get a l (pos d) (inward d) tab _ _ Ec) as Pg.
    pose proof (inward_1 d) as I1. pose proof (inward_2 d) as I2. destruct (corner_data a Hsq d Hd Hr Hc) as [Kd Kc].
    set (f := fun x => match reflected l tab (crd (ga_pt a) (pos d)) (vz (inward d)) x with Ok b => b | Err _ => x end).
    assert (Fk : forall p, In p ps -> exists p', In p' ps /\ pos p' = mirror (pos d) (inward d) (pos p) /\ f (pl_lab p) = pl_lab p' /\
      knd p' = match knd p with KD => KD | KX => KZ | KZ => KX end).
    { intros p Hp. destruct (reflected_all a l P Hsq Hn d Hd Hr Hc tab Et l p (touched_refl _ _) Hp) as (p' & Hp' & E' & Er & K').
      exists p'. do 2 (split; [assumption|]). split; [|exact K']. unfold f. now rewrite Er. }
    (* the qubits without a partner are the ones with a gate *)
    assert (Diag : forall p, In p ps -> knd p = KD -> (exists g, dget (Some (pl_lab p)) s = Some g /\ is_s g = true /\ dget (Some (pl_lab p)) cz = Some None) \/
      (exists b, dget (Some (pl_lab p)) s = Some "I" /\ dget (Some (pl_lab p)) cz = Some (Some b))).
    { intros p Hp K. destruct (partner_at a l P (pos d) (inward d) I1 I2 Kc tab Et cz Ec p Hp K) as (p' & Hp' & K' & E' & D').
      destruct (eqb_spec (pl_lab p') (pl_lab p)) as [L|L].
      - apply (lab_eq _ _ _ _ _ P _ _ Hp' Hp) in L. subst p'. left. symmetry in E'.
        destruct (fixed_line a Hsq Hn d Hr Hc (pos p)) as (k & Bk & Ek); [apply (ups_pos _ _ Hp)|exact E'|].
        destruct (Sd p k Hp Bk Ek) as (g & Eg & Gg). exists g. auto.
      - right. exists (pl_lab p'). split; [|exact D']. destruct (Sg (pl_lab p)) as [g Eg]; [apply labs_place; eauto|].
        destruct (string_dec g "I") as [->|Ng]; [exact Eg|].
        rewrite (diagonal_none a l P (pos d) (inward d) I1 I2 Kc tab Et cz Ec s Es (pl_lab p) g) in D'; [discriminate|apply labs_place; eauto|exact Eg|exact Ng]. }
    refine (s_end_all cz s false None l (labs ps KD) (labs ps KX) (labs ps KZ) (ancs ps) _ _ _ _ (pn_data _ _ _ _ _ P) (pn_x _ _ _ _ _ P) (pn_z _ _ _ _ _ P) (pn_anc _ _ _ _ _ P)
      _ (all_keys a l P) _ _ _ Sg (z_apart a l P Hsq) f _ _).
    - apply (partners_inv a l P (pos d) (inward d) I1 I2 Kc tab Et cz Ec).
    - intros q g _ Eg. destruct (diagonal_get a l P (pos d) (inward d) tab Et s Es q g Eg) as [|[]]; auto.
    - intros _. apply (diagonal_none a l P (pos d) (inward d) I1 I2 Kc tab Et cz Ec s Es).
    - intros q. apply ancs_labs.
    - intros q Hq. apply (support_ok _ _ _ _ _ P unrot_shifts_nodup). now apply ancs_labs.
    - cbn. intros [E|[E|[E|[E|[E|[E|[]]]]]]]; discriminate.
    - intros q Hq. destruct (Pg q Hq) as (b & _ & Db). eauto.
    - intros x Hx _. apply labs_place in Hx as (p & Hp & K & <-). destruct (Fk p Hp) as (p' & Hp' & E' & -> & K'). rewrite K in K'.
      assert (Kn : knd p <> KD) by congruence. destruct (anc_sup a l P d Hr Hc p Hp Kn) as [Nd Inc].
      split; [apply labs_place; eauto|]. split.
      + intros q Hq. pose proof Hq as Hq0. apply labs_place in Hq0 as (pq & Hpq & Kq & <-).
        assert (Ex : pos p = mirror (pos d) (inward d) (pos p')) by (rewrite E'; now rewrite (mirror_inv _ _ I1 I2)).
        rewrite <- (support_mirror a l P (pos d) (inward d) I1 I2 Kc tab Et cz Ec p' p (pl_lab pq) Hp' Hp Ex Hq).
        unfold on, swf, czf, sf. rewrite (proj2 (mem_In _ _) Hq).
        destruct (Diag pq Hpq Kq) as [(g & -> & Gg & ->)|(b & -> & ->)]; cbn [odef]; [rewrite Gg|]; cbn [andb]; rewrite ?xorb_false_l; [reflexivity|].
        change (is_s "I") with false. cbn [andb]. now rewrite xorb_false_r.
      + apply xorl_false. intros v Hv. apply in_map_iff in Hv as (y & <- & Hy). apply Inc in Hy. pose proof Hy as Hy0.
        apply labs_place in Hy0 as (py & Hpy & Ky & <-). unfold contrib, czf, sf. rewrite (proj2 (mem_In _ _) Hy).
        destruct (Diag py Hpy Ky) as [(g & -> & Gg & ->)|(b & -> & ->)]; cbn [odef orb]; [|reflexivity].
        destruct (eqb_spec g "I") as [->|]; [discriminate|]. now rewrite andb_false_r.
    - intros b Hb. apply labs_place in Hb as (p & Hp & K & <-). destruct (Fk p Hp) as (p' & Hp' & E' & _ & K'). rewrite K in K'.
      exists (pl_lab p'). split; [apply labs_place; eauto|]. split; [discriminate|].
      destruct (Fk p' Hp') as (p2 & Hp2 & E2 & -> & _). rewrite E', (mirror_inv _ _ I1 I2) in E2. now apply (pos_eq _ _ _ _ _ P _ _ Hp2 Hp) in E2 as ->.
  Qed.
End Gates.
