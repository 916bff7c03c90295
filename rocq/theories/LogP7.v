(** Proofs about the transversal gates, part 7: the attributes of set_trans_s and
    set_trans_h of the unrotated code, on a generated layout. *)
From Coq Require Import QArith Qcanon.
From Verif Require Import Base Lib StimM NoiseM DetM LayoutM SpecLayout LayoutP LayoutP2 GenM GenP SpecGen GeomP BlockM SpecTrack TrackP
  RoundP UnrotP LiftP SpecLog LogM LogP LogP2 LogP3 LogP4 LogP5 LogP6.
Open Scope Z_scope.

Lemma fold_data l code sizes dq : fold_checks l code sizes dq = Ok tt -> exists data, get_role l "data" = Ok data /\ In dq data /\
  l_code l = code /\ sizes = true.
Proof.
  unfold fold_checks. intros H. destruct (eqb_spec (l_code l) code) as [E|]; [|discriminate]. destruct sizes; [|discriminate]. cbn [negb] in H.
  apply bind_ok in H as [data [Ed H]]. exists data. split; [exact Ed|]. split; [|auto]. destruct (mem dq data) eqn:M; [now apply mem_In|discriminate].
Qed.
Lemma first_one l g : l_logs l = [g] -> first_log l = Ok g.
Proof. intros E. unfold first_log. now rewrite E. Qed.
Lemma shift_unit a c s1 s2 p1 p2 : ukind c = KD -> In p1 (unrot_ps a) -> In p2 (unrot_ps a) -> knd p1 = KX -> knd p2 = KZ ->
  In s1 unrot_shifts -> In s2 unrot_shifts -> pos p1 = padd c s1 -> pos p2 = padd c s2 ->
  let e := padd s1 s2 in (fst e = 1 \/ fst e = -1) /\ (snd e = 1 \/ snd e = -1).
Proof.
  intros Hc H1 H2 K1 K2 S1 S2 E1 E2. destruct (ups_pos _ _ H1) as [_ U1]. destruct (ups_pos _ _ H2) as [_ U2].
  rewrite K1 in U1. rewrite K2 in U2. pose proof (ukind_spec (pos p1)) as X1. pose proof (ukind_spec (pos p2)) as X2.
  rewrite <- U1 in X1. rewrite <- U2 in X2. pose proof (ukind_spec c) as X. rewrite Hc in X.
  rewrite E1 in X1. rewrite E2 in X2. apply In_unrot_shifts in S1, S2. unfold padd in *. cbn [fst snd] in *. lia.
Qed.
Section UnrotGates.
  Context (ord : nat -> list string -> list string) (ordp : nat -> list (string * string) -> list (string * string)).
  Hypothesis Hord : forall n s, Permutation (ord n s) s.
  Hypothesis Hordp : forall n s, Permutation (ordp n s) s.
  Context (a : gen_args) (l l2 l3 : layout) (dq : string).
  Notation ps := (unrot_ps a).
  Hypothesis P : planar l unrot_shifts unrot_dirn (ga_pt a) ps.
  Hypothesis Hlog : l_logs l = [ga_log a].
  Hypothesis Hcode : l_code l = "unrotated_surface_code".
  Lemma role_data : get_role l "data" = Ok (labs ps KD). Proof. apply P. Qed.
  Lemma fold_unrot sizes ax p v : fold_checks l "unrotated_surface_code" sizes dq = Ok tt -> fold_line l dq = Ok (ax, p, v) ->
    exists c e, (fst e = 1 \/ fst e = -1) /\ (snd e = 1 \/ snd e = -1) /\ ukind c = KD /\ p = crd (ga_pt a) c /\ v = vz e.
  Proof.
    intros F L. apply fold_data in F as (data & Ed & Id & _). rewrite role_data in Ed. injection Ed as <-.
    apply labs_place in Id as (d & Hd & Kd & <-).
    destruct (fold_line_ok _ _ _ _ _ P d ax p v Hd L) as (pa & pz & ph & s1 & s2 & Ha & Hz & Hh & S1 & S2 & Ka & Kz & La & Ea & Ez & Eh & -> & ->).
    destruct (ups_pos _ _ Hd) as [_ U]. rewrite Kd in U. symmetry in U.
    pose proof (shift_unit a (pos d) s1 s2 pa pz U Ha Hz Ka Kz S1 S2 Ea Ez) as [E1 E2]. exists (pos d), (padd s1 s2). auto.
  Qed.
  Lemma unrot_s_labels :
    set_trans_s_unrot l dq = Ok l2 -> touched (("trans-s_" ++ ga_log a) :: structure)%string l2 l3 ->
    exists pf loc nd, pairing (labs ps KD) pf /\ first_log l3 = Ok (ga_log a) /\ new_stab_dict l3 ("trans-s_" ++ ga_log a) = Ok nd /\
      label_act (fun ord ordp => trans_s_blocks ord ordp l3) (css l) (ancs ps) (s_op (labs ps KD) pf loc) nd.
  Proof.
    intros H T3. unfold set_trans_s_unrot in H. apply bind_ok in H as [[] [F H]]. rewrite role_data in H. cbn [bind] in H.
    unfold gate_s in H. rewrite (first_one l _ Hlog) in H. cbn [bind] in H. apply bind_ok in H as [[[ax p] v] [L H]].
    apply bind_ok in H as [tab [Et H]]. apply bind_ok in H as [cz [Ec H]]. apply bind_ok in H as [s [Es H]].
    destruct (fold_unrot _ _ _ _ F L) as (c0 & e & E1 & E2 & Kc & -> & ->).
    refine (s_labels cz s false None l l2 l3 (labs ps KD) (labs ps KX) (labs ps KZ) (ancs ps) (ga_log a)
             _ _ _ role_data (pn_x _ _ _ _ _ P) (pn_z _ _ _ _ _ P) (pn_anc _ _ _ _ _ P) _ _ _ _ (first_one l _ Hlog) _ H _ T3).
    - apply (partners_inv a l P c0 e E1 E2 Kc tab Et cz Ec).
    - intros q g _ Eg. destruct (diagonal_get a l P c0 e tab Et s Es q g Eg) as [|[]]; auto.
    - intros _. apply (diagonal_none a l P c0 e E1 E2 Kc tab Et cz Ec s Es).
    - apply (data_ancs _ _ _ _ _ P).
    - intros x. apply (labs_disj _ _ _ _ _ P). discriminate.
    - apply ancs_labs.
    - apply (support_ok _ _ _ _ _ P unrot_shifts_nodup).
    - unfold trans_code_ok. now rewrite Hcode.
    - discriminate.
  Qed.
  Lemma unrot_s_conjugates w w' c :
    set_trans_s_unrot l dq = Ok l2 -> touched (("trans-s_" ++ ga_log a) :: structure)%string l2 l3 ->
    SpecNoise.wf_inds (inds (fst w)) -> log_trans_s ord ordp l3 w = (w', Ok c) ->
    exists nd, new_stab_dict l3 ("trans-s_" ++ ga_log a) = Ok nd /\ update_from_dict nd (snd w) = (snd w', Ok tt) /\ involutive_map nd /\
      forall x, In x (ancs ps) -> exists new, dget x nd = Some new /\ conjugates (inds (fst w)) (css l) c x new.
  Proof.
    intros H T3 W Hw. destruct (unrot_s_labels H T3) as (pf & loc & nd & _ & El & En & A). exists nd. split; [exact En|].
    exact (label_conjugates "trans-s_" trans_s_blocks l3 _ _ _ nd (ga_log a) ord ordp w w' c Hord Hordp El En A W Hw).
  Qed.
  Lemma gate_h_new : ~ In ("trans-h_" ++ ga_log a)%string structure.
  Proof. cbn. intros [E|[E|[E|[E|[E|[E|[]]]]]]]; discriminate. Qed.
  Lemma unrot_h_labels_at :
    set_trans_h l dq = Ok l2 -> touched (("trans-h_" ++ ga_log a) :: structure)%string l2 l3 ->
    exists pf nd, pairing (labs ps KD) pf /\ first_log l3 = Ok (ga_log a) /\ new_stab_dict l3 ("trans-h_" ++ ga_log a) = Ok nd /\
      label_act (fun ord ordp => trans_h_blocks ord ordp l3) (css l) (ancs ps) (h_op (labs ps KD) pf) nd /\
      get_role l3 "data" = Ok (labs ps KD) /\ l_code l3 = "unrotated_surface_code" /\
      (forall q, In q (labs ps KD) -> lparam l3 ("trans-h_" ++ ga_log a) q = Ok (PDict [("swap", label_or_none (pf q)); ("local", PStr "H")])) /\
      (forall x v, dget x nd = Some v -> exists b, In b (ancs ps) /\ v = [b]) /\
      exists c0 e, (fst e = 1 \/ fst e = -1) /\ (snd e = 1 \/ snd e = -1) /\ ukind c0 = KD /\
        forall p, In p ps -> knd p = KD -> exists p', In p' ps /\ knd p' = KD /\ pos p' = mirror c0 e (pos p) /\ odef (pl_lab p) (pf (pl_lab p)) = pl_lab p'.
  Proof.
    intros H T3. unfold set_trans_h in H. apply bind_ok in H as [[] [F H]].
    assert (Ra : get_role l "anc" = Ok (ancs ps)) by apply (pn_anc _ _ _ _ _ P). rewrite role_data, Ra in H. cbn [bind] in H.
    unfold gate_h in H. rewrite (first_one l _ Hlog) in H. cbn [bind] in H. apply bind_ok in H as [[[ax p] v] [L H]].
    apply bind_ok in H as [tab [Et H]]. apply bind_ok in H as [cz [Ec H]]. apply bind_ok in H as [l1 [H1 H]]. apply bind_ok in H as [new [H2 H3]].
    destruct (fold_unrot _ _ _ _ F L) as (c0 & e & E1 & E2 & Kc & -> & ->). set (gate := ("trans-h_" ++ ga_log a)%string) in *.
    destruct (set_params_ok structure _ _ _ gate_h_new _ _ H1) as (T1 & V1 & O1).
    destruct (set_params_ok structure _ _ _ gate_h_new _ _ H3) as (T2 & V2 & O2).
    assert (T3' : touched structure l2 l3) by (eapply touched_incl; [|exact T3]; intros k Hk; now right).
    assert (T0 : touched structure l l3) by (eapply touched_trans; [exact T1|]; eapply touched_trans; eauto).
    assert (P3 : forall q, lparam l3 gate q = lparam l2 gate q) by (intros q; apply (touched_param _ _ _ T3); now left).
    assert (New : forall x, In x (ancs ps) -> exists b, reflected l1 tab (crd (ga_pt a) c0) (vz e) x = Ok b /\ dget x new = Some [b]).
    { assert (G : forall qs d d', foldM (fun d a0 => do b <- reflected l1 tab (crd (ga_pt a) c0) (vz e) a0; Ok (dset a0 [b] d)) qs d = Ok d' ->
        (forall x, In x qs -> exists b, reflected l1 tab (crd (ga_pt a) c0) (vz e) x = Ok b /\ dget x d' = Some [b]) /\
        forall x, ~ In x qs -> dget x d' = dget x d).
      { clear. induction qs as [|q qs IH]; intros d d' H; cbn [foldM] in H; [injection H as <-; split; [intros x []|reflexivity]|].
        apply bind_ok in H as [d1 [H1 H]]. apply bind_ok in H1 as [b [Eb H1]]. injection H1 as <-. destruct (IH _ _ H) as [A B]. split.
        - intros x [<-|Hx]; [|now apply A]. destruct (in_dec string_dec q qs) as [I|I]; [now apply A|]. exists b. split; [exact Eb|].
          rewrite B by exact I. apply dget_dset_same.
        - intros x Hx. rewrite B; [|intros K; apply Hx; now right]. apply dget_dset_other. intros ->. apply Hx. now left. }
      apply (G _ _ _ H2). }
    set (f := fun x => odef [] (dget x new)).
    assert (Fa : forall x, In x ps -> knd x <> KD -> exists y, In y ps /\ pos y = mirror c0 e (pos x) /\ f (pl_lab x) = [pl_lab y] /\
      knd y = match knd x with KD => KD | KX => KZ | KZ => KX end).
    { intros x Hx Kx. destruct (New (pl_lab x)) as (b & Eb & D).
      { apply ancs_labs. destruct (knd x) eqn:K; [tauto| |]; [left|right]; apply labs_place; eauto. }
      apply (reflected_ok a l P c0 e E1 E2 Kc tab Et l1 x b T1 Hx) in Eb as (y & Hy & <- & Ey & Ky). exists y. do 2 (split; [assumption|]).
      split; [|exact Ky]. unfold f. now rewrite D. }
    destruct (new_stab_dict_ok l3 gate (ancs ps) f) as (nd & En & Hn).
    { rewrite (touched_role _ _ _ T0 (incl_refl _)). exact Ra. }
    { intros x Ix. rewrite P3. destruct (V2 x Ix) as (v & Ev & Lv). apply bind_ok in Ev as [st [Es Ev]]. injection Ev as <-.
      unfold f, dget_err in *. destruct (dget x new); [|discriminate]. injection Es as ->. exact Lv. }
    exists (swf a cz), nd. split; [exact (swf_in a l P c0 e E1 E2 Kc tab Et cz Ec)|].
    split; [rewrite (touched_first _ _ _ T0); now apply first_one|]. split; [exact En|].
    assert (Ma : forall x, In x (ancs ps) -> dget x nd = Some (f x)) by (intros x Ix; rewrite Hn, (proj2 (mem_In x _) Ix); reflexivity).
    assert (Anc : forall y, In y ps -> knd y <> KD -> In (pl_lab y) (ancs ps)).
    { intros y Hy K. apply ancs_labs. rewrite !labs_place. destruct (knd y) eqn:E; [tauto| |]; [left|right]; eauto. }
    assert (Back : forall x y, In x ps -> In y ps -> knd x <> KD -> pos y = mirror c0 e (pos x) ->
      knd y = match knd x with KD => KD | KX => KZ | KZ => KX end -> f (pl_lab y) = [pl_lab x]).
    { intros x y Hx Hy Kx Ey Ky. destruct (Fa y Hy) as (z & Hz & Ez & -> & _); [destruct (knd x); congruence|].
      rewrite Ey, (mirror_inv c0 e E1 E2) in Ez. apply (pos_eq _ _ _ _ _ P _ _ Hz Hx) in Ez. now subst z. }
    assert (Mi : forall x v, dget x nd = Some v -> exists q y, In q ps /\ knd q <> KD /\ pl_lab q = x /\ In y ps /\ pos y = mirror c0 e (pos q) /\
      v = [pl_lab y] /\ knd y = match knd q with KD => KD | KX => KZ | KZ => KX end).
    { intros x v Ev. rewrite Hn in Ev. destruct (mem x (ancs ps)) eqn:M; [|discriminate]. injection Ev as <-. apply mem_In in M.
      apply anc_place in M as (q & Hq & K & <-). destruct (Fa q Hq K) as (y & Hy & Ey & Ef & Ky). exists q, y. auto 9. }
    assert (Attr : forall z, In z (labs ps KD) -> lparam l3 gate z = Ok (PDict [("swap", label_or_none (swf a cz z)); ("local", PStr "H")])).
    { intros z Hz. rewrite P3, O2 by (now apply (data_ancs _ _ _ _ _ P)).
      destruct (V1 z Hz) as (v & Ev & ->). apply bind_ok in Ev as [b [Eb Ev]]. injection Ev as <-.
      unfold swf, dget_err in *. rewrite (proj2 (mem_In z _) Hz). destruct (dget (Some z) cz); [|discriminate]. now injection Eb as ->. }
    split; [|split; [rewrite (touched_role _ _ _ T0 (incl_refl _)); exact role_data|
      split; [destruct (touched_fields _ _ _ T0) as (-> & _); exact Hcode|split; [exact Attr|split]]]].
    2: { intros x v Ev. apply Mi in Ev as (q & y & Hq & K & <- & Hy & Ey & -> & Ky). exists (pl_lab y). split; [|reflexivity].
         apply Anc; [exact Hy|destruct (knd q); congruence]. }
    2: { exists c0, e. do 3 (split; [assumption|]). exact (swf_at a l P c0 e E1 E2 Kc tab Et cz Ec). }
    constructor.
    - intros x. unfold dmem. rewrite Hn, <- mem_In. destruct (mem x (ancs ps)); split; (reflexivity || discriminate).
    - intros x v Ev. apply Mi in Ev as (q & y & Hq & K & <- & Hy & Ey & -> & Ky). right. right. exists (pl_lab y). split; [reflexivity|].
      assert (Ay : In (pl_lab y) (ancs ps)) by (apply Anc; [exact Hy|destruct (knd q); congruence]).
      rewrite (Ma _ Ay), (Back q y) by assumption. reflexivity.
    - intros ord' ordp' Hord' Hordp'.
      assert (K' : forall sel P, ok_blocks (trans_h_blocks ord' ordp' l3) /\ bk (lg_blocks (trans_h_blocks ord' ordp' l3)) sel P
          (h_op (labs ps KD) (swf a cz) P)); [|split; [apply (K' (fun _ => false) identity_op)|apply K']].
      intros sel P'. apply (trans_h_track ord' ordp' Hord' Hordp' l3 (labs ps KD) (ga_log a) (swf a cz) (fun _ => "H")).
      + rewrite (touched_role _ _ _ T0 (incl_refl _)). exact role_data.
      + rewrite (touched_first _ _ _ T0). now apply first_one.
      + apply (swf_in a l P c0 e E1 E2 Kc tab Et cz Ec).
      + destruct (touched_fields _ _ _ T0) as (-> & _). now rewrite Hcode.
      + reflexivity.
      + exact Attr.
    - intros x v Ev. apply Mi in Ev as (q & y & Hq & K & <- & Hy & Ey & -> & Ky). unfold gens.
      assert (Sx : forall z, In z ps -> css l (pl_lab z) = (if isk KX z then support l (pl_lab z) else [], if isk KZ z then support l (pl_lab z) else [])).
      { intros z Hz. unfold css. destruct (of_type_at _ _ _ _ _ P z Hz) as [-> ->]. reflexivity. }
      assert (Out : forall z q0, In z ps -> knd z <> KD -> ~ In q0 (labs ps KD) -> mem q0 (support l (pl_lab z)) = false).
      { intros z q0 Hz Kz Hq0. apply mem_not. intros I. apply Hq0. apply (support_ok _ _ _ _ _ P unrot_shifts_nodup _ (Anc z Hz Kz)). exact I. }
      assert (Step : forall u v, In u ps -> In v ps -> knd u <> KD -> knd v = match knd u with KD => KD | KX => KZ | KZ => KX end ->
        pos v = mirror c0 e (pos u) ->
        peq (h_op (labs ps KD) (swf a cz) (Pauli (prod_x (css l) [pl_lab v]) (prod_z (css l) [pl_lab v]))) (Pauli (prod_x (css l) [pl_lab u]) (prod_z (css l) [pl_lab u]))).
      { intros u v Hu Hv Ku Kv Ev z. unfold h_op, had, prod_x, prod_z. cbn [px pz]. rewrite !prod_one, (Sx u Hu), (Sx v Hv). cbn [fst snd].
        assert (Kv' : knd v <> KD) by (destruct (knd u); congruence).
        destruct (mem z (labs ps KD)) eqn:M.
        - apply mem_In in M. pose proof (support_mirror a l P c0 e E1 E2 Kc tab Et cz Ec u v z Hu Hv Ev M) as S.
          unfold isk. rewrite Kv. destruct (knd u); [tauto| |]; cbn [mem existsb]; rewrite ?S; split; first [exact S|reflexivity].
        - assert (N : ~ In z (labs ps KD)) by (intros I; apply mem_In in I; congruence).
          assert (Z : swf a cz z = None) by (unfold swf; now rewrite M). rewrite Z. cbn [odef].
          destruct (isk KX u), (isk KZ u), (isk KX v), (isk KZ v); rewrite ?(Out u z Hu Ku N), ?(Out v z Hv Kv' N); split; reflexivity. }
      split; [|eapply Step; eauto]. eapply Step; auto.
      + destruct (knd q); congruence.
      + rewrite Ky. destruct (knd q); reflexivity.
      + rewrite Ey. now rewrite (mirror_inv c0 e E1 E2).
  Qed.
  Lemma unrot_h_labels :
    set_trans_h l dq = Ok l2 -> touched (("trans-h_" ++ ga_log a) :: structure)%string l2 l3 ->
    exists pf nd, pairing (labs ps KD) pf /\ first_log l3 = Ok (ga_log a) /\ new_stab_dict l3 ("trans-h_" ++ ga_log a) = Ok nd /\
      label_act (fun ord ordp => trans_h_blocks ord ordp l3) (css l) (ancs ps) (h_op (labs ps KD) pf) nd.
  Proof. intros H T3. destruct (unrot_h_labels_at H T3) as (pf & nd & A & B & C & D & _). exists pf, nd. auto. Qed.
  Lemma unrot_h_conjugates w w' c :
    set_trans_h l dq = Ok l2 -> touched (("trans-h_" ++ ga_log a) :: structure)%string l2 l3 ->
    SpecNoise.wf_inds (inds (fst w)) -> log_trans_h ord ordp l3 w = (w', Ok c) ->
    exists nd, new_stab_dict l3 ("trans-h_" ++ ga_log a) = Ok nd /\ update_from_dict nd (snd w) = (snd w', Ok tt) /\ involutive_map nd /\
      forall x, In x (ancs ps) -> exists new, dget x nd = Some new /\ conjugates (inds (fst w)) (css l) c x new.
  Proof.
    intros H T3 W Hw. destruct (unrot_h_labels H T3) as (pf & nd & _ & El & En & A). exists nd. split; [exact En|].
    exact (label_conjugates "trans-h_" trans_h_blocks l3 _ _ _ nd (ga_log a) ord ordp w w' c Hord Hordp El En A W Hw).
  Qed.
End UnrotGates.
