(** The transversal CNOT on the generators of two layouts. *)
From Coq Require Import QArith Qcanon.
From Verif Require Import Base Lib StimM SetupM NoiseM SpecNoise NoiseP LayoutM SpecLayout LayoutP LayoutP2 SetupP MatM MatP DetM SpecDet DetP DetLinP GenM GenP SpecGen GeomP
  BlockM LogM SpecLog ExpM SpecTrack TrackP LiftP ExpP2 ExpP5 ActP RoundP RepP RepP2 RepP5 LogP LogP2 LogP3 LogP4 LogP5 LogP6 LogP7 LogP8 LogP9 LogP10 CnotP4.
Open Scope Z_scope.

Lemma NoDup_map_in {A B} (f : A -> B) l : (forall x y, In x l -> In y l -> f x = f y -> x = y) -> NoDup l -> NoDup (map f l).
Proof.
  intros I N. induction N as [|x l Hx N IH]; cbn [map]; constructor.
  - intros K. apply in_map_iff in K as (y & E & Hy). apply I in E; [|now right|now left]. now subst.
  - apply IH. intros y z Hy Hz. apply I; now right.
Qed.
Lemma cnot_op_good dc dt fwd bwd : (forall q, In q dc -> In (fwd q) dt /\ bwd (fwd q) = q) -> (forall q, In q dt -> In (bwd q) dc /\ fwd (bwd q) = q) ->
  (forall q, In q dc -> ~ In q dt) -> good_op (dc ++ dt) (cnot_op dc dt fwd bwd).
Proof.
  intros Hf Hb Hd. constructor.
  - apply cnot_op_peq.
  - intros p q x. unfold cnot_op, padd. cbn [px pz]. split.
    + destruct (px p x), (px q x), (mem x dt), (px p (bwd x)), (px q (bwd x)); reflexivity.
    + destruct (pz p x), (pz q x), (mem x dc), (pz p (fwd x)), (pz q (fwd x)); reflexivity.
  - intros p q H. unfold cnot_op. cbn [px pz]. rewrite !mem_not by (intros K; apply H; apply in_or_app; tauto). cbn [andb]. now rewrite !xorb_false_r.
  - intros p q Z H. unfold cnot_op. cbn [px pz]. destruct (Z q H) as [-> ->]. rewrite !xorb_false_l. split.
    + destruct (mem q dt) eqn:M; [|reflexivity]. apply mem_In in M. apply Z. apply in_or_app. left. now apply Hb.
    + destruct (mem q dc) eqn:M; [|reflexivity]. apply mem_In in M. apply Z. apply in_or_app. right. now apply Hf.
  - intros p q. unfold cnot_op. cbn [px pz]. split.
    + destruct (mem q dt) eqn:M; [|cbn [andb]; now rewrite !xorb_false_r]. apply mem_In in M. rewrite (mem_not (bwd q) dt) by (apply Hd; now apply Hb).
      cbn [andb]. rewrite xorb_false_r. destruct (px p q), (px p (bwd q)); reflexivity.
    + destruct (mem q dc) eqn:M; [|cbn [andb]; now rewrite !xorb_false_r]. apply mem_In in M. rewrite (mem_not (fwd q) dc) by (intros K; apply (Hd _ K); now apply Hf).
      cbn [andb]. rewrite xorb_false_r. destruct (pz p q), (pz p (fwd q)); reflexivity.
  - intros N p q. apply NoDup_app_inv in N as (N1 & N2 & _). unfold form. rewrite !map_app, !DetP.xorl_app.
    set (F := fun c => xorb (px p c && pz q (fwd c)) (pz p (fwd c) && px q c)). set (G := fun t => xorb (px p (bwd t) && pz q t) (pz p t && px q (bwd t))).
    rewrite (DetP.xorl_ext _ (fun c => xorb (xorb (px p c && pz q c) (pz p c && px q c)) (F c)) dc).
    2:{ intros c Hc. unfold cnot_op, F. cbn [px pz]. rewrite (proj2 (mem_In c dc) Hc), (mem_not c dt) by auto. cbn [andb]. rewrite !xorb_false_r.
        destruct (px p c), (pz p c), (px q c), (pz q c), (pz q (fwd c)), (pz p (fwd c)); reflexivity. }
    rewrite (DetP.xorl_ext _ (fun t => xorb (xorb (px p t && pz q t) (pz p t && px q t)) (G t)) dt).
    2:{ intros c Hc. unfold cnot_op, G. cbn [px pz]. rewrite (proj2 (mem_In c dt) Hc), (mem_not c dc) by (intros K; exact (Hd c K Hc)). cbn [andb]. rewrite !xorb_false_r.
        destruct (px p c), (pz p c), (px q c), (pz q c), (px q (bwd c)), (px p (bwd c)); reflexivity. }
    rewrite !RoundP.xorl_map_xorb.
    assert (E : xorl (map G dt) = xorl (map F dc)).
    { rewrite <- (xorl_perm G (map fwd dc) dt).
      - rewrite map_map. apply DetP.xorl_ext. intros c Hc. unfold F, G. now destruct (Hf c Hc) as [_ ->].
      - apply NoDup_Permutation.
        + apply NoDup_map_in; [|exact N1]. intros x y Hx Hy E. destruct (Hf x Hx) as [_ <-], (Hf y Hy) as [_ <-]. now rewrite E.
        + exact N2.
        + intros t. rewrite in_map_iff. split; [intros (c & <- & Hc); now apply Hf|]. intros Ht. exists (bwd t). destruct (Hb t Ht). auto. }
    rewrite E. generalize (xorl (map F dc)). intros z. repeat (match goal with |- context[xorl ?x] => generalize (xorl x); intros ? end). repeat (match goal with b : bool |- _ => destruct b end); reflexivity.
Qed.
Lemma cnot_op_keeps dc dt fwd bwd p : ((forall q, px p q = false) -> forall q, px (cnot_op dc dt fwd bwd p) q = false) /\
  ((forall q, pz p q = false) -> forall q, pz (cnot_op dc dt fwd bwd p) q = false).
Proof. unfold cnot_op. cbn [px pz]. split; intros H q; rewrite !H; now destruct (mem q _). Qed.
Lemma good_op_perm d d' op : Permutation d d' -> good_op d op -> good_op d' op.
Proof.
  intros P [A B C D E F]. constructor; auto.
  - intros p q H. apply C. intros K. apply H. eapply Permutation_in; eassumption.
  - intros p q Z H. apply D; [|eapply Permutation_in; [symmetry; exact P|exact H]]. intros x Hx. apply Z. eapply Permutation_in; eassumption.
  - intros N p q. unfold form. rewrite !(xorl_perm _ _ _ (Permutation_sym P)). apply F. eapply Permutation_NoDup; [symmetry; exact P|exact N].
Qed.
Lemma label_act_perm bl st a a' op nd : Permutation a a' -> label_act bl st a op nd -> label_act bl st a' op nd.
Proof.
  intros P [A B C D]. constructor; auto. intros x. rewrite <- A. split; intros H; (eapply Permutation_in; [|exact H]); [now symmetry|exact P].
Qed.

Section Cnot.
  Context (lc lt lc2 lt2 lc3 lt3 : layout) (shifts : list (Z * Z)) (dirn dirn' : Z * Z -> string) (ptc ptt : Qc * Qc) (pc pt : list placed).
  Hypothesis Pc : planar lc shifts dirn ptc pc.
  Hypothesis Pt : planar lt shifts dirn' ptt pt.
  Hypothesis Ns : NoDup shifts.
  Hypothesis Hit : map pl_item pc = map pl_item pt.
  Context (code : string) (monos : list (dict string string)) (gc gt : string).
  Hypothesis Hcode : code = "rotated_surface_code" \/ code = "unrotated_surface_code".
  Hypothesis Hmonos : Forall (monomorphism lc lt) monos.
  Hypothesis Hgc : l_logs lc = [gc].
  Hypothesis Hgt : l_logs lt = [gt].
  Let gate := ("trans-cnot_" ++ gc ++ "_" ++ gt)%string.
  Hypothesis Hset : set_trans_cnot code monos lc lt = Ok (lc2, lt2).
  Hypothesis Tc3 : touched (gate :: structure) lc2 lc3.
  Hypothesis Tt3 : touched (gate :: structure) lt2 lt3.
  (* the qubits of the two layouts at the same place *)
  Definition same_place (f b : string -> string) : Prop :=
    (forall p, In p pc -> exists p', In p' pt /\ pos p' = pos p /\ knd p' = knd p /\ f (pl_lab p) = pl_lab p' /\ b (pl_lab p') = pl_lab p) /\
    (forall p', In p' pt -> exists p, In p pc /\ pos p' = pos p /\ knd p' = knd p /\ f (pl_lab p) = pl_lab p' /\ b (pl_lab p') = pl_lab p).
  Record cnot_facts (f b : string -> string) (nc nt : dict string (list string)) : Prop := {
    cf_label : cnot_label lc3 lt3 = Ok gate;
    cf_nc : new_stab_dict lc3 gate = Ok nc;
    cf_nt : new_stab_dict lt3 gate = Ok nt;
    cf_dis : forall p p', In p pc -> In p' pt -> pl_lab p <> pl_lab p';
    cf_place : same_place f b;
    cf_act : label_act (fun ord ordp => trans_cnot_blocks ord ordp lc3 lt3) (joint (css lc) (css lt)) (ancs pc ++ ancs pt) (cnot_op (labs pc KD) (labs pt KD) f b) (dupdate nc nt);
    cf_good : good_op (labs pc KD ++ labs pt KD) (cnot_op (labs pc KD) (labs pt KD) f b);
    cf_alone : forall a, In a (labs pc KZ) \/ In a (labs pt KX) -> dget a (dupdate nc nt) = Some [a];
    cf_x : forall a, In a (labs pc KX) -> dget a (dupdate nc nt) = Some [a; f a];
    cf_z : forall a, In a (labs pt KZ) -> dget a (dupdate nc nt) = Some [a; b a];
    cf_attr : forall q, In q (labs pc KD) -> lparam lc3 gate q = Ok (PDict [("cnot", PStr (f q))]) }.
  Lemma cnot_labels : touched structure lc lc3 /\ touched structure lt lt3 /\ exists f b nc nt, cnot_facts f b nc nt.
  Proof.
    pose proof (gate_cnot_new gc gt) as Gn. fold gate in Gn.
    pose proof Hset as H. unfold set_trans_cnot in H.
    destruct (eqb_spec (l_code lc) code) as [Cc|]; [|discriminate]. destruct (eqb_spec (l_code lt) code) as [Ct|]; [|discriminate]. cbn [negb orb] in H.
    destruct (negb _ || negb _); [discriminate|]. apply bind_ok in H as [[] [Ov H]].
    rewrite (label_cnot gc gt _ _ (first_one _ _ Hgc) (first_one _ _ Hgt)) in H. cbn [bind] in H.
    destruct (Nat.eqb (length monos) 0); [discriminate|]. apply bind_ok in H as [o [Ch H]]. apply bind_ok in H as [m [Em H]].
    destruct o as [m'|]; [|discriminate]. injection Em as ->. apply choose_in in Ch as [Im [base Hpar]].
    assert (Hm : monomorphism lc lt m) by (rewrite Forall_forall in Hmonos; now apply Hmonos).
    assert (Dc : get_role lc "data" = Ok (labs pc KD)) by apply Pc. assert (Dt : get_role lt "data" = Ok (labs pt KD)) by apply Pt.
    rewrite Dc, Dt in H. cbn [bind] in H. fold (inverse m) in H.
    apply bind_ok in H as [lc1 [H1 H]]. apply bind_ok in H as [lt1 [H2 H]].
    destruct (set_params_ok structure _ _ _ Gn _ _ H1) as (T1 & V1 & O1).
    destruct (set_params_ok structure _ _ _ Gn _ _ H2) as (T2 & V2 & O2).
    rewrite !(touched_stabs _ _ _ T1 (incl_refl _)), !(touched_stabs _ _ _ T2 (incl_refl _)),
            !(touched_role _ _ _ T1 (incl_refl _)), !(touched_role _ _ _ T2 (incl_refl _)) in H.
    assert (Zc : get_stabs lc "z_type" = Ok (labs pc KZ)) by apply Pc. assert (Xc : get_stabs lc "x_type" = Ok (labs pc KX)) by apply Pc.
    assert (Zt : get_stabs lt "z_type" = Ok (labs pt KZ)) by apply Pt. assert (Xt : get_stabs lt "x_type" = Ok (labs pt KX)) by apply Pt.
    assert (Ac : get_role lc "anc" = Ok (ancs pc)) by apply Pc. assert (At : get_role lt "anc" = Ok (ancs pt)) by apply Pt.
    rewrite Zc, Xc, Zt, Xt, Ac, At in H. cbn [bind] in H.
    apply bind_ok in H as [n1 [N1 H]]. apply bind_ok in H as [n2 [N2 H]]. apply bind_ok in H as [n3 [N3 H]]. apply bind_ok in H as [n4 [N4 H]].
    apply bind_ok in H as [x1 [H3 H]]. apply bind_ok in H as [x2 [H4 H]]. injection H as -> ->.
    pose proof (alone_get _ _ _ N1) as G1. pose proof (paired_get _ _ _ _ N2) as G2. pose proof (paired_get _ _ _ _ N3) as G3. pose proof (alone_get _ _ _ N4) as G4.
    destruct (set_params_ok structure _ _ _ Gn _ _ H3) as (T3 & V3 & O3).
    destruct (set_params_ok structure _ _ _ Gn _ _ H4) as (T4 & V4 & O4).
    assert (Tc : touched structure lc lc3).
    { eapply touched_trans; [exact T1|]. eapply touched_trans; [exact T3|]. eapply touched_incl; [|exact Tc3]. intros k Hk. now right. }
    assert (Tt : touched structure lt lt3).
    { eapply touched_trans; [exact T2|]. eapply touched_trans; [exact T4|]. eapply touched_incl; [|exact Tt3]. intros k Hk. now right. }
    assert (Q3 : forall q, lparam lc3 gate q = lparam lc2 gate q) by (intros q; apply (touched_param _ _ _ Tc3); now left).
    assert (Q4 : forall q, lparam lt3 gate q = lparam lt2 gate q) by (intros q; apply (touched_param _ _ _ Tt3); now left).
    assert (Eg' : cnot_label lc3 lt3 = Ok gate).
    { apply label_cnot; [rewrite (touched_first _ _ _ Tc)|rewrite (touched_first _ _ _ Tt)]; now apply first_one. }
    (* disjoint labels *)
    assert (Dis : forall p p', In p pc -> In p' pt -> pl_lab p <> pl_lab p').
    { intros p p' Hp Hp' E. apply (not_overlapping lc lt Ov (pl_lab p)); unfold dkeys; [rewrite (pn_nodes _ _ _ _ _ Pc)|rewrite (pn_nodes _ _ _ _ _ Pt), E]; now apply in_map. }
    assert (Dl : forall k k' q, In q (labs pc k) -> ~ In q (labs pt k')).
    { intros k k' q I I'. apply labs_place in I as (p & Hp & _ & <-). apply labs_place in I' as (p' & Hp' & _ & E). now apply (Dis p p' Hp Hp'). }
    assert (Da : forall q, In q (ancs pc) -> ~ In q (ancs pt)).
    { intros q I I'. apply anc_place in I as (p & Hp & _ & <-). apply anc_place in I' as (p' & Hp' & _ & E). now apply (Dis p p' Hp Hp'). }
    set (f := fun a => odef [] (dget a n4)).
    assert (Fzc : forall a, In a (labs pc KZ) -> f a = [a]).
    { intros a Ia. unfold f. rewrite G4, (mem_not a _ (Dl _ KX a Ia)), G3, (mem_not a _ (Dl _ KZ a Ia)), G2.
      rewrite (mem_not a (labs pc KX)) by (apply (labs_disj _ _ _ _ _ Pc KZ); [discriminate|exact Ia]).
      now rewrite G1, (proj2 (mem_In a _) Ia). }
    assert (Fxc : forall a, In a (labs pc KX) -> f a = [a; fwd m a]).
    { intros a Ia. unfold f. rewrite G4, (mem_not a _ (Dl _ KX a Ia)), G3, (mem_not a _ (Dl _ KZ a Ia)), G2.
      now rewrite (proj2 (mem_In a _) Ia). }
    assert (Fxt : forall a, In a (labs pt KX) -> f a = [a]) by (intros a Ia; unfold f; now rewrite G4, (proj2 (mem_In a _) Ia)).
    assert (Fzt : forall a, In a (labs pt KZ) -> f a = [a; bwd m a]).
    { intros a Ia. unfold f. rewrite G4, (mem_not a (labs pt KX)) by (apply (labs_disj _ _ _ _ _ Pt KZ); [discriminate|exact Ia]).
      now rewrite G3, (proj2 (mem_In a _) Ia). }
    destruct (new_stab_dict_ok lc3 gate (ancs pc) f) as (nc & Enc & Hnc).
    { now rewrite (touched_role _ _ _ Tc (incl_refl _)). }
    { intros a Ia. rewrite Q3. destruct (V3 a Ia) as (v & Ev & Lv). apply bind_ok in Ev as [st [Es Ev]]. injection Ev as <-.
      unfold f, dget_err in *. destruct (dget a n4); [|discriminate]. injection Es as ->. exact Lv. }
    destruct (new_stab_dict_ok lt3 gate (ancs pt) f) as (nt & Ent & Hnt).
    { now rewrite (touched_role _ _ _ Tt (incl_refl _)). }
    { intros a Ia. rewrite Q4. destruct (V4 a Ia) as (v & Ev & Lv). apply bind_ok in Ev as [st [Es Ev]]. injection Ev as <-.
      unfold f, dget_err in *. destruct (dget a n4); [|discriminate]. injection Es as ->. exact Lv. }
    assert (Nd : forall a, dget a (dupdate nc nt) = if mem a (ancs pc ++ ancs pt) then Some (f a) else None).
    { intros a. rewrite dget_dupdate by (eapply new_stab_keys; exact Ent). rewrite Hnc, Hnt.
      rewrite mem_app.
      destruct (mem a (ancs pt)), (mem a (ancs pc)); reflexivity. }
    assert (Ma : forall a, In a (ancs pc) \/ In a (ancs pt) -> dget a (dupdate nc nt) = Some (f a)).
    { intros a Ia. rewrite Nd, (proj2 (mem_In a _)); [reflexivity|]. now apply in_or_app. }
    (* the mapping *)
    pose proof (fwd_at lc lt shifts dirn dirn' ptc ptt pc pt Pc Pt Hit m Hm base Hpar) as FA.
    pose proof (bwd_at lc lt shifts dirn dirn' ptc ptt pc pt Pc Pt Hit m Hm base Hpar) as BA.
    pose proof (sup_pair lc lt shifts dirn dirn' ptc ptt pc pt Pc Pt Ns) as SP.
    assert (FP : forall p, In p pc -> exists p', In p' pt /\ pos p' = pos p /\ knd p' = knd p /\ fwd m (pl_lab p) = pl_lab p' /\ bwd m (pl_lab p') = pl_lab p).
    { intros p Hp. destruct (FA p Hp) as (p' & Hp' & E & K & D1 & D2). exists p'. unfold fwd, bwd. rewrite D1, D2. auto. }
    assert (BP : forall p', In p' pt -> exists p, In p pc /\ pos p' = pos p /\ knd p' = knd p /\ fwd m (pl_lab p) = pl_lab p' /\ bwd m (pl_lab p') = pl_lab p).
    { intros p' Hp'. destruct (BA p' Hp') as (p & Hp & E & K & D1 & D2). exists p. unfold fwd, bwd. rewrite D1, D2. auto. }
    assert (Inc : forall p, In p pc -> knd p <> KD -> In (pl_lab p) (ancs pc)).
    { intros p Hp K. apply ancs_labs. rewrite !labs_place. destruct (knd p) eqn:E; [tauto| |]; [left|right]; eauto. }
    assert (Int : forall p, In p pt -> knd p <> KD -> In (pl_lab p) (ancs pt)).
    { intros p Hp K. apply ancs_labs. rewrite !labs_place. destruct (knd p) eqn:E; [tauto| |]; [left|right]; eauto. }
    assert (Jc : forall p, In p pc -> joint (css lc) (css lt) (pl_lab p) =
      (if isk KX p then support lc (pl_lab p) else [], if isk KZ p then support lc (pl_lab p) else [])).
    { intros p Hp. unfold joint, css. destruct (of_type_at _ _ _ _ _ Pc p Hp) as [-> ->].
      unfold of_type. rewrite Xt, Zt, !(mem_not (pl_lab p)).
      - cbn [fst snd]. now rewrite !app_nil_r.
      - intros I. apply labs_place in I as (p' & Hp' & _ & E). now apply (Dis p p' Hp Hp').
      - intros I. apply labs_place in I as (p' & Hp' & _ & E). now apply (Dis p p' Hp Hp'). }
    assert (Jt : forall p, In p pt -> joint (css lc) (css lt) (pl_lab p) =
      (if isk KX p then support lt (pl_lab p) else [], if isk KZ p then support lt (pl_lab p) else [])).
    { intros p Hp. unfold joint, css. destruct (of_type_at _ _ _ _ _ Pt p Hp) as [-> ->].
      unfold of_type. rewrite Xc, Zc, !(mem_not (pl_lab p)).
      - reflexivity.
      - intros I. apply labs_place in I as (p' & Hp' & _ & E). now apply (Dis p' p Hp' Hp).
      - intros I. apply labs_place in I as (p' & Hp' & _ & E). now apply (Dis p' p Hp' Hp). }
    split; [exact Tc|]. split; [exact Tt|]. exists (fwd m), (bwd m), nc, nt.
    assert (Of : forall q, In q (labs pc KD) -> In (fwd m q) (labs pt KD) /\ bwd m (fwd m q) = q).
    { intros q I. apply labs_place in I as (y & Hy & K & <-). destruct (FP y Hy) as (y' & Hy' & _ & K' & -> & E). split; [|exact E].
      apply labs_place. exists y'. split; [exact Hy'|]. split; [congruence|reflexivity]. }
    assert (Obw : forall q, In q (labs pt KD) -> In (bwd m q) (labs pc KD) /\ fwd m (bwd m q) = q).
    { intros q I. apply labs_place in I as (y' & Hy' & K & <-). destruct (BP y' Hy') as (y & Hy & _ & K' & E & ->). split; [|exact E].
      apply labs_place. exists y. split; [exact Hy|]. split; [congruence|reflexivity]. }
    constructor; auto.
    - split; assumption.
    - constructor.
      + intros a. unfold dmem. rewrite Nd. split; [intros Ha; now rewrite (proj2 (mem_In a _) Ha)|]. destruct (mem a (ancs pc ++ ancs pt)) eqn:M; [intros _; now apply mem_In|discriminate].
      + intros a v E. rewrite Nd in E. destruct (mem a (ancs pc ++ ancs pt)) eqn:M; [|discriminate]. injection E as <-. apply mem_In in M.
        apply in_app_or in M as [M|M].
        * apply ancs_labs in M as [M|M]; [|left; now apply Fzc]. right. left. apply labs_place in M as (p & Hp & K & <-).
          destruct (FP p Hp) as (p' & Hp' & _ & K' & E & _). rewrite K in K'. exists (pl_lab p'). split; [intros X; symmetry in X; exact (Dis p p' Hp Hp' X)|]. split.
          -- rewrite Fxc by (apply labs_place; eauto). now rewrite E.
          -- rewrite Ma by (right; apply Int; [exact Hp'|congruence]). f_equal. apply Fxt. apply labs_place. eauto.
        * apply ancs_labs in M as [M|M]; [left; now apply Fxt|]. right. left. apply labs_place in M as (p' & Hp' & K & <-).
          destruct (BP p' Hp') as (p & Hp & _ & K' & _ & E). rewrite K in K'. symmetry in K'. exists (pl_lab p). split; [now apply Dis|]. split.
          -- rewrite Fzt by (apply labs_place; eauto). now rewrite E.
          -- rewrite Ma by (left; apply Inc; [exact Hp|congruence]). f_equal. apply Fzc. apply labs_place. eauto.
      + intros ord ordp _ Hordp. split; [refine (proj1 (cnot_track ord ordp Hordp lc3 lt3 (labs pc KD) (labs pt KD) gate (fwd m) (bwd m) _ _ _ _ _ _ _ _ _ (fun _ => false) identity_op))
          |intros sel P; refine (proj2 (cnot_track ord ordp Hordp lc3 lt3 (labs pc KD) (labs pt KD) gate (fwd m) (bwd m) _ _ _ _ _ _ _ _ _ sel P))].
        all: try assumption.
        all: try (now rewrite (touched_role _ _ _ Tc (incl_refl _))); try (now rewrite (touched_role _ _ _ Tt (incl_refl _))).
        all: try (unfold trans_code_ok; destruct (touched_fields _ _ _ Tc) as (-> & _); rewrite Cc; destruct Hcode as [-> | ->]; reflexivity).
        all: try (unfold trans_code_ok; destruct (touched_fields _ _ _ Tt) as (-> & _); rewrite Ct; destruct Hcode as [-> | ->]; reflexivity).
        all: try apply Dl.
        all: intros q I; rewrite Q3, O3 by (now apply (data_ancs _ _ _ _ _ Pc)); destruct (V1 q I) as (v & Ev & ->);
          apply bind_ok in Ev as [b [Eb Ev]]; injection Ev as <-; unfold fwd, dget_err in *; destruct (dget q m); [|discriminate]; now injection Eb as ->.
      + intros a v E. rewrite Nd in E. destruct (mem a (ancs pc ++ ancs pt)) eqn:M; [|discriminate]. injection E as <-. apply mem_In in M. rename M into Ia.
        assert (Main : forall p p', In p pc -> In p' pt -> pos p' = pos p -> knd p <> KD -> knd p' = knd p ->
          fwd m (pl_lab p) = pl_lab p' -> bwd m (pl_lab p') = pl_lab p ->
          (peq (cnot_op (labs pc KD) (labs pt KD) (fwd m) (bwd m) (gens (joint (css lc) (css lt)) [pl_lab p])) (gens (joint (css lc) (css lt)) (f (pl_lab p))) /\
           peq (cnot_op (labs pc KD) (labs pt KD) (fwd m) (bwd m) (gens (joint (css lc) (css lt)) (f (pl_lab p)))) (gens (joint (css lc) (css lt)) [pl_lab p])) /\
          (peq (cnot_op (labs pc KD) (labs pt KD) (fwd m) (bwd m) (gens (joint (css lc) (css lt)) [pl_lab p'])) (gens (joint (css lc) (css lt)) (f (pl_lab p'))) /\
           peq (cnot_op (labs pc KD) (labs pt KD) (fwd m) (bwd m) (gens (joint (css lc) (css lt)) (f (pl_lab p')))) (gens (joint (css lc) (css lt)) [pl_lab p']))).
        { intros p p' Hp Hp' Ep Kp Kp' Ef Eb.
          set (A := fun q => mem q (support lc (pl_lab p))). set (B := fun q => mem q (support lt (pl_lab p'))).
          assert (OA : forall q, ~ In q (labs pc KD) -> A q = false).
          { intros q N. apply mem_not. intros I. apply N. apply (support_ok _ _ _ _ _ Pc Ns _ (Inc p Hp Kp)). exact I. }
          assert (OB : forall q, ~ In q (labs pt KD) -> B q = false).
          { intros q N. apply mem_not. intros I. apply N. apply (support_ok _ _ _ _ _ Pt Ns _ (Int p' Hp' ltac:(congruence))). exact I. }
          assert (OAB : forall q, In q (labs pc KD) -> A q = B (fwd m q)).
          { intros q I. apply labs_place in I as (y & Hy & K & <-). destruct (FP y Hy) as (y' & Hy' & E & _ & -> & _). unfold A, B. now apply SP. }
          assert (TP : forall X Z X' Z' g g', peq (gens (joint (css lc) (css lt)) g) (Pauli X Z) -> peq (gens (joint (css lc) (css lt)) g') (Pauli X' Z') ->
            peq (cnot_op (labs pc KD) (labs pt KD) (fwd m) (bwd m) (Pauli X' Z')) (Pauli X Z) ->
            peq (cnot_op (labs pc KD) (labs pt KD) (fwd m) (bwd m) (Pauli X Z)) (Pauli X' Z') ->
            peq (cnot_op (labs pc KD) (labs pt KD) (fwd m) (bwd m) (gens (joint (css lc) (css lt)) g)) (gens (joint (css lc) (css lt)) g') /\
            peq (cnot_op (labs pc KD) (labs pt KD) (fwd m) (bwd m) (gens (joint (css lc) (css lt)) g')) (gens (joint (css lc) (css lt)) g)).
          { intros X Z X' Z' g g' E1 E2 C1 C2. split.
            - eapply peq_trans; [apply cnot_op_peq; exact E1|]. eapply peq_trans; [exact C2|]. now apply peq_sym.
            - eapply peq_trans; [apply cnot_op_peq; exact E2|]. eapply peq_trans; [exact C1|]. now apply peq_sym. }
          pose proof (Dl KD KD) as Od.
          destruct (knd p) eqn:K; [tauto| |].
          - (* X *)
            assert (J1 : joint (css lc) (css lt) (pl_lab p) = (support lc (pl_lab p), [])) by (rewrite (Jc p Hp); unfold isk; now rewrite K).
            assert (J2 : joint (css lc) (css lt) (pl_lab p') = (support lt (pl_lab p'), [])) by (rewrite (Jt p' Hp'); unfold isk; now rewrite Kp').
            rewrite Fxc by (apply labs_place; eauto). rewrite Fxt by (apply labs_place; eauto). rewrite Ef. split.
            + apply (TP A (fun _ => false) (fun q => xorb (A q) (B q)) (fun _ => false)).
              * intros q. cbn [gens px pz]. unfold prod_x, prod_z. rewrite !prod_one, J1. split; reflexivity.
              * intros q. cbn [gens px pz]. unfold prod_x, prod_z. rewrite !prod_two, J1, J2. split; reflexivity.
              * now apply op_xc'.
              * now apply op_xc.
            + apply (TP B (fun _ => false) B (fun _ => false)); [| |now apply (op_xt _ _ _ _ A)|now apply (op_xt _ _ _ _ A)];
                intros q; cbn [gens px pz]; unfold prod_x, prod_z; rewrite !prod_one, J2; split; reflexivity.
          - (* Z *)
            assert (J1 : joint (css lc) (css lt) (pl_lab p) = ([], support lc (pl_lab p))) by (rewrite (Jc p Hp); unfold isk; now rewrite K).
            assert (J2 : joint (css lc) (css lt) (pl_lab p') = ([], support lt (pl_lab p'))) by (rewrite (Jt p' Hp'); unfold isk; now rewrite Kp').
            rewrite Fzc by (apply labs_place; eauto). rewrite Fzt by (apply labs_place; eauto). rewrite Eb. split.
            + apply (TP (fun _ => false) A (fun _ => false) A); [| |now apply (op_zc _ _ _ _ A B)|now apply (op_zc _ _ _ _ A B)];
                intros q; cbn [gens px pz]; unfold prod_x, prod_z; rewrite !prod_one, J1; split; reflexivity.
            + apply (TP (fun _ => false) B (fun _ => false) (fun q => xorb (A q) (B q))).
              * intros q. cbn [gens px pz]. unfold prod_x, prod_z. rewrite !prod_one, J2. split; reflexivity.
              * intros q. cbn [gens px pz]. unfold prod_x, prod_z. rewrite !prod_two, J1, J2. split; [reflexivity|]. apply xorb_comm.
              * now apply op_zt'.
              * now apply op_zt. }
        apply in_app_or in Ia as [Ia|Ia]; apply anc_place in Ia as (p & Hp & K & <-).
        * destruct (FP p Hp) as (p' & Hp' & E & K' & E1 & E2). now apply (Main p p').
        * destruct (BP p Hp) as (p' & Hp' & E & K' & E1 & E2). apply (Main p' p); auto. congruence.
    - apply cnot_op_good; auto. apply Dl.
    - intros a [Ha|Ha]; [rewrite Ma, Fzc|rewrite Ma, Fxt]; auto; rewrite !ancs_labs; tauto.
    - intros a Ha. rewrite Ma, Fxc; auto. rewrite !ancs_labs; tauto.
    - intros a Ha. rewrite Ma, Fzt; auto. rewrite !ancs_labs; tauto.
    - intros q I; rewrite Q3, O3 by (now apply (data_ancs _ _ _ _ _ Pc)); destruct (V1 q I) as (v & Ev & ->);
          apply bind_ok in Ev as [b [Eb Ev]]; injection Ev as <-; unfold fwd, dget_err in *; destruct (dget q m); [|discriminate]; now injection Eb as ->.
  Qed.
End Cnot.
