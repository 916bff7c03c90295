(** Proofs about the transversal gates, part 10: the attributes of set_trans_cnot. *)
From Coq Require Import QArith Qcanon.
From Verif Require Import Base Lib StimM NoiseM DetM LayoutM SpecLayout LayoutP LayoutP2 SetupP GenM GenP SpecGen GeomP BlockM SpecTrack TrackP
  RoundP LiftP SpecLog SpecSign LogM LogP LogP2 LogP3 LogP4 LogP5 LogP6 LogP7 LogP8 LogP9.
Open Scope Z_scope.

Lemma filter_mem_nil (l : list string) : filter (fun q => mem q []) l = [].
Proof. induction l; [reflexivity|assumption]. Qed.
Section Op.
  Context (dc dt : list string) (fwd bwd : string -> string) (A B : string -> bool).
  Hypothesis Hf : forall q, In q dc -> In (fwd q) dt /\ bwd (fwd q) = q.
  Hypothesis Hb : forall q, In q dt -> In (bwd q) dc /\ fwd (bwd q) = q.
  Hypothesis Hdis : forall q, In q dc -> ~ In q dt.
  Hypothesis HA : forall q, ~ In q dc -> A q = false.
  Hypothesis HB : forall q, ~ In q dt -> B q = false.
  Hypothesis HAB : forall q, In q dc -> A q = B (fwd q).
  Notation op := (cnot_op dc dt fwd bwd).
  Notation no := (fun _ : string => false).
  Notation AB := (fun q => xorb (A q) (B q)).
  Lemma HBA q : In q dt -> B q = A (bwd q).
  Proof. intros H. destruct (Hb q H) as [I E]. rewrite HAB, E by exact I. reflexivity. Qed.
  Ltac at_q q := destruct (mem q dc) eqn:Mc; destruct (mem q dt) eqn:Mt;
    try (apply mem_In in Mc; apply mem_In in Mt; exfalso; exact (Hdis q Mc Mt)); cbn [andb];
    [apply mem_In in Mc; destruct (Hf q Mc) as [If Ef]; pose proof (Hdis q Mc) as Nd;
     assert (Nf : ~ In (fwd q) dc) by (intros K; exact (Hdis _ K If)); rewrite ?(HB q Nd), ?(HA _ Nf), ?(HAB q Mc)
    |apply mem_In in Mt; destruct (Hb q Mt) as [Ib Eb]; assert (Nc : ~ In q dc) by (intros K; apply mem_In in K; congruence);
     assert (Nb : ~ In (bwd q) dt) by (now apply Hdis); rewrite ?(HA q Nc), ?(HB _ Nb), ?(HBA q Mt)
    |assert (Nc : ~ In q dc) by (intros K; apply mem_In in K; congruence); assert (Nt : ~ In q dt) by (intros K; apply mem_In in K; congruence);
     rewrite ?(HA q Nc), ?(HB q Nt)].
  Ltac fin := rewrite ?xorb_false_r, ?xorb_false_l, ?xorb_nilpotent; reflexivity.
  Lemma op_zc : peq (op (Pauli no A)) (Pauli no A).
  Proof. intros q. unfold cnot_op. cbn [px pz]. split; at_q q; fin. Qed.
  Lemma op_xc : peq (op (Pauli A no)) (Pauli AB no).
  Proof. intros q. unfold cnot_op. cbn [px pz]. split; at_q q; fin. Qed.
  Lemma op_xc' : peq (op (Pauli AB no)) (Pauli A no).
  Proof. intros q. unfold cnot_op. cbn [px pz]. split; at_q q; fin. Qed.
  Lemma op_zt : peq (op (Pauli no B)) (Pauli no AB).
  Proof. intros q. unfold cnot_op. cbn [px pz]. split; at_q q; fin. Qed.
  Lemma op_zt' : peq (op (Pauli no AB)) (Pauli no B).
  Proof. intros q. unfold cnot_op. cbn [px pz]. split; at_q q; fin. Qed.
  Lemma op_xt : peq (op (Pauli B no)) (Pauli B no).
  Proof. intros q. unfold cnot_op. cbn [px pz]. split; at_q q; fin. Qed.
End Op.
Lemma turns_peq bl m m' c (op : pauli string -> pauli string) xs zs xs' zs' X Z X' Z' :
  run_blocks bl m = (m', Ok c) -> ok_blocks bl -> SpecNoise.wf_inds (inds m) ->
  (forall P, bk (lg_blocks bl) (fun _ => false) P (op P)) ->
  (forall P Q, peq P Q -> peq (op P) (op Q)) ->
  peq (op (Pauli X' Z')) (Pauli X Z) -> (forall q, xs q = X q /\ zs q = Z q) -> (forall q, xs' q = X' q /\ zs' q = Z' q) ->
  turns (inds m) c xs zs xs' zs'.
Proof.
  intros R O W B C E E1 E2. apply (turns_intro bl m m' c op); auto. intros q.
  assert (K : peq (Pauli xs' zs') (Pauli X' Z')) by (intros x; cbn [px pz]; apply E2).
  destruct (C _ _ K q) as [K1 K2]. destruct (E q) as [K3 K4]. destruct (E1 q) as [K5 K6]. cbn [px pz] in *. split; congruence.
Qed.
Lemma cnot_op_peq dc dt f b P Q : peq P Q -> peq (cnot_op dc dt f b P) (cnot_op dc dt f b Q).
Proof. intros E q. unfold cnot_op. cbn [px pz]. destruct (E q) as [-> ->], (E (b q)) as [-> _], (E (f q)) as [_ ->]. split; reflexivity. Qed.
Lemma log_cnot_ok ord ordp lc lt w w' c : log_trans_cnot ord ordp lc lt w = (w', Ok c) ->
  exists gate nc nt, cnot_label lc lt = Ok gate /\ new_stab_dict lc gate = Ok nc /\ new_stab_dict lt gate = Ok nt /\
    run_blocks (trans_cnot_blocks ord ordp lc lt) (fst w) = (fst w', Ok c) /\ update_from_dict (dupdate nc nt) (snd w) = (snd w', Ok tt).
Proof.
  unfold log_trans_cnot. intros H. apply sbind_ok in H as (w1 & gate & H1 & H). unfold slift in H1. injection H1 as <- H1.
  apply sbind_ok in H as (w2 & nc & H2 & H). unfold slift in H2. injection H2 as <- H2.
  apply sbind_ok in H as (w3 & nt & H3 & H). unfold slift in H3. injection H3 as <- H3.
  apply sbind_ok in H as (w4 & u & H4 & H). apply ond_ok in H4 as (d' & H4 & ->).
  apply onm_ok in H as (m' & H & ->). cbn [fst snd] in *. destruct u. exists gate, nc, nt. auto.
Qed.

Section Cnot.
  Context (ord : nat -> list string -> list string) (ordp : nat -> list (string * string) -> list (string * string)).
  Hypothesis Hordp : forall n s, Permutation (ordp n s) s.
  Context (lc lt lc2 lt2 lc3 lt3 : layout) (shifts : list (Z * Z)) (dirn dirn' : Z * Z -> string) (ptc ptt : Qc * Qc) (pc pt : list placed).
  Hypothesis Pc : planar lc shifts dirn ptc pc.
  Hypothesis Pt : planar lt shifts dirn' ptt pt.
  Hypothesis Ns : NoDup shifts.
  Hypothesis Hit : map pl_item pc = map pl_item pt.
  Context (code : string) (monos : list (dict string string)) (gc gt : string).
  Hypothesis Hcode : code = "rotated_surface_code" \/ code = "unrotated_surface_code".
  Hypothesis Hmonos : Forall (monomorphism lc lt) monos.
  Hypothesis Hgc : l_logs lc = [gc].
  Hypothesis Hgt : l_logs lt = [gt].
  Let gate := ("trans-cnot_" ++ gc ++ "_" ++ gt)%string.
  Hypothesis Hset : set_trans_cnot code monos lc lt = Ok (lc2, lt2).
  Hypothesis Tc3 : touched (gate :: structure) lc2 lc3.
  Hypothesis Tt3 : touched (gate :: structure) lt2 lt3.
  Lemma gate_cnot_new : ~ In gate structure.
  Proof. unfold gate. cbn. intros [E|[E|[E|[E|[E|[E|[]]]]]]]; discriminate. Qed.
  Lemma label_cnot l l' : first_log l = Ok gc -> first_log l' = Ok gt -> cnot_label l l' = Ok gate.
  Proof. intros E E'. unfold cnot_label. now rewrite E, E'. Qed.
  (* the qubits of the two layouts at the same places *)
  Definition matches (fwd bwd : string -> string) : Prop :=
    (forall p, In p pc -> exists p', In p' pt /\ pos p' = pos p /\ knd p' = knd p /\ fwd (pl_lab p) = pl_lab p' /\ bwd (pl_lab p') = pl_lab p) /\
    (forall p', In p' pt -> exists p, In p pc /\ pos p' = pos p /\ knd p' = knd p /\ fwd (pl_lab p) = pl_lab p' /\ bwd (pl_lab p') = pl_lab p) /\
    (forall p p', In p pc -> In p' pt -> pl_lab p <> pl_lab p').
  Lemma cnot_facts w w' c : SpecNoise.wf_inds (inds (fst w)) -> log_trans_cnot ord ordp lc3 lt3 w = (w', Ok c) ->
    exists nc nt fw bw, new_stab_dict lc3 gate = Ok nc /\ new_stab_dict lt3 gate = Ok nt /\
      update_from_dict (dupdate nc nt) (snd w) = (snd w', Ok tt) /\ involutive_map (dupdate nc nt) /\
      (forall a, In a (ancs pc ++ ancs pt) -> exists new, dget a (dupdate nc nt) = Some new /\
        conjugates (inds (fst w)) (joint (css lc) (css lt)) c a new /\ prod_phase (joint (css lc) (css lt)) new = 0) /\
      run_blocks (trans_cnot_blocks ord ordp lc3 lt3) (fst w) = (fst w', Ok c) /\ ok_blocks (trans_cnot_blocks ord ordp lc3 lt3) /\
      (forall P, bk (lg_blocks (trans_cnot_blocks ord ordp lc3 lt3)) (fun _ => false) P (cnot_op (labs pc KD) (labs pt KD) fw bw P)) /\ matches fw bw.
  Proof.
    intros W Hw. pose proof Hset as H. unfold set_trans_cnot in H.
    destruct (eqb_spec (l_code lc) code) as [Cc|]; [|discriminate]. destruct (eqb_spec (l_code lt) code) as [Ct|]; [|discriminate]. cbn [negb orb] in H.
    destruct (negb _ || negb _); [discriminate|]. apply bind_ok in H as [[] [Ov H]].
    rewrite (label_cnot _ _ (first_one _ _ Hgc) (first_one _ _ Hgt)) in H. cbn [bind] in H.
    destruct (Nat.eqb (length monos) 0); [discriminate|]. apply bind_ok in H as [o [Ch H]]. apply bind_ok in H as [m [Em H]].
    destruct o as [m'|]; [|discriminate]. injection Em as ->. apply choose_in in Ch as [Im [base Hpar]].
    assert (Hm : monomorphism lc lt m) by (rewrite Forall_forall in Hmonos; now apply Hmonos).
    assert (Dc : get_role lc "data" = Ok (labs pc KD)) by apply Pc. assert (Dt : get_role lt "data" = Ok (labs pt KD)) by apply Pt.
    rewrite Dc, Dt in H. cbn [bind] in H. fold (inverse m) in H.
    apply bind_ok in H as [lc1 [H1 H]]. apply bind_ok in H as [lt1 [H2 H]].
    destruct (set_params_ok structure _ _ _ gate_cnot_new _ _ H1) as (T1 & V1 & O1).
    destruct (set_params_ok structure _ _ _ gate_cnot_new _ _ H2) as (T2 & V2 & O2).
    rewrite !(touched_stabs _ _ _ T1 (incl_refl _)), !(touched_stabs _ _ _ T2 (incl_refl _)),
            !(touched_role _ _ _ T1 (incl_refl _)), !(touched_role _ _ _ T2 (incl_refl _)) in H.
    assert (Zc : get_stabs lc "z_type" = Ok (labs pc KZ)) by apply Pc. assert (Xc : get_stabs lc "x_type" = Ok (labs pc KX)) by apply Pc.
    assert (Zt : get_stabs lt "z_type" = Ok (labs pt KZ)) by apply Pt. assert (Xt : get_stabs lt "x_type" = Ok (labs pt KX)) by apply Pt.
    assert (Ac : get_role lc "anc" = Ok (ancs pc)) by apply Pc. assert (At : get_role lt "anc" = Ok (ancs pt)) by apply Pt.
    rewrite Zc, Xc, Zt, Xt, Ac, At in H. cbn [bind] in H.
    apply bind_ok in H as [n1 [N1 H]]. apply bind_ok in H as [n2 [N2 H]]. apply bind_ok in H as [n3 [N3 H]]. apply bind_ok in H as [n4 [N4 H]].
    apply bind_ok in H as [x1 [H3 H]]. apply bind_ok in H as [x2 [H4 H]]. injection H as -> ->.
    pose proof (alone_get _ _ _ N1) as G1. pose proof (paired_get _ _ _ _ N2) as G2. pose proof (paired_get _ _ _ _ N3) as G3. pose proof (alone_get _ _ _ N4) as G4.
    destruct (set_params_ok structure _ _ _ gate_cnot_new _ _ H3) as (T3 & V3 & O3).
    destruct (set_params_ok structure _ _ _ gate_cnot_new _ _ H4) as (T4 & V4 & O4).
    assert (Tc : touched structure lc lc3).
    { eapply touched_trans; [exact T1|]. eapply touched_trans; [exact T3|]. eapply touched_incl; [|exact Tc3]. intros k Hk. now right. }
    assert (Tt : touched structure lt lt3).
    { eapply touched_trans; [exact T2|]. eapply touched_trans; [exact T4|]. eapply touched_incl; [|exact Tt3]. intros k Hk. now right. }
    assert (Q3 : forall q, lparam lc3 gate q = lparam lc2 gate q) by (intros q; apply (touched_param _ _ _ Tc3); now left).
    assert (Q4 : forall q, lparam lt3 gate q = lparam lt2 gate q) by (intros q; apply (touched_param _ _ _ Tt3); now left).
    apply log_cnot_ok in Hw as (g & nc & nt & Eg & Enc & Ent & R & U).
    assert (Eg' : cnot_label lc3 lt3 = Ok gate).
    { apply label_cnot; [rewrite (touched_first _ _ _ Tc)|rewrite (touched_first _ _ _ Tt)]; now apply first_one. }
    rewrite Eg' in Eg. injection Eg as <-.
    (* disjoint labels *)
    assert (Dis : forall p p', In p pc -> In p' pt -> pl_lab p <> pl_lab p').
    { intros p p' Hp Hp' E. apply (not_overlapping lc lt Ov (pl_lab p)); unfold dkeys; [rewrite (pn_nodes _ _ _ _ _ Pc)|rewrite (pn_nodes _ _ _ _ _ Pt), E]; now apply in_map. }
    assert (Dl : forall k k' q, In q (labs pc k) -> ~ In q (labs pt k')).
    { intros k k' q I I'. apply labs_place in I as (p & Hp & _ & <-). apply labs_place in I' as (p' & Hp' & _ & E). now apply (Dis p p' Hp Hp'). }
    assert (Da : forall q, In q (ancs pc) -> ~ In q (ancs pt)).
    { intros q I I'. apply anc_place in I as (p & Hp & _ & <-). apply anc_place in I' as (p' & Hp' & _ & E). now apply (Dis p p' Hp Hp'). }
    set (f := fun a => odef [] (dget a n4)).
    assert (Fzc : forall a, In a (labs pc KZ) -> f a = [a]).
    { intros a Ia. unfold f. rewrite G4, (mem_not a _ (Dl _ KX a Ia)), G3, (mem_not a _ (Dl _ KZ a Ia)), G2.
      rewrite (mem_not a (labs pc KX)) by (apply (labs_disj _ _ _ _ _ Pc KZ); [discriminate|exact Ia]).
      now rewrite G1, (proj2 (mem_In a _) Ia). }
    assert (Fxc : forall a, In a (labs pc KX) -> f a = [a; fwd m a]).
    { intros a Ia. unfold f. rewrite G4, (mem_not a _ (Dl _ KX a Ia)), G3, (mem_not a _ (Dl _ KZ a Ia)), G2.
      now rewrite (proj2 (mem_In a _) Ia). }
    assert (Fxt : forall a, In a (labs pt KX) -> f a = [a]) by (intros a Ia; unfold f; now rewrite G4, (proj2 (mem_In a _) Ia)).
    assert (Fzt : forall a, In a (labs pt KZ) -> f a = [a; bwd m a]).
    { intros a Ia. unfold f. rewrite G4, (mem_not a (labs pt KX)) by (apply (labs_disj _ _ _ _ _ Pt KZ); [discriminate|exact Ia]).
      now rewrite G3, (proj2 (mem_In a _) Ia). }
    destruct (new_stab_dict_ok lc3 gate (ancs pc) f) as (nc' & Enc' & Hnc).
    { now rewrite (touched_role _ _ _ Tc (incl_refl _)). }
    { intros a Ia. rewrite Q3. destruct (V3 a Ia) as (v & Ev & Lv). apply bind_ok in Ev as [st [Es Ev]]. injection Ev as <-.
      unfold f, dget_err in *. destruct (dget a n4); [|discriminate]. injection Es as ->. exact Lv. }
    rewrite Enc in Enc'. injection Enc' as <-.
    destruct (new_stab_dict_ok lt3 gate (ancs pt) f) as (nt' & Ent' & Hnt).
    { now rewrite (touched_role _ _ _ Tt (incl_refl _)). }
    { intros a Ia. rewrite Q4. destruct (V4 a Ia) as (v & Ev & Lv). apply bind_ok in Ev as [st [Es Ev]]. injection Ev as <-.
      unfold f, dget_err in *. destruct (dget a n4); [|discriminate]. injection Es as ->. exact Lv. }
    rewrite Ent in Ent'. injection Ent' as <-.
    exists nc, nt, (fwd m), (bwd m). do 3 (split; [assumption|]).
    assert (Nd : forall a, dget a (dupdate nc nt) = if mem a (ancs pc ++ ancs pt) then Some (f a) else None).
    { intros a. rewrite dget_dupdate by (eapply new_stab_keys; exact Ent). rewrite Hnc, Hnt.
      rewrite mem_app.
      destruct (mem a (ancs pt)), (mem a (ancs pc)); reflexivity. }
    assert (Ma : forall a, In a (ancs pc) \/ In a (ancs pt) -> dget a (dupdate nc nt) = Some (f a)).
    { intros a Ia. rewrite Nd, (proj2 (mem_In a _)); [reflexivity|]. now apply in_or_app. }
    (* the mapping *)
    pose proof (fwd_at lc lt shifts dirn dirn' ptc ptt pc pt Pc Pt Hit m Hm base Hpar) as FA.
    pose proof (bwd_at lc lt shifts dirn dirn' ptc ptt pc pt Pc Pt Hit m Hm base Hpar) as BA.
    pose proof (sup_pair lc lt shifts dirn dirn' ptc ptt pc pt Pc Pt Ns) as SP.
    assert (FP : forall p, In p pc -> exists p', In p' pt /\ pos p' = pos p /\ knd p' = knd p /\ fwd m (pl_lab p) = pl_lab p' /\ bwd m (pl_lab p') = pl_lab p).
    { intros p Hp. destruct (FA p Hp) as (p' & Hp' & E & K & D1 & D2). exists p'. unfold fwd, bwd. rewrite D1, D2. auto. }
    assert (BP : forall p', In p' pt -> exists p, In p pc /\ pos p' = pos p /\ knd p' = knd p /\ fwd m (pl_lab p) = pl_lab p' /\ bwd m (pl_lab p') = pl_lab p).
    { intros p' Hp'. destruct (BA p' Hp') as (p & Hp & E & K & D1 & D2). exists p. unfold fwd, bwd. rewrite D1, D2. auto. }
    assert (Inc : forall p, In p pc -> knd p <> KD -> In (pl_lab p) (ancs pc)).
    { intros p Hp K. apply ancs_labs. rewrite !labs_place. destruct (knd p) eqn:E; [tauto| |]; [left|right]; eauto. }
    assert (Int : forall p, In p pt -> knd p <> KD -> In (pl_lab p) (ancs pt)).
    { intros p Hp K. apply ancs_labs. rewrite !labs_place. destruct (knd p) eqn:E; [tauto| |]; [left|right]; eauto. }
    assert (Bld : ok_blocks (trans_cnot_blocks ord ordp lc3 lt3) /\ forall P, bk (lg_blocks (trans_cnot_blocks ord ordp lc3 lt3)) (fun _ => false) P
      (cnot_op (labs pc KD) (labs pt KD) (fwd m) (bwd m) P)).
    { assert (K' : forall P, ok_blocks (trans_cnot_blocks ord ordp lc3 lt3) /\ bk (lg_blocks (trans_cnot_blocks ord ordp lc3 lt3)) (fun _ => false) P
        (cnot_op (labs pc KD) (labs pt KD) (fwd m) (bwd m) P)); [|split; [apply (K' identity_op)|apply K']].
      intros P'. apply (cnot_track ord ordp Hordp lc3 lt3 (labs pc KD) (labs pt KD) gate (fwd m) (bwd m)).
      - now rewrite (touched_role _ _ _ Tc (incl_refl _)).
      - now rewrite (touched_role _ _ _ Tt (incl_refl _)).
      - exact Eg'.
      - unfold trans_code_ok. destruct (touched_fields _ _ _ Tc) as (-> & _). rewrite Cc. destruct Hcode as [-> | ->]; reflexivity.
      - unfold trans_code_ok. destruct (touched_fields _ _ _ Tt) as (-> & _). rewrite Ct. destruct Hcode as [-> | ->]; reflexivity.
      - intros q I. apply labs_place in I as (p & Hp & K & <-). destruct (FP p Hp) as (p' & Hp' & _ & K' & -> & E). split; [|exact E].
        apply labs_place. exists p'. split; [exact Hp'|]. split; [congruence|reflexivity].
      - intros q I. apply labs_place in I as (p' & Hp' & K & <-). destruct (BP p' Hp') as (p & Hp & _ & K' & E & ->). split; [|exact E].
        apply labs_place. exists p. split; [exact Hp|]. split; [congruence|reflexivity].
      - apply Dl.
      - intros q I. rewrite Q3, O3 by (now apply (data_ancs _ _ _ _ _ Pc)). destruct (V1 q I) as (v & Ev & ->).
        apply bind_ok in Ev as [b [Eb Ev]]. injection Ev as <-. unfold fwd, dget_err in *. destruct (dget q m); [|discriminate]. now injection Eb as ->. }
    destruct Bld as [Ob Bk].
    assert (Jc : forall p, In p pc -> joint (css lc) (css lt) (pl_lab p) =
      (if isk KX p then support lc (pl_lab p) else [], if isk KZ p then support lc (pl_lab p) else [])).
    { intros p Hp. unfold joint, css. destruct (of_type_at _ _ _ _ _ Pc p Hp) as [-> ->].
      unfold of_type. rewrite Xt, Zt, !(mem_not (pl_lab p)).
      - cbn [fst snd]. now rewrite !app_nil_r.
      - intros I. apply labs_place in I as (p' & Hp' & _ & E). now apply (Dis p p' Hp Hp').
      - intros I. apply labs_place in I as (p' & Hp' & _ & E). now apply (Dis p p' Hp Hp'). }
    assert (Jt : forall p, In p pt -> joint (css lc) (css lt) (pl_lab p) =
      (if isk KX p then support lt (pl_lab p) else [], if isk KZ p then support lt (pl_lab p) else [])).
    { intros p Hp. unfold joint, css. destruct (of_type_at _ _ _ _ _ Pt p Hp) as [-> ->].
      unfold of_type. rewrite Xc, Zc, !(mem_not (pl_lab p)).
      - reflexivity.
      - intros I. apply labs_place in I as (p' & Hp' & _ & E). now apply (Dis p' p Hp' Hp).
      - intros I. apply labs_place in I as (p' & Hp' & _ & E). now apply (Dis p' p Hp' Hp). }
    split; [|split; [|split; [exact R|split; [exact Ob|split; [exact Bk|split; [exact FP|split; [exact BP|exact Dis]]]]]]].
    - intros a v E. rewrite Nd in E. destruct (mem a (ancs pc ++ ancs pt)) eqn:M; [|discriminate]. injection E as <-. apply mem_In in M.
      assert (K : (In a (ancs pc) \/ In a (ancs pt)) /\ (f a = [a] \/ exists b, b <> a /\ (In b (ancs pc) \/ In b (ancs pt)) /\ f a = [a; b] /\ f b = [b])).
      { apply in_app_or in M as [M|M]; (split; [tauto|]).
        - apply ancs_labs in M as [M|M]; [|left; now apply Fzc]. right. apply labs_place in M as (p & Hp & K & <-).
          destruct (FP p Hp) as (p' & Hp' & _ & K' & E & _). rewrite K in K'. exists (pl_lab p'). split; [intros X; symmetry in X; exact (Dis p p' Hp Hp' X)|].
          split; [right; apply Int; [exact Hp'|congruence]|]. split.
          + rewrite Fxc by (apply labs_place; eauto). now rewrite E.
          + apply Fxt. apply labs_place. eauto.
        - apply ancs_labs in M as [M|M]; [left; now apply Fxt|]. right. apply labs_place in M as (p' & Hp' & K & <-).
          destruct (BP p' Hp') as (p & Hp & _ & K' & _ & E). rewrite K in K'. symmetry in K'. exists (pl_lab p). split; [now apply Dis|].
          split; [left; apply Inc; [exact Hp|congruence]|]. split.
          + rewrite Fzt by (apply labs_place; eauto). now rewrite E.
          + apply Fzc. apply labs_place. eauto. }
      destruct K as [M' [K|(b & Nb & Mb & K & Kb)]]; rewrite K.
      + split; [intros b [<-|[]]; unfold dmem; now rewrite Ma|]. intros b. cbn [flat_map]. rewrite (Ma a M'), K. cbn.
        destruct (eqb_spec b a); reflexivity.
      + split; [intros b' [<-|[<-|[]]]; unfold dmem; now rewrite Ma|]. intros b'. cbn [flat_map].
        rewrite (Ma a M'), (Ma b Mb), K, Kb. cbn. destruct (eqb_spec b' a), (eqb_spec b' b); reflexivity.
    - intros a Ia. exists (f a). split; [apply Ma; now apply in_app_or|].
      assert (Main : forall p p', In p pc -> In p' pt -> pos p' = pos p -> knd p <> KD -> knd p' = knd p ->
        fwd m (pl_lab p) = pl_lab p' -> bwd m (pl_lab p') = pl_lab p ->
        (conjugates (inds (fst w)) (joint (css lc) (css lt)) c (pl_lab p) (f (pl_lab p)) /\ prod_phase (joint (css lc) (css lt)) (f (pl_lab p)) = 0) /\
        (conjugates (inds (fst w)) (joint (css lc) (css lt)) c (pl_lab p') (f (pl_lab p')) /\ prod_phase (joint (css lc) (css lt)) (f (pl_lab p')) = 0)).
      { intros p p' Hp Hp' Ep Kp Kp' Ef Eb.
        set (A := fun q => mem q (support lc (pl_lab p))). set (B := fun q => mem q (support lt (pl_lab p'))).
        assert (Of : forall q, In q (labs pc KD) -> In (fwd m q) (labs pt KD) /\ bwd m (fwd m q) = q).
        { intros q I. apply labs_place in I as (y & Hy & K & <-). destruct (FP y Hy) as (y' & Hy' & _ & K' & -> & E). split; [|exact E].
          apply labs_place. exists y'. split; [exact Hy'|]. split; [congruence|reflexivity]. }
        assert (Obw : forall q, In q (labs pt KD) -> In (bwd m q) (labs pc KD) /\ fwd m (bwd m q) = q).
        { intros q I. apply labs_place in I as (y' & Hy' & K & <-). destruct (BP y' Hy') as (y & Hy & _ & K' & E & ->). split; [|exact E].
          apply labs_place. exists y. split; [exact Hy|]. split; [congruence|reflexivity]. }
        assert (OA : forall q, ~ In q (labs pc KD) -> A q = false).
        { intros q N. apply mem_not. intros I. apply N. apply (support_ok _ _ _ _ _ Pc Ns _ (Inc p Hp Kp)). exact I. }
        assert (OB : forall q, ~ In q (labs pt KD) -> B q = false).
        { intros q N. apply mem_not. intros I. apply N. apply (support_ok _ _ _ _ _ Pt Ns _ (Int p' Hp' ltac:(congruence))). exact I. }
        assert (OAB : forall q, In q (labs pc KD) -> A q = B (fwd m q)).
        { intros q I. apply labs_place in I as (y & Hy & K & <-). destruct (FP y Hy) as (y' & Hy' & E & _ & -> & _). unfold A, B. now apply SP. }
        assert (TP : forall X Z X' Z' gens gens', (forall q, prod_x (joint (css lc) (css lt)) gens q = X q /\ prod_z (joint (css lc) (css lt)) gens q = Z q) ->
          (forall q, prod_x (joint (css lc) (css lt)) gens' q = X' q /\ prod_z (joint (css lc) (css lt)) gens' q = Z' q) ->
          peq (cnot_op (labs pc KD) (labs pt KD) (fwd m) (bwd m) (Pauli X' Z')) (Pauli X Z) ->
          peq (cnot_op (labs pc KD) (labs pt KD) (fwd m) (bwd m) (Pauli X Z)) (Pauli X' Z') ->
          turns (inds (fst w)) c (prod_x (joint (css lc) (css lt)) gens) (prod_z (joint (css lc) (css lt)) gens)
            (prod_x (joint (css lc) (css lt)) gens') (prod_z (joint (css lc) (css lt)) gens') /\
          turns (inds (fst w)) c (prod_x (joint (css lc) (css lt)) gens') (prod_z (joint (css lc) (css lt)) gens')
            (prod_x (joint (css lc) (css lt)) gens) (prod_z (joint (css lc) (css lt)) gens)).
        { intros X Z X' Z' gens gens' E1 E2 C1 C2. split.
          - apply (turns_peq _ _ _ _ _ _ _ _ _ X Z X' Z' R Ob W Bk (cnot_op_peq _ _ _ _) C1 E1 E2).
          - apply (turns_peq _ _ _ _ _ _ _ _ _ X' Z' X Z R Ob W Bk (cnot_op_peq _ _ _ _) C2 E2 E1). }
        pose proof (Dl KD KD) as Od.
        destruct (knd p) eqn:K; [tauto| |].
        - (* X *)
          assert (J1 : joint (css lc) (css lt) (pl_lab p) = (support lc (pl_lab p), [])) by (rewrite (Jc p Hp); unfold isk; now rewrite K).
          assert (J2 : joint (css lc) (css lt) (pl_lab p') = (support lt (pl_lab p'), [])) by (rewrite (Jt p' Hp'); unfold isk; now rewrite Kp').
          rewrite Fxc by (apply labs_place; eauto). rewrite Fxt by (apply labs_place; eauto). rewrite Ef. unfold conjugates. split; (split; [|cbn [prod_phase map]; rewrite ?J1, ?J2; unfold shared; cbn [fst snd filter length]; reflexivity]).
          + apply (TP A (fun _ => false) (fun q => xorb (A q) (B q)) (fun _ => false)).
            * intros q. unfold prod_x, prod_z. rewrite !prod_one, J1. split; reflexivity.
            * intros q. unfold prod_x, prod_z. rewrite !prod_two, J1, J2. split; reflexivity.
            * now apply op_xc'.
            * now apply op_xc.
          + apply (TP B (fun _ => false) B (fun _ => false)); [| |now apply (op_xt _ _ _ _ A)|now apply (op_xt _ _ _ _ A)];
              intros q; unfold prod_x, prod_z; rewrite !prod_one, J2; split; reflexivity.
        - (* Z *)
          assert (J1 : joint (css lc) (css lt) (pl_lab p) = ([], support lc (pl_lab p))) by (rewrite (Jc p Hp); unfold isk; now rewrite K).
          assert (J2 : joint (css lc) (css lt) (pl_lab p') = ([], support lt (pl_lab p'))) by (rewrite (Jt p' Hp'); unfold isk; now rewrite Kp').
          rewrite Fzc by (apply labs_place; eauto). rewrite Fzt by (apply labs_place; eauto). rewrite Eb. unfold conjugates. split; (split; [|cbn [prod_phase map]; rewrite ?J1, ?J2; unfold shared; cbn [fst snd]; rewrite ?filter_mem_nil; reflexivity]).
          + apply (TP (fun _ => false) A (fun _ => false) A); [| |now apply (op_zc _ _ _ _ A B)|now apply (op_zc _ _ _ _ A B)];
              intros q; unfold prod_x, prod_z; rewrite !prod_one, J1; split; reflexivity.
          + apply (TP (fun _ => false) B (fun _ => false) (fun q => xorb (A q) (B q))).
            * intros q. unfold prod_x, prod_z. rewrite !prod_one, J2. split; reflexivity.
            * intros q. unfold prod_x, prod_z. rewrite !prod_two, J1, J2. split; [reflexivity|]. apply xorb_comm.
            * now apply op_zt'.
            * now apply op_zt. }
      apply in_app_or in Ia as [Ia|Ia]; apply anc_place in Ia as (p & Hp & K & <-).
      + destruct (FP p Hp) as (p' & Hp' & E & K' & E1 & E2). now apply (Main p p').
      + destruct (BP p Hp) as (p' & Hp' & E & K' & E1 & E2). apply (Main p' p); auto. congruence.
  Qed.
  Lemma cnot_conjugates w w' c : SpecNoise.wf_inds (inds (fst w)) -> log_trans_cnot ord ordp lc3 lt3 w = (w', Ok c) ->
    exists nc nt, new_stab_dict lc3 gate = Ok nc /\ new_stab_dict lt3 gate = Ok nt /\
      update_from_dict (dupdate nc nt) (snd w) = (snd w', Ok tt) /\ involutive_map (dupdate nc nt) /\
      forall a, In a (ancs pc ++ ancs pt) -> exists new, dget a (dupdate nc nt) = Some new /\
        conjugates (inds (fst w)) (joint (css lc) (css lt)) c a new.
  Proof.
    intros W H. destruct (cnot_facts w w' c W H) as (nc & nt & fw & bw & E1 & E2 & U & I & K & _). exists nc, nt. do 4 (split; [assumption|]).
    intros a Ia. destruct (K a Ia) as (new & E & C & _). eauto.
  Qed.
End Cnot.
