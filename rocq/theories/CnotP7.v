(** Two CSS codes with different qubits: checks, logical operators, rounds and measurements. *)
From Coq Require Import QArith Qcanon.
From Verif Require Import Base Lib StimM SetupM SpecSetup SetupP NoiseM SpecNoise NoiseP LayoutM SpecLayout LayoutP LayoutP2 MatM MatP DetM SpecDet DetP DetCountP DetLinP DetDetP
  SpecGen GeomP BlockM LogM SpecLog ExpM SpecTrack SpecExp TrackP LiftP ExpDetP ExpP ExpP2 ExpP3 ExpP4 ExpP5 ExpP8 ExpP9 ExpP13 ActP RoundP RoundTopP RepP RepP2 RepP3 RepP4 RepP5 RepP6
  LogP4 LogP10 MergeM SpecMerge MergeP MergeP2 MergeP3 MergeP4 MergeP5 MergeP6 MergeP7 CnotP CnotP2 CnotP3 CnotP4 CnotP5 CnotP6.
Open Scope Z_scope.

Lemma sup_keys l ancs sup : support_from_adj l ancs = Ok sup -> NoDup (dkeys sup) /\ forall a, In a (dkeys sup) -> In a ancs.
Proof.
  unfold support_from_adj.
  assert (K : forall ancs d0 sup, foldM (fun d a => if dmem a (l_nodes l) then Ok (dset a (filter (adjacent l a) (dkeys (l_nodes l))) d) else Err KeyError) ancs d0 = Ok sup ->
    NoDup (dkeys d0) -> NoDup (dkeys sup) /\ forall a, In a (dkeys sup) -> In a (dkeys d0) \/ In a ancs).
  { clear. induction ancs as [|a ancs IH]; intros d0 sup H N; cbn [foldM] in H; [injection H as <-; auto|].
    apply bind_ok in H as (d1 & H1 & H). destruct (dmem a (l_nodes l)); [|discriminate]. injection H1 as <-.
    destruct (IH _ _ H) as [N1 K1]; [now apply NoDup_dset|]. split; [exact N1|]. intros x Hx. apply K1 in Hx as [Hx|Hx]; [|right; now right].
    rewrite dkeys_dset in Hx. destruct (dmem a d0); [now left|]. apply in_app_or in Hx as [Hx|[<-|[]]]; [now left|right; now left]. }
  intros H. destruct (K _ _ _ H) as [N1 K1]; [constructor|]. split; [exact N1|]. intros a Ha. apply K1 in Ha as [[]|Ha]. exact Ha.
Qed.
Lemma all_stabs_two l1 l2 rot bts sup : all_stabs [(l1, rot); (l2, rot)] = Ok (bts, sup) -> exists s1 s2 u1 u2,
  get_stabs l1 (basis_type rot) = Ok s1 /\ get_stabs l2 (basis_type rot) = Ok s2 /\ support_from_adj l1 s1 = Ok u1 /\ support_from_adj l2 s2 = Ok u2 /\
  bts = s1 ++ s2 /\ forall a, dget a sup = or_else (dget a u2) (dget a u1).
Proof.
  unfold all_stabs. cbn [foldM fst snd]. intros H. apply bind_ok in H as (x & H1 & H). apply bind_ok in H as (y & H2 & H). injection H as ->.
  apply bind_ok in H1 as (s1 & E1 & H1). apply bind_ok in H1 as (u1 & U1 & H1). injection H1 as <-. cbn [fst snd app] in H2.
  apply bind_ok in H2 as (s2 & E2 & H2). apply bind_ok in H2 as (u2 & U2 & H2). injection H2 as <- <-.
  exists s1, s2, u1, u2. repeat (split; [assumption||reflexivity|]). intros a.
  rewrite dget_dupdate by (eapply sup_keys; eauto). rewrite dget_dupdate by (eapply sup_keys; eauto). destruct (dget a u2); [reflexivity|]. cbn. destruct (dget a u1); reflexivity.
Qed.
Lemma meas_stabs fuse it ls rots reset dets w w' c : merge_log_meas fuse it ls rots reset dets w = (w', Ok c) -> exists bts sup, all_stabs (combine ls rots) = Ok (bts, sup).
Proof.
  unfold merge_log_meas. destruct (negb _); [discriminate|]. intros H. apply sbind_ok in H as (w1 & ok & _ & H). destruct (negb ok); [discriminate|].
  apply sbind_ok in H as (w2 & c1 & _ & H). apply sbind_ok in H as (w4 & [st su] & H3 & H). unfold slift in H3. injection H3 as <- H3. eauto.
Qed.
Lemma one_logical l g data xs zs lx lz m k rot os o : css_code l g data xs zs lx lz -> layout_observables m k (l, rot) = Ok os -> In o os ->
  nm o = OBSERVABLE_INCLUDE /\ mapM (fun q => meas_target m q (-1)) (log_of lx lz rot) = Ok (tg o).
Proof.
  intros C H Ho. apply layout_obs in H as (A & B & K). rewrite (cc_logs _ _ _ _ _ _ _ C) in *. cbn [length seq map] in B.
  destruct os as [|o' [|]]; try discriminate B. destruct Ho as [<-|[]]. inversion A; subst. split; [assumption|].
  destruct (K 0%nat g eq_refl) as (qs & ts & Eq & Et & En). cbn in En. injection En as ->. cbn [tg]. rewrite <- Et. f_equal.
  unfold log_of. destruct rot; [rewrite (cc_lx _ _ _ _ _ _ _ C) in Eq|rewrite (cc_lz _ _ _ _ _ _ _ C) in Eq]; now injection Eq as <-.
Qed.

Section Joint.
  Context (lc : layout) (ac dc xc zc lxc lzc : list string) (lt : layout) (at_ dt xt zt lxt lzt : list string).
  Hypothesis Fc : css_facts lc ac dc xc zc lxc lzc.
  Hypothesis Ft : css_facts lt at_ dt xt zt lxt lzt.
  Hypothesis Dis : forall q, In q (dkeys (l_nodes lc)) -> In q (dkeys (l_nodes lt)) -> False.
  Definition jst : stabilizers := joint (css lc) (css lt).
  Lemma ac_nodes : incl ac (dkeys (l_nodes lc)). Proof. eapply role_incl, (cf_anc _ _ _ _ _ _ _ Fc). Qed.
  Lemma at_nodes : incl at_ (dkeys (l_nodes lt)). Proof. eapply role_incl, (cf_anc _ _ _ _ _ _ _ Ft). Qed.
  Lemma dc_nodes : incl dc (dkeys (l_nodes lc)). Proof. eapply role_incl, (css_data _ _ _ _ _ _ _ Fc). Qed.
  Lemma dt_nodes : incl dt (dkeys (l_nodes lt)). Proof. eapply role_incl, (css_data _ _ _ _ _ _ _ Ft). Qed.
  Lemma jD q : In q ac \/ In q dc -> In q at_ \/ In q dt -> False.
  Proof. intros [A|A] [B|B]; apply (Dis q); auto using ac_nodes, at_nodes, dc_nodes, dt_nodes; solve [now apply ac_nodes|now apply dc_nodes|now apply at_nodes|now apply dt_nodes]. Qed.
  Lemma css_none l ancs data xs zs lx lz a : css_facts l ancs data xs zs lx lz -> ~ In a ancs -> css l a = ([], []).
  Proof.
    intros F N. unfold css, of_type. rewrite (css_x _ _ _ _ _ _ _ F), (css_z _ _ _ _ _ _ _ F).
    rewrite (mem_not a xs), (mem_not a zs); [reflexivity| |]; intros H; apply N, (css_types _ _ _ _ _ _ _ F); auto.
  Qed.
  Lemma Jc a : In a ac -> jst a = css lc a.
  Proof. intros Ha. unfold jst, joint. rewrite (css_none _ _ _ _ _ _ _ a Ft) by (intros H; apply (jD a); auto). cbn [fst snd]. rewrite !app_nil_r. now destruct (css lc a). Qed.
  Lemma Jt a : In a at_ -> jst a = css lt a.
  Proof. intros Ha. unfold jst, joint. rewrite (css_none _ _ _ _ _ _ _ a Fc) by (intros H; apply (jD a); auto). cbn [fst snd app]. now destruct (css lt a). Qed.
  Lemma Sc a q : In a ac -> In q (fst (css lc a)) \/ In q (snd (css lc a)) -> In q dc. Proof. eapply css_in; eauto. Qed.
  Lemma St a q : In a at_ -> In q (fst (css lt a)) \/ In q (snd (css lt a)) -> In q dt. Proof. eapply css_in; eauto. Qed.
  Definition jancs := ac ++ at_.
  Definition jdata := dc ++ dt.
  Lemma jNa : NoDup jancs. Proof. apply union_nodup; [apply Fc|apply Ft|]. intros q A B. apply (jD q); auto. Qed.
  Lemma jNd : NoDup jdata. Proof. apply union_nodup; [apply (css_ndata _ _ _ _ _ _ _ Fc)|apply (css_ndata _ _ _ _ _ _ _ Ft)|]. intros q A B. apply (jD q); auto. Qed.
  Lemma jHda q : In q jdata -> ~ In q jancs.
  Proof. apply union_disj; [apply Fc|apply Ft|apply jD]. Qed.
  Lemma jHst a q : In a jancs -> In q (fst (jst a)) \/ In q (snd (jst a)) -> In q jdata.
  Proof. eapply union_st; [apply Jc|apply Jt|apply Sc|apply St]. Qed.
  Lemma jHcom a b : In a jancs -> In b jancs -> anti jst (on (fst (jst a))) (on (snd (jst a))) b = false.
  Proof. eapply union_com; [apply Jc|apply Jt|apply Sc|apply St|apply jD|intros x y; eapply css_com; eauto|intros x y; eapply css_com; eauto]. Qed.
  Lemma jacts g h : acts (css lc) ac g -> acts (css lt) at_ h -> acts jst jancs (g ++ h).
  Proof. eapply acts_union; [apply Jc|apply Jt|apply Sc|apply St|apply jD]. Qed.
  Lemma jst_nodup a : In a jancs -> NoDup (fst (jst a)) /\ NoDup (snd (jst a)) /\ incl (fst (jst a)) jdata /\ incl (snd (jst a)) jdata.
  Proof.
    intros Ha. unfold jancs in Ha. apply in_app_or in Ha as [Ha|Ha].
    - rewrite (Jc a Ha). destruct (rep_st _ _ _ _ _ _ _ Fc a Ha) as (A & B & C & E). repeat split; auto; intros q Hq; apply in_or_app; left; auto.
    - rewrite (Jt a Ha). destruct (rep_st _ _ _ _ _ _ _ Ft a Ha) as (A & B & C & E). repeat split; auto; intros q Hq; apply in_or_app; right; auto.
  Qed.

  (* generators and logical operators in a basis *)
  Definition jsup (a : string) : list string := if mem a ac then support lc a else support lt a.
  Definition jbt (rot : bool) (a : string) : Prop := In a (if rot then xc else zc) \/ In a (if rot then xt else zt).
  Definition jh (rot : bool) := hset_of jdata rot.
  Lemma jh_c rot q : In q dc -> hs (jh rot) q = hs (hset_of dc rot) q.
  Proof. intros Hq. unfold hs, jh, hset_of. destruct rot; [|reflexivity]. rewrite (proj2 (mem_In q dc) Hq). apply mem_In, in_or_app. now left. Qed.
  Lemma jh_t rot q : In q dt -> hs (jh rot) q = hs (hset_of dt rot) q.
  Proof. intros Hq. unfold hs, jh, hset_of. destruct rot; [|reflexivity]. rewrite (proj2 (mem_In q dt) Hq). apply mem_In, in_or_app. now right. Qed.
  Lemma h_side (h h' : list string) s q : (In q s -> hs h q = hs h' q) -> hs h q && mem q s = hs h' q && mem q s /\ negb (hs h q) && mem q s = negb (hs h' q) && mem q s.
  Proof. intros K. destruct (mem q s) eqn:M; [|now rewrite !andb_false_r]. apply mem_In in M. now rewrite K. Qed.
  Lemma jbasis rot a : jbt rot a -> In a jancs /\ NoDup (jsup a) /\ incl (jsup a) jdata /\
    forall q, on (fst (jst a)) q = hs (jh rot) q && mem q (jsup a) /\ on (snd (jst a)) q = negb (hs (jh rot) q) && mem q (jsup a).
  Proof.
    intros [Ha|Ha].
    - destruct (basis_sup _ _ _ _ _ _ _ Fc rot a Ha) as (A & B & C & K). unfold jsup. rewrite (proj2 (mem_In a ac) A), (Jc a A).
      split; [apply in_or_app; now left|]. split; [exact B|]. split; [intros q Hq; apply in_or_app; left; auto|].
      intros q. destruct (K q) as [-> ->]. destruct (h_side (jh rot) (hset_of dc rot) (support lc a) q) as [-> ->]; auto. intros Hq. apply jh_c. auto.
    - destruct (basis_sup _ _ _ _ _ _ _ Ft rot a Ha) as (A & B & C & K). unfold jsup. rewrite (mem_not a ac) by (intros H; apply (jD a); auto). rewrite (Jt a A).
      split; [apply in_or_app; now right|]. split; [exact B|]. split; [intros q Hq; apply in_or_app; right; auto|].
      intros q. destruct (K q) as [-> ->]. destruct (h_side (jh rot) (hset_of dt rot) (support lt a) q) as [-> ->]; auto. intros Hq. apply jh_t. auto.
  Qed.
  Lemma jHbt rot a : jbt rot a -> In a jancs /\ forall q, (hs (jh rot) q = false -> on (fst (jst a)) q = false) /\ (hs (jh rot) q = true -> on (snd (jst a)) q = false).
  Proof. intros Ha. destruct (jbasis rot a Ha) as (Hi & _ & _ & K). split; [exact Hi|]. intros q. destruct (K q) as [-> ->]. split; intros ->; reflexivity. Qed.
  Lemma stabs_c rot : get_stabs lc (basis_type rot) = Ok (if rot then xc else zc).
  Proof. destruct rot; [apply (css_x _ _ _ _ _ _ _ Fc)|apply (css_z _ _ _ _ _ _ _ Fc)]. Qed.
  Lemma stabs_t rot : get_stabs lt (basis_type rot) = Ok (if rot then xt else zt).
  Proof. destruct rot; [apply (css_x _ _ _ _ _ _ _ Ft)|apply (css_z _ _ _ _ _ _ _ Ft)]. Qed.
  Lemma in_bc rot a : In a (if rot : bool then xc else zc) -> In a ac.
  Proof. intros H. apply (css_types _ _ _ _ _ _ _ Fc). destruct rot; auto. Qed.
  Lemma in_bt rot a : In a (if rot : bool then xt else zt) -> In a at_.
  Proof. intros H. apply (css_types _ _ _ _ _ _ _ Ft). destruct rot; auto. Qed.
  Lemma jstabs (swap rot : bool) bts sup : all_stabs [(if swap then lt else lc, rot); (if swap then lc else lt, rot)] = Ok (bts, sup) ->
    (forall a, In a bts -> jbt rot a) /\ (forall a s, In a bts -> dget a sup = Some s -> NoDup s /\ forall q, In q s <-> In q (jsup a)).
  Proof.
    intros H. apply all_stabs_two in H as (s1 & s2 & u1 & u2 & E1 & E2 & U1 & U2 & -> & K).
    assert (Wc := cf_wf _ _ _ _ _ _ _ Fc). assert (Wt := cf_wf _ _ _ _ _ _ _ Ft).
    assert (Gc : forall a u s, support_from_adj lc (if rot then xc else zc) = Ok u -> dget a u = Some s -> NoDup s /\ forall q, In q s <-> In q (jsup a)).
    { intros a u s U E. pose proof (proj2 (sup_keys _ _ _ U) a (dget_Some_key _ _ _ E)) as Ha.
      destruct (support_lemma _ _ _ Wc U a Ha) as (s' & E' & N & S'). rewrite E in E'. injection E' as <-. split; [exact N|]. unfold jsup.
      now rewrite (proj2 (mem_In a ac)) by (eapply in_bc; eauto). }
    assert (Gt : forall a u s, support_from_adj lt (if rot then xt else zt) = Ok u -> dget a u = Some s -> NoDup s /\ forall q, In q s <-> In q (jsup a)).
    { intros a u s U E. pose proof (proj2 (sup_keys _ _ _ U) a (dget_Some_key _ _ _ E)) as Ha.
      destruct (support_lemma _ _ _ Wt U a Ha) as (s' & E' & N & S'). rewrite E in E'. injection E' as <-. split; [exact N|]. unfold jsup.
      rewrite (mem_not a ac) by (intros H; apply (jD a); [now left|left; eapply in_bt; eauto]). exact S'. }
    destruct swap; rewrite ?stabs_c, ?stabs_t in *; injection E1 as <-; injection E2 as <-; (split; [intros a Ha; apply in_app_or in Ha; unfold jbt; tauto|]);
      intros a s _ E; rewrite K in E; (destruct (dget a u2) eqn:E2; cbn in E; [injection E as ->|]); eauto.
  Qed.
  Definition jok (rot : bool) (p : pauli string) : Prop :=
    (forall q, ~ In q jdata -> px p q = false /\ pz p q = false) /\ (forall a, In a jancs -> anti jst (px p) (pz p) a = false) /\
    (if rot then forall q, pz p q = false else forall q, px p q = false).
  Lemma jok0 rot p q : jok rot p -> In q jancs -> px p q = false /\ pz p q = false.
  Proof. intros (A & _) Hq. apply A. intros H. now apply (jHda q). Qed.
  Lemma jokc rot p a : jok rot p -> In a jancs -> anti jst (px p) (pz p) a = false.
  Proof. intros (_ & A & _). apply A. Qed.
  Lemma joki rot p : jok rot p -> Iok jancs jdata (jh rot) p.
  Proof.
    intros (A & _ & B). split; [|intros q Hd _; now apply A]. intros q. unfold had. cbn [px]. unfold hs, jh, hset_of. destruct rot; [|apply B].
    destruct (mem q jdata) eqn:M; [apply B|]. apply A. intros H. apply mem_In in H. congruence.
  Qed.
  Definition jlog (rot : bool) (lo : list string) : pauli string := Pauli (fun q => hs (jh rot) q && mem q lo) (fun q => negb (hs (jh rot) q) && mem q lo).
  Lemma jlog_basis (rot : bool) lo : incl lo jdata -> if rot then forall q, pz (jlog rot lo) q = false else forall q, px (jlog rot lo) q = false.
  Proof.
    intros I. unfold jlog, hs, jh, hset_of. cbn [px pz]. destruct rot; intros q; [|reflexivity]. destruct (mem q lo) eqn:M; [|apply andb_false_r].
    apply mem_In, I, mem_In in M. now rewrite M.
  Qed.
  Lemma jlog_c rot : jok rot (jlog rot (log_of lxc lzc rot)).
  Proof.
    destruct (log_of_ok _ _ _ _ _ _ _ Fc rot) as [N I]. assert (I' : incl (log_of lxc lzc rot) jdata) by (intros q Hq; apply in_or_app; left; auto).
    assert (E : peq (jlog rot (log_of lxc lzc rot)) (log_op dc lxc lzc rot)).
    { intros q. cbn [jlog log_op px pz]. apply h_side. intros Hq. apply jh_c. auto. }
    assert (O : forall q, ~ In q dc -> px (jlog rot (log_of lxc lzc rot)) q = false /\ pz (jlog rot (log_of lxc lzc rot)) q = false).
    { intros q Hq. destruct (E q) as [-> ->]. now apply (log_op_out _ _ _ _ _ _ _ Fc). }
    split; [|split; [|now apply jlog_basis]].
    - intros q Hq. apply O. intros H. apply Hq, in_or_app. now left.
    - intros a Ha. apply in_app_or in Ha as [Ha|Ha].
      + rewrite (anti_c _ _ _ Jc _ _ a Ha). rewrite <- (log_op_com _ _ _ _ _ _ _ Fc rot a Ha). unfold anti. f_equal; f_equal; apply map_ext_in; intros x _; apply E.
      + rewrite (anti_t _ _ _ Jt _ _ a Ha). apply anti_zero. intros q Hq. apply O. intros H. apply (jD q); [now right|right; eapply St; eauto].
  Qed.
  Lemma jlog_t rot : jok rot (jlog rot (log_of lxt lzt rot)).
  Proof.
    destruct (log_of_ok _ _ _ _ _ _ _ Ft rot) as [N I]. assert (I' : incl (log_of lxt lzt rot) jdata) by (intros q Hq; apply in_or_app; right; auto).
    assert (E : peq (jlog rot (log_of lxt lzt rot)) (log_op dt lxt lzt rot)).
    { intros q. cbn [jlog log_op px pz]. apply h_side. intros Hq. apply jh_t. auto. }
    assert (O : forall q, ~ In q dt -> px (jlog rot (log_of lxt lzt rot)) q = false /\ pz (jlog rot (log_of lxt lzt rot)) q = false).
    { intros q Hq. destruct (E q) as [-> ->]. now apply (log_op_out _ _ _ _ _ _ _ Ft). }
    split; [|split; [|now apply jlog_basis]].
    - intros q Hq. apply O. intros H. apply Hq, in_or_app. now right.
    - intros a Ha. apply in_app_or in Ha as [Ha|Ha].
      + rewrite (anti_c _ _ _ Jc _ _ a Ha). apply anti_zero. intros q Hq. apply O. intros H. apply (jD q); [right; eapply Sc; eauto|now right].
      + rewrite (anti_t _ _ _ Jt _ _ a Ha). rewrite <- (log_op_com _ _ _ _ _ _ _ Ft rot a Ha). unfold anti. f_equal; f_equal; apply map_ext_in; intros x _; apply E.
  Qed.
  Lemma jobs (swap rot : bool) m os : all_observables [(if swap then lt else lc, rot); (if swap then lc else lt, rot)] m = Ok os -> forall o, In o os -> exists lo, nm o = OBSERVABLE_INCLUDE /\
    mapM (fun q => meas_target m q (-1)) lo = Ok (tg o) /\ NoDup lo /\ incl lo jdata /\ jok rot (jlog rot lo).
  Proof.
    intros H o Ho. unfold all_observables in H. apply bind_ok in H as (oss & H & E). injection E as <-. cbn [enumerate enumerate_from] in H. apply mapM_Forall2 in H.
    inversion H as [|? o1 ? oss1 H1 H']; subst. inversion H' as [|? o2 ? oss2 H2 H3]; subst. inversion H3; subst. cbn [fst snd concat] in *. rewrite app_nil_r in Ho.
    destruct (cf_code _ _ _ _ _ _ _ Fc) as [gc Cc]. destruct (cf_code _ _ _ _ _ _ _ Ft) as [gt Ct].
    assert (Kc : forall k os, layout_observables m k (lc, rot) = Ok os -> In o os -> exists lo, nm o = OBSERVABLE_INCLUDE /\
       mapM (fun q => meas_target m q (-1)) lo = Ok (tg o) /\ NoDup lo /\ incl lo jdata /\ jok rot (jlog rot lo)).
    { intros k os E Hi. destruct (one_logical _ _ _ _ _ _ _ _ _ _ _ _ Cc E Hi) as [A B]. exists (log_of lxc lzc rot). destruct (log_of_ok _ _ _ _ _ _ _ Fc rot) as [N I].
      repeat split; auto using (proj1 (jlog_c rot)); try apply jlog_c; auto. intros q Hq. apply in_or_app. left. auto. }
    assert (Kt : forall k os, layout_observables m k (lt, rot) = Ok os -> In o os -> exists lo, nm o = OBSERVABLE_INCLUDE /\
       mapM (fun q => meas_target m q (-1)) lo = Ok (tg o) /\ NoDup lo /\ incl lo jdata /\ jok rot (jlog rot lo)).
    { intros k os E Hi. destruct (one_logical _ _ _ _ _ _ _ _ _ _ _ _ Ct E Hi) as [A B]. exists (log_of lxt lzt rot). destruct (log_of_ok _ _ _ _ _ _ _ Ft rot) as [N I].
      repeat split; auto; try apply jlog_t; auto. intros q Hq. apply in_or_app. right. auto. }
    apply in_app_or in Ho. destruct swap, Ho as [Ho|Ho]; eauto.
  Qed.

  (* rounds *)
  Lemma lives_round l ancs rd g Q : round_of l (css l) rd ancs g -> (forall b q, In (Ok b) (rd true) -> In q (operands b) -> In q Q) -> incl ancs Q /\ lives Q g.
  Proof.
    intros R K. assert (V : lives Q (round_g ancs g true)).
    { rewrite <- (ro_gates _ _ _ _ _ R true). eapply lives_incl; [|apply lives_blocks]. intros q Hq. unfold ops in Hq. apply in_flat_map in Hq as ([b|] & Hb & Hq); [eauto|destruct Hq]. }
    unfold round_g in V. apply lives_app in V as [V1 V]. apply lives_app in V as [V2 _]. split; [|exact V2]. intros q Hq. eapply (V1 (G1 GR q)); [now apply in_map|cbn; apply eqb_refl].
  Qed.
  Lemma jround (rc rt : bool -> blocks) gc gt reset :
    round_of lc (css lc) rc ac gc -> round_of lt (css lt) rt at_ gt ->
    (forall b q, In (Ok b) (rc true) -> In q (operands b) -> In q (dkeys (l_nodes lc))) ->
    (forall b q, In (Ok b) (rt true) -> In q (operands b) -> In q (dkeys (l_nodes lt))) ->
    acts jst jancs (gc ++ gt) /\ still (round_g jancs (gc ++ gt) reset) /\
    teq (round_g jancs (gc ++ gt) reset) (lg_blocks (rc reset) ++ lg_blocks (rt reset)) /\ teq (round_g jancs (gc ++ gt) reset) (lg_blocks (rt reset) ++ lg_blocks (rc reset)).
  Proof.
    intros Rc Rt Oc Ot. destruct (lives_round _ _ _ _ _ Rc Oc) as [Ic Vc]. destruct (lives_round _ _ _ _ _ Rt Ot) as [It Vt].
    split; [apply jacts; [apply Rc|apply Rt]|].
    assert (T : teq (round_g jancs (gc ++ gt) reset) (lg_blocks (rc reset) ++ lg_blocks (rt reset))).
    { rewrite (ro_gates _ _ _ _ _ Rc), (ro_gates _ _ _ _ _ Rt). now apply (round_teq (dkeys (l_nodes lc)) (dkeys (l_nodes lt)) Dis). }
    split; [|split; [exact T|]].
    - assert (Z : forall L : list (gate string), still L <-> bk L (selT (mlab L) (fun _ _ => false)) identity_op identity_op).
      { intros L. unfold still. split; intros B; (eapply bk_ext; [exact B|]); intros k Hk; unfold nosel; [symmetry|]; now apply selT_false. }
      apply Z. apply (teq_bk _ _ _ _ _ (teq_sym _ _ T)). apply Z. apply still_app; apply still_blocks.
    - eapply teq_trans; [exact T|]. apply (teq_swap (dkeys (l_nodes lc)) (dkeys (l_nodes lt)) Dis); [rewrite (ro_gates _ _ _ _ _ Rc)|rewrite (ro_gates _ _ _ _ _ Rt)]; unfold round_g;
        repeat (apply lives_app; split); auto; try (destruct reset; [|intros ? ? []]); (eapply lives_incl; [|apply lives_map]; assumption).
  Qed.
  (* the measurement of the data qubits *)
  Definition jmeas (rot : bool) : list (gate string) := map (G1 GH) (if rot then jdata else []) ++ map (G1 GM) jdata.
  Lemma jmeas_bk rot sel : bk (jmeas rot) sel identity_op (Pauli (fun q => hs (jh rot) q && msel jdata sel q) (fun q => negb (hs (jh rot) q) && msel jdata sel q)).
  Proof. apply meas_bk; [apply jNd|destruct rot; [apply jNd|constructor]|reflexivity]. Qed.
  Lemma jmeas_lab rot : mlab (jmeas rot) = jdata.
  Proof. unfold jmeas. rewrite mlab_app, !mlab_map. reflexivity. Qed.
  Lemma jmeas_still rot : still (jmeas rot).
  Proof. eapply bk_eq; [apply jmeas_bk|apply peq_refl|]. intros q. cbn [px pz identity_op].
    assert (Z : msel jdata nosel q = false) by (induction jdata as [|x r IH]; [reflexivity|cbn [msel]; destruct (eqb x q); [reflexivity|exact IH]]). now rewrite Z, !andb_false_r. Qed.
  Lemma jmeas_teq (swap rot : bool) : teq (jmeas rot) (lg_blocks (log_meas_blocks (if swap then lt else lc) rot) ++ lg_blocks (log_meas_blocks (if swap then lc else lt) rot)).
  Proof.
    assert (Ec := log_meas_gates lc rot dc (css_data _ _ _ _ _ _ _ Fc) ac (cf_anc _ _ _ _ _ _ _ Fc)).
    assert (Et := log_meas_gates lt rot dt (css_data _ _ _ _ _ _ _ Ft) at_ (cf_anc _ _ _ _ _ _ _ Ft)).
    assert (Vc : forall n, lives dc (map (G1 n) dc)) by (intros n; apply lives_map). assert (Vt : forall n, lives dt (map (G1 n) dt)) by (intros n; apply lives_map).
    assert (Vc' : forall n, lives dc (map (G1 n) (if rot then dc else []))) by (intros n; destruct rot; [apply Vc|intros ? ? []]).
    assert (Vt' : forall n, lives dt (map (G1 n) (if rot then dt else []))) by (intros n; destruct rot; [apply Vt|intros ? ? []]).
    assert (D : forall q, In q dc -> In q dt -> False) by (intros q A B; apply (jD q); auto).
    assert (T : teq (jmeas rot) (lg_blocks (log_meas_blocks lc rot) ++ lg_blocks (log_meas_blocks lt rot))).
    { rewrite Ec, Et. unfold jmeas, jdata. rewrite map_app. replace (map (G1 GH) (if rot then dc ++ dt else [])) with (map (@G1 string GH) (if rot then dc else []) ++ map (G1 GH) (if rot then dt else []))
        by (destruct rot; [now rewrite map_app|reflexivity]). apply (teq_mix dc dt D); auto. }
    destruct swap; [|exact T]. eapply teq_trans; [exact T|]. apply (teq_swap dc dt D); [rewrite Ec|rewrite Et]; apply lives_app; auto.
  Qed.
End Joint.
