(** What the initialization and the final measurement do to each qubit. *)
From Coq Require Import QArith Qcanon.
From Verif Require Import SpecLayout LayoutP LayoutP2 Base Lib StimM SetupM NoiseM SpecNoise NoiseP LayoutM DetM SpecDet DetP DetCountP
  BlockM ExpM SpecTrack SpecExp TrackP LiftP ExpDetP ExpP ExpP3 ExpP4 ExpP5 ExpP6 ExpP7 ExpP9 ExpP10 ExpP12.
Open Scope Z_scope.

Lemma acting_app {Q} `{Eqb Q} (i : Q) a b : acting i (a ++ b) = acting i a ++ acting i b.
Proof. apply filter_app. Qed.
Lemma touches_rel qi g h q i : SpecNoise.wf_inds qi -> gate_rel qi g h -> dget q qi = Some i -> touches i h = touches q g.
Proof.
  intros W R E. assert (K : forall q' i', dget q' qi = Some i' -> eqb i i' = eqb q q').
  { intros q' i' E'. destruct (eqb_spec q q') as [->|N].
    - rewrite E in E'. injection E' as ->. apply eqb_refl.
    - destruct (eqb_spec i i') as [->|]; [|reflexivity]. exfalso. apply N. eapply inj_inds; eauto. }
  destruct g, h; cbn in R |- *; try contradiction; [destruct R as [_ R]|destruct R as (_ & R & R')]; rewrite ?(K _ _ R); [reflexivity|].
  now rewrite (K _ _ R').
Qed.
Lemma acting_rel qi L G q i : SpecNoise.wf_inds qi -> Forall2 (gate_rel qi) L G -> dget q qi = Some i ->
  Forall2 (gate_rel qi) (acting q L) (acting i G).
Proof.
  intros W F E. unfold acting. induction F as [|g h L G R F IH]; [constructor|]. cbn [filter].
  rewrite (touches_rel _ _ _ _ _ W R E). destruct (touches q g); [constructor|]; auto.
Qed.
Lemma on_rel qi q i gs X : dget q qi = Some i -> Forall2 (gate_rel qi) (on_qubit q gs) X -> X = on_qubit i gs.
Proof.
  intros E. revert X. induction gs as [|g gs IH]; intros X F; inversion F as [|? h ? X' R F']; subst; [reflexivity|].
  cbn [on_qubit map]. f_equal; [|now apply IH]. destruct h; cbn in R; [|contradiction]. destruct R as [-> R]. congruence.
Qed.
Lemma acting_one g (qs : list string) q : NoDup qs -> acting q (map (G1 g) qs) = on_qubit q (if mem q qs then [g] else []).
Proof.
  induction 1 as [|x qs N _ IH]; [reflexivity|]. unfold acting in *. cbn [map filter touches mem]. destruct (eqb_spec q x) as [->|Ne].
  - cbn [orb on_qubit map]. f_equal. rewrite IH. now rewrite (mem_not x qs N).
  - exact IH.
Qed.
Lemma on_app {Q} (q : Q) a b : on_qubit q a ++ on_qubit q b = on_qubit q (a ++ b).
Proof. symmetry. apply map_app. Qed.
Lemma perm_mem ord (Hp : forall (n : nat) (s : list string), Permutation (ord n s) s) n (s : list string) q : mem q (ord n s) = mem q s.
Proof. apply Bool.eq_true_iff_eq. rewrite !mem_In. split; apply Permutation_in; [apply Hp|symmetry; apply Hp]. Qed.
Lemma perm_nodup ord (Hp : forall (n : nat) (s : list string), Permutation (ord n s) s) n (s : list string) : NoDup s -> NoDup (ord n s).
Proof. apply Permutation_NoDup. symmetry. apply Hp. Qed.
Lemma excited_In di q : In q (excited di) <-> exists v, In (q, v) di /\ v <> 0.
Proof.
  unfold excited. rewrite dedup_In, in_map_iff. split.
  - intros ([q' v] & <- & H). apply filter_In in H as [H N]. exists v. split; [exact H|]. cbn in N. destruct (eqb_spec v 0); [discriminate|assumption].
  - intros (v & H & N). exists (q, v). split; [reflexivity|]. apply filter_In. split; [exact H|]. cbn. destruct (eqb_spec v 0); [contradiction|reflexivity].
Qed.
Lemma role_nodup l r s : wf l -> get_role l r = Ok s -> NoDup s.
Proof. intros W E. destruct (C52_lemma _ _ _ W E) as (p & -> & _). apply NoDup_filter. apply (LayoutP.wf_nodup _ W). Qed.
Lemma has_role_eq l r s q : get_role l r = Ok s -> has_role l r q <-> In q s.
Proof. intros E. unfold has_role. rewrite E. split; [intros (s' & [= <-] & H); exact H|eauto]. Qed.
Lemma neighbors_In l qs d q : wf l -> In q (get_neighbors l qs d) <-> exists a, In a qs /\ In q (get_neighbors l [a] d).
Proof.
  intros W. unfold get_neighbors. rewrite in_map_iff. split.
  - intros ([a b] & E & H). cbn in E. subst b. apply (get_pairs_In _ _ _ _ _ W) in H as [Ha H]. exists a. split; [exact Ha|].
    apply in_map_iff. exists (a, q). split; [reflexivity|]. apply (get_pairs_In _ _ _ _ _ W). split; [now left|exact H].
  - intros (a & Ha & H). apply in_map_iff in H as ([a' b] & E & H). cbn in E. subst b. apply (get_pairs_In _ _ _ _ _ W) in H as [[<-|[]] H].
    exists (a, q). split; [reflexivity|]. apply (get_pairs_In _ _ _ _ _ W). now split.
Qed.
Lemma nw_se_iff l s q : wf l -> In q (nw_se l s) <-> exists a, In a s /\ In q (fst (xzzx l a)).
Proof.
  intros W. unfold nw_se, xzzx. cbn [fst]. rewrite dedup_In, in_app_iff, !(neighbors_In _ s _ _ W).
  split; [intros [(a & A & B)|(a & A & B)]; exists a; (split; [exact A|]); apply in_app_iff; auto|].
  intros (a & A & B). apply in_app_iff in B as [B|B]; [left|right]; eauto.
Qed.

Section One.
  Context (ord : nat -> list string -> list string) (Hp : forall n s, Permutation (ord n s) s).
  Lemma start_gates_on qs di q : NoDup qs ->
    acting q (lg_blocks (init_start ord qs di)) = on_qubit q ((if mem q qs then [GR] else []) ++ (if mem q (excited di) then [GX] else [])).
  Proof.
    intros N. assert (E : lg_blocks (init_start ord qs di) = map (G1 GR) (ord 0%nat qs) ++ map (G1 GX) (match excited di with [] => [] | e => ord 1%nat e end)).
    { unfold init_start. destruct (excited di) as [|x e]; cbn [app lg_blocks lg_block flat_map lg_call std_gate is_two tick_block map]; now rewrite ?app_nil_r. }
    rewrite E, acting_app. rewrite !acting_one, on_app.
    - rewrite (perm_mem ord Hp). destruct (excited di) eqn:Ex; [reflexivity|]. now rewrite (perm_mem ord Hp).
    - pose proof (NoDup_dedup (map fst (filter (fun qs => negb (eqb (snd qs) 0)) di))) as [Ne _]. fold (excited di) in Ne.
      destruct (excited di) eqn:Ex; [constructor|]. apply perm_nodup; auto.
    - now apply perm_nodup.
  Qed.
  Definition init_it (xz : bool) := if xz then init_xzzx_blocks ord else init_blocks ord.
  Definition meas_it (xz : bool) := if xz then log_meas_xzzx_blocks ord else log_meas_blocks.
  Lemma init_on xz l di rot q : wf l -> ran (init_it xz l di rot) ->
    exists gs, acting q (lg_blocks (init_it xz l di rot)) = on_qubit q gs /\ preparation l xz rot di q gs.
  Proof.
    intros W R. assert (exists anc data, get_role l "anc" = Ok anc /\ get_role l "data" = Ok data) as (anc & data & Ea & Ed).
    { apply (init_of_roles (fun _ => ord) (if xz then Xzzx else RotCss) l di rot). destruct xz; exact R. }
    pose proof (role_nodup _ _ _ W Ed) as Nd. pose proof (NoDup_dedup (data ++ anc)) as [Nq Iq].
    assert (G : forall hs, NoDup hs -> (In q hs <-> turned l xz rot q) ->
       lg_blocks (init_it xz l di rot) = lg_blocks (init_start ord (dedup (data ++ anc)) di) ++ map (G1 GH) hs ->
       exists gs, acting q (lg_blocks (init_it xz l di rot)) = on_qubit q gs /\ preparation l xz rot di q gs).
    { intros hs Nh Hh E. rewrite E, acting_app, start_gates_on, acting_one, on_app by assumption. eexists. split; [reflexivity|].
      exists (mem q (dedup (data ++ anc))), (mem q (excited di)), (mem q hs). split; [now rewrite <- app_assoc|].
      rewrite !mem_In, Iq, in_app_iff, (has_role_eq _ _ _ q Ea), (has_role_eq _ _ _ q Ed), excited_In. tauto. }
    destruct xz; cbn [init_it] in *.
    - unfold init_xzzx_blocks in *. destruct (negb _); [now apply ran_err in R|]. rewrite Ea, Ed in *. cbn [bind generator] in *.
      destruct (get_stabs l (if rot then "x_type" else "z_type")) as [st|e] eqn:Es.
      2:{ exfalso. destruct R as (m & m' & c & R). cbn [bind] in R. revert R. clear. generalize (init_start ord (dedup (data ++ anc)) di) as b0.
          intros b0. revert m m' c. induction b0 as [|b b0 IH]; intros m m' c H; cbn [app run_blocks] in H.
          - apply sbind_ok in H as (m1 & x & H & _). discriminate.
          - apply sbind_ok in H as (m1 & x & _ & H). apply sbind_ok in H as (m2 & y & _ & H). apply sbind_ok in H as (m3 & z & H & _). eauto. }
      apply (G (ord 3%nat (nw_se l st))).
      + apply perm_nodup; [exact Hp|]. apply NoDup_dedup.
      + rewrite <- mem_In, (perm_mem ord Hp), mem_In, (nw_se_iff _ _ _ W). unfold turned. rewrite Es. split.
        * intros (a & A & B). exists st, a. auto.
        * intros (s & a & [= <-] & A & B). eauto.
      + rewrite lg_app. f_equal. unfold had_block. cbn [bind app lg_blocks lg_block flat_map lg_call std_gate is_two tick_block map]. now rewrite ?app_nil_r.
    - unfold init_blocks in *. rewrite Ea, Ed in *. cbn [bind generator] in *. apply (G (if rot then data else [])).
      + destruct rot; [exact Nd|constructor].
      + unfold turned. rewrite (has_role_eq _ _ _ q Ed). destruct rot; cbn; intuition discriminate.
      + rewrite lg_app. f_equal. destruct rot; cbn [bind app lg_blocks lg_block flat_map lg_call std_gate is_two tick_block map]; now rewrite ?app_nil_r.
  Qed.
  Lemma meas_on xz l rot q : wf l -> ran (meas_it xz l rot) ->
    exists gs, acting q (lg_blocks (meas_it xz l rot)) = on_qubit q gs /\ readout l xz rot q gs.
  Proof.
    intros W R. destruct (get_role l "anc") as [anc|e] eqn:Ea.
    2:{ destruct xz; cbn [meas_it] in R; unfold log_meas_blocks, log_meas_xzzx_blocks in R; rewrite Ea in R; now apply ran_err in R. }
    destruct (get_role l "data") as [data|e] eqn:Ed.
    2:{ destruct xz; cbn [meas_it] in R; unfold log_meas_blocks, log_meas_xzzx_blocks in R; rewrite Ea, Ed in R; now apply ran_err in R. }
    pose proof (role_nodup _ _ _ W Ed) as Nd.
    assert (G : forall hs, NoDup hs -> (In q hs <-> turned l xz rot q) ->
       lg_blocks (meas_it xz l rot) = map (G1 GH) hs ++ map (G1 GM) data ->
       exists gs, acting q (lg_blocks (meas_it xz l rot)) = on_qubit q gs /\ readout l xz rot q gs).
    { intros hs Nh Hh E. rewrite E, acting_app, !acting_one, on_app by assumption. eexists. split; [reflexivity|].
      exists (mem q hs), (mem q data). split; [reflexivity|]. rewrite !mem_In, (has_role_eq _ _ _ q Ed). tauto. }
    destruct xz; cbn [meas_it] in *.
    - destruct (get_stabs l (if rot then "x_type" else "z_type")) as [st|e] eqn:Es.
      2:{ unfold log_meas_xzzx_blocks in R. rewrite Ea, Ed, Es in R. now apply ran_err in R. }
      apply (G (ord 0%nat (nw_se l st))).
      + apply perm_nodup; [exact Hp|]. apply NoDup_dedup.
      + rewrite <- mem_In, (perm_mem ord Hp), mem_In, (nw_se_iff _ _ _ W). unfold turned. rewrite Es. split.
        * intros (a & A & B). exists st, a. auto.
        * intros (s & a & [= <-] & A & B). eauto.
      + now apply (log_meas_xzzx_gates ord l rot anc data st).
    - apply (G (if rot then data else [])).
      + destruct rot; [exact Nd|constructor].
      + unfold turned. rewrite (has_role_eq _ _ _ q Ed). destruct rot; cbn; intuition discriminate.
      + now apply (log_meas_gates l rot data Ed anc).
  Qed.
  Lemma C61_init_lemma (xz : bool) l di rot w w' c : wf l -> SpecNoise.wf_inds (inds (fst w)) ->
    (if xz then init_qubits_xzzx ord else init_qubits ord) l di rot w = (w', Ok c) ->
    (forall q i, dget q (inds (fst w)) = Some i -> exists gs, acting i (gates c) = on_qubit i gs /\ preparation l xz rot di q gs) /\
    (forall a, has_role l "anc" a -> dget a (active (snd w')) = Some true /\ dget a (num_rounds (snd w')) = Some 0).
  Proof.
    intros W Wi H. assert (E : init_with (init_it xz) l di rot w = (w', Ok c)) by (destruct xz; exact H). clear H.
    pose proof (init_ran _ _ _ _ _ _ _ E) as R. unfold init_with in E. apply sbind_ok in E as (w1 & anc & E1 & E). unfold slift in E1. injection E1 as <- Ea.
    apply sbind_ok in E as (w2 & u & E2 & E). apply ond_ok in E2 as (d2 & E2 & ->). apply onm_ok in E as (m3 & E & ->). cbn [fst snd] in *. split.
    - intros q i Hq. destruct (init_on xz l di rot q W R) as (gs & Hg & Pr). exists gs. split; [|exact Pr].
      assert (O : ok_blocks (init_it xz l di rot)) by (apply quiet_blocks; destruct xz; [apply init_xzzx_measures|apply init_measures]).
      destruct (blocks_gates _ _ _ _ E O) as (_ & F & _). pose proof (acting_rel _ _ _ _ _ Wi F Hq) as F2. rewrite Hg in F2. now apply (on_rel _ _ _ _ _ Hq) in F2.
    - intros a Ha. apply (has_role_eq _ _ _ _ Ea) in Ha. unfold activate in E2. destruct (strict_superset _ _); [discriminate|]. destruct u.
      apply activate_iter in E2 as (_ & _ & _ & _ & _ & K). now apply K.
  Qed.
  Lemma log_end_inactive l rot reset ds w w' c : log_meas_end l rot reset ds w = (w', Ok c) ->
    forall a, has_role l "anc" a -> dget a (active (snd w')) = Some false.
  Proof.
    unfold log_meas_end. intros H a Ha. apply sbind_ok in H as (w1 & st & _ & H). apply sbind_ok in H as (w2 & su & _ & H).
    apply sbind_ok in H as (w3 & x & _ & H). apply sbind_ok in H as (w4 & y & _ & H). apply sbind_ok in H as (w5 & anc & H5 & H).
    unfold slift in H5. injection H5 as <- Ea. apply sbind_ok in H as (w6 & u & H6 & H). apply ond_ok in H6 as (d6 & H6 & ->). injection H as <- _. cbn [snd].
    unfold deactivate in H6. destruct (strict_superset _ _); [discriminate|]. destruct u. apply deactivate_iter in H6 as (_ & _ & _ & _ & K).
    apply (has_role_eq _ _ _ _ Ea) in Ha. now apply K.
  Qed.
  Lemma build_data_ann g sup reset recon req d d' c : build_from_data g sup reset recon req d = (d', Ok c) -> annotations c.
  Proof.
    unfold build_from_data. destruct (strict_superset _ _); [discriminate|]. intros H.
    apply sbind_ok in H as (d1 & x1 & _ & H). apply sbind_ok in H as (d2 & x2 & _ & H). apply sbind_ok in H as (d3 & x3 & _ & H).
    apply sbind_ok in H as (d4 & x4 & _ & H). apply sbind_ok in H as (d5 & x5 & H5 & H). apply sbind_ok in H as (d6 & x6 & _ & H). injection H as <- <-.
    unfold sread in H5. injection H5 as <- H5. apply appends_ann; [constructor|]. eapply LiftP.det_instrs; exact H5.
  Qed.
  Lemma log_end_ann l rot reset ds w w' c : log_meas_end l rot reset ds w = (w', Ok c) -> annotations c.
  Proof.
    unfold log_meas_end. intros H. apply sbind_ok in H as (w1 & st & _ & H). apply sbind_ok in H as (w2 & su & _ & H).
    apply sbind_ok in H as (w3 & x & H3 & H). apply ond_ok in H3 as (d3 & H3 & _). apply sbind_ok in H as (w4 & y & H4 & H). apply onm_ok in H4 as (m4 & H4 & _).
    apply sbind_ok in H as (w5 & anc & H5 & H). apply sbind_ok in H as (w6 & u & H6 & H). injection H as _ <-.
    apply build_data_ann in H3. apply append_ann; [exact H3|]. unfold sread in H4. injection H4 as _ H4. unfold observable in H4.
    apply bind_ok in H4 as (lq & _ & H4). apply bind_ok in H4 as (qs & _ & H4). apply bind_ok in H4 as (ts & _ & H4).
    unfold StimM.mk in H4. match type of H4 with (if ?b then _ else _) = _ => destruct b end; [|discriminate]. now injection H4 as <-.
  Qed.
  Lemma C61_meas_lemma (xz : bool) l rot reset dets w w' c : wf l -> SpecNoise.wf_inds (inds (fst w)) ->
    (if xz then log_meas_xzzx ord else log_meas) l rot reset dets w = (w', Ok c) ->
    (forall q i, dget q (inds (fst w)) = Some i -> exists gs, acting i (gates c) = on_qubit i gs /\ readout l xz rot q gs) /\
    (forall a, has_role l "anc" a -> dget a (active (snd w')) = Some false).
  Proof.
    intros W Wi H. assert (E : log_meas_with (meas_it xz) l rot reset dets w = (w', Ok c)).
    { destruct xz; [|exact H]. unfold log_meas_xzzx in H. destruct (negb _); [discriminate|exact H]. }
    clear H. unfold log_meas_with in E. apply sbind_ok in E as (w1 & anc & E1 & E). unfold slift in E1. injection E1 as <- Ea.
    destruct (strict_superset _ _); [discriminate|]. apply sbind_ok in E as (w2 & c2 & E2 & E). apply onm_ok in E2 as (m2 & E2 & ->).
    apply sbind_ok in E as (w3 & d & E3 & E). injection E as <- <-. split; [|eapply log_end_inactive; eauto].
    intros q i Hq. assert (R : ran (meas_it xz l rot)) by (unfold ran; eauto).
    destruct (meas_on xz l rot q W R) as (gs & Hg & Pr). exists gs. split; [|exact Pr].
    assert (O : ok_blocks (meas_it xz l rot)).
    { destruct (get_role l "data") as [data|e] eqn:Ed.
      - apply (only_ok _ data). destruct xz; [now apply log_xzzx_measures|now apply log_measures].
      - destruct xz; cbn [meas_it]; unfold log_meas_blocks, log_meas_xzzx_blocks; rewrite Ea, Ed; repeat constructor. }
    destruct (blocks_gates _ _ _ _ E2 O) as (_ & F & _). pose proof (acting_rel _ _ _ _ _ Wi F Hq) as F2. rewrite Hg in F2. apply (on_rel _ _ _ _ _ Hq) in F2.
    rewrite TrackP.gates_app, acting_app, F2. rewrite (gates_ann d) by (eapply log_end_ann; exact E3). apply app_nil_r.
  Qed.
End One.

(** * Whole memory experiments *)
Definition calm (data : list string) (c : call) : Prop :=
  match c with
  | Call (OH | OCX | OCZ | OSWAP | OIDLE | OIDLED _ | OINC) _ | CTick => True
  | Call (OM | OR) qs => forall q, In q qs -> ~ In q data
  | _ => False
  end.
Definition calmb (data : list string) (b : res (list call)) : Prop := match b with Ok b => Forall (calm data) b | Err _ => True end.
Lemma acting_none {g} {qs : list string} q : ~ In q qs -> acting q (map (G1 g) qs) = [].
Proof.
  induction qs as [|x qs IH]; intros N; [reflexivity|]. unfold acting in *. cbn [map filter touches]. destruct (eqb_spec q x) as [->|_]; [exfalso; apply N; now left|].
  apply IH. intros H. apply N. now right.
Qed.
Lemma Forall_acting {Q} `{Eqb Q} (P : gate Q -> Prop) i l : Forall P l -> Forall P (acting i l).
Proof. intros F. unfold acting. apply Forall_forall. intros g Hg. apply filter_In in Hg as [Hg _]. now apply (proj1 (Forall_forall P l) F). Qed.
Lemma calm_call data c q : calm data c -> In q data -> Forall clifford (acting q (lg_call c)).
Proof.
  destruct c as [o qs|]; [|constructor]. intros Hc Hq.
  assert (P : forall g, Forall clifford (pair_gates g qs : list (gate string))).
  { intros g. clear. induction qs as [qs IH] using (well_founded_induction (well_founded_ltof _ (@length string))).
    destruct qs as [|a [|b r]]; [constructor|constructor|]. cbn [pair_gates]. constructor; [exact I|]. apply IH. unfold ltof. cbn. lia. }
  destruct o; cbn [calm] in Hc; try contradiction; cbn [lg_call std_gate is_two]; try (apply Forall_acting, P); try constructor.
  - apply Forall_acting. clear. induction qs; constructor; auto. reflexivity.
  - rewrite acting_none; [constructor|]. intros K. now apply (Hc q).
  - rewrite acting_none; [constructor|]. intros K. now apply (Hc q).
Qed.
Lemma calm_blocks data bl q : Forall (calmb data) bl -> In q data -> Forall clifford (acting q (lg_blocks bl)).
Proof.
  intros F Hq. induction F as [|b bl Hb F IH]; [constructor|]. unfold lg_blocks in *. cbn [flat_map]. rewrite acting_app. apply Forall_app. split; [|exact IH].
  destruct b as [b|]; [|constructor]. cbn in Hb. unfold lg_block. induction Hb as [|c b Hc Hb IHb]; [constructor|]. cbn [flat_map]. rewrite acting_app.
  apply Forall_app. split; [now apply (calm_call data)|exact IHb].
Qed.
Ltac calms D := unfold tick_block, had_block; repeat first [constructor | apply Forall_app; split | exact I | exact D].
Section Calm.
  Context (ord : nat -> list string -> list string) (l : layout) (anc data : list string).
  Hypothesis (Ea : get_role l "anc" = Ok anc) (Ed : get_role l "data" = Ok data) (D : forall q, In q anc -> ~ In q data).
  Lemma calm_cz site qs k : calmb data (cz_block ord site l qs k).
  Proof.
    unfold cz_block. destruct (cz_lists l k); cbn [bind]; [|exact I]. apply Forall_app. split; [|repeat constructor].
    apply Forall_forall. intros x Hx. apply in_map_iff in Hx as (y & <- & _). exact I.
  Qed.
  Lemma calm_start reset : Forall (calmb data) (round_start data anc reset).
  Proof. unfold round_start. destruct reset; calms D. Qed.
  Lemma calm_css code reset : Forall (calmb data) (css_round ord code l reset).
  Proof.
    unfold css_round. destruct (negb _); [repeat constructor|]. rewrite Ed, Ea. cbn [bind].
    destruct (get_stabs l "x_type") as [xs|]; cbn [bind generator]; [|repeat constructor]. apply Forall_app. split; [apply calm_start|].
    destruct (css_rot l anc xs); cbn [bind]; repeat (constructor; [first [apply calm_cz|solve [calms D]]|]); unfold round_end; calms D.
  Qed.
  Lemma calm_xzzx reset : Forall (calmb data) (xzzx_round ord l reset).
  Proof.
    unfold xzzx_round. destruct (negb _); [repeat constructor|]. rewrite Ed, Ea. cbn [bind].
    destruct (get_stabs l "x_type") as [xs|]; cbn [bind generator]; [|repeat constructor]. apply Forall_app. split; [apply calm_start|].
    assert (QG : forall qs, calmb data (xzzx_g ord 5 l qs)).
    { intros qs. unfold xzzx_g. destruct (cz_lists l 2); cbn [bind]; [|exact I]. destruct (cz_lists l 3); cbn [bind]; [|exact I].
      apply Forall_app. split; [|repeat constructor]. apply Forall_forall. intros x Hx. apply in_map_iff in Hx as (y & <- & _). exact I. }
    destruct (xzzx_rot l anc xs); cbn [bind]; repeat (constructor; [first [apply calm_cz|apply QG|solve [calms D]]|]); unfold round_end; calms D.
  Qed.
  Lemma calm_concat (L : list blocks) : Forall (Forall (calmb data)) L -> Forall (calmb data) (concat L).
  Proof. induction 1; [constructor|]. apply Forall_app. now split. Qed.
  Lemma calm_pipe rot reset : Forall (calmb data) (pipe_round ord rot l reset).
  Proof.
    unfold pipe_round. destruct (negb _); [repeat constructor|]. rewrite Ed, Ea. cbn [bind generator]. apply Forall_app. split; [apply calm_start|].
    apply Forall_app. split; [|unfold round_end; calms D]. apply calm_concat, Forall_forall. intros x Hx. apply in_map_iff in Hx as ([i t] & <- & _). cbn [fst snd].
    unfold pipe_part. destruct (get_stabs l t); cbn [bind generator]; [|repeat constructor].
    destruct (dget_err t (l_order l)); cbn [bind generator]; [|repeat constructor].
    apply Forall_app. split; [destruct i; calms D|]. apply Forall_app. split; [|destruct i; calms D].
    apply calm_concat, Forall_forall. intros y Hy. apply in_map_iff in Hy as (z & <- & _). calms D.
  Qed.
End Calm.
Definition is_xzzx (k : memory_kind) : bool := match k with Xzzx | XzzxPipelined => true | _ => false end.
Lemma C62_lemma ordt k l R di rot reset dets gauge w w' c q i : (forall t n s, Permutation (ordt t n s) s) -> wf l ->
  SpecNoise.wf_inds (inds (fst w)) -> NoDup (labels (snd w)) -> memory ordt k l R di rot reset dets gauge w = (w', Ok c) ->
  has_role l "data" q -> dget q (inds (fst w)) = Some i ->
  exists first (mid : list (gate Z)) last, acting i (gates c) = (on_qubit i first ++ mid ++ on_qubit i last) /\ preparation l (is_xzzx k) rot di q first /\ Forall clifford mid /\ readout l (is_xzzx k) rot q last.
Proof.
  intros Hp W Wi N H Hr Hq.
  assert (RR : ran (init_of ordt k l di rot) /\ ran (meas_of ordt k l rot)).
  { assert (E : memory_with ordt (init_with (init_of ordt k)) (fun r => qec_round (round_k ordt k r)) (log_meas_with (meas_of ordt k)) l R di rot reset dets gauge w = (w', Ok c)).
    { destruct k; cbn [memory] in H; try exact H; now apply xzzx_meas_eq. }
    unfold memory_with in E. destruct (R <? 0); [discriminate|]. apply sbind_ok in E as (w1 & ds & _ & E). apply sbind_ok in E as (w2 & c0 & _ & E).
    apply sbind_ok in E as (w3 & c1 & E3 & E). apply sbind_ok in E as (w4 & c2 & _ & E). apply sbind_ok in E as (w5 & c3 & E5 & _).
    split; [eapply init_ran; eauto|]. unfold log_meas_with in E5. apply sbind_ok in E5 as (w6 & a & _ & E5). destruct (strict_superset _ _); [discriminate|].
    apply sbind_ok in E5 as (w7 & c7 & E7 & _). apply onm_ok in E7 as (m7 & E7 & _). unfold ran. eauto. }
  destruct RR as [R1 R2].
  destruct (memory_any _ _ _ _ _ _ _ _ _ _ _ _ Wi N H) as (_ & anc & data & Ea & Ed & Nd & M & _). clear H.
  destruct M as [(ancs & ds & dsf & c01 & c2 & c3 & c4 & w2 & m3 & -> & _ & _ & _ & _ & _ & _ & T & Mo)].
  assert (A4 : annotations c4) by (destruct Mo as [(x1 & x2 & x3 & x4 & x5 & x6 & x7 & _ & _ & A & _)]; exact A).
  apply (has_role_eq _ _ _ _ Ed) in Hr. clear Mo. pose proof (tk_rel _ _ _ _ T) as F. apply (acting_rel _ _ _ q i Wi) in F; [|exact Hq].
  assert (Di : exists gs, acting q (lg_blocks (init_of ordt k l di rot)) = on_qubit q gs /\ preparation l (is_xzzx k) rot di q gs).
  { destruct k; cbn [init_of is_xzzx] in *; (apply (init_on (ordt 1%nat) (Hp 1%nat) false) || apply (init_on (ordt 1%nat) (Hp 1%nat) true)); auto. }
  assert (Dm : exists gs, acting q (lg_blocks (meas_of ordt k l rot)) = on_qubit q gs /\ readout l (is_xzzx k) rot q gs).
  { destruct k; cbn [meas_of is_xzzx] in *; (apply (meas_on (ordt 2%nat) (Hp 2%nat) false) || apply (meas_on (ordt 2%nat) (Hp 2%nat) true)); auto. }
  destruct Di as (first & E1 & P1), Dm as (last & E2 & P2). rewrite !acting_app, E1, E2 in F.
  assert (Dj : forall x, In x anc -> ~ In x data) by (intros x; now apply (role_disjoint l anc data x W Ea Ed)).
  assert (Cl : Forall clifford (acting q (Gn (fun r => lg_blocks (round_k ordt k r l reset)) (Z.to_nat R)))).
  { clear -Hr Ea Ed Dj. induction (Z.to_nat R) as [|n IH]; [constructor|]. cbn [Gn]. rewrite acting_app. apply Forall_app. split; [exact IH|].
    apply (calm_blocks data); [|exact Hr]. destruct k; cbn [round_k]; [now apply (calm_css _ _ anc)|now apply (calm_css _ _ anc)|now apply (calm_pipe _ _ anc)|now apply (calm_xzzx _ _ anc)|now apply (calm_pipe _ _ anc)]. }
  apply Forall2_app_inv_l in F as (x1 & y & F1 & F & E). apply Forall2_app_inv_l in F as (x2 & x3 & F2 & F3 & ->).
  apply (on_rel _ _ _ _ _ Hq) in F1, F3. subst x1 x3. exists first, x2, last. split; [|split; [exact P1|split; [|exact P2]]].
  - rewrite !TrackP.gates_app, (gates_ann c4 A4), app_nil_r. rewrite !TrackP.gates_app in E. exact E.
  - clear -F2 Cl. revert F2 Cl. generalize (acting q (Gn (fun r => lg_blocks (round_k ordt k r l reset)) (Z.to_nat R))) as L0. intros L0 F2 Cl. induction F2 as [|g h L1 L2 Rg F2 IH]; [constructor|]. inversion Cl; subst. constructor; [|auto]. destruct g, h; cbn in *; intuition congruence.
Qed.
Lemma C62_google_lemma ordt l R di rot dets gauge w w' c q i : (forall t n s, Permutation (ordt t n s) s) -> wf l ->
  SpecNoise.wf_inds (inds (fst w)) -> NoDup (labels (snd w)) -> memory_google ordt l R di rot dets gauge w = (w', Ok c) ->
  dget q (inds (fst w)) = Some i ->
  exists first (rest : list (gate Z)), acting i (gates c) = on_qubit i first ++ rest /\ preparation l true rot di q first.
Proof.
  intros Hp W Wi N H Hq.
  assert (R1 : ran (init_xzzx_blocks (ordt 1%nat) l di rot)).
  { unfold memory_google in H. destruct (R <=? 0); [discriminate|]. apply sbind_ok in H as (w1 & ds & _ & H). apply sbind_ok in H as (w2 & c0 & _ & H).
    apply sbind_ok in H as (w3 & c1 & H & _). now apply init_ran in H. }
  destruct (google_any _ _ _ _ _ _ _ _ _ _ Wi N H) as (_ & anc & data & Ea & Ed & Nd & M & _). clear H.
  destruct M as [(ancs & ds & dsf & c01 & c2 & c3 & c4 & w2 & w3 & -> & _ & _ & _ & _ & _ & O & Mo)].
  destruct Mo as [(x1 & x2 & x3 & x4 & x5 & x6 & x7 & _ & T & A & _)]. pose proof (tk_rel _ _ _ _ T) as F. apply (acting_rel _ _ _ q i Wi) in F; [|exact Hq].
  destruct (init_on (ordt 1%nat) (Hp 1%nat) true l di rot q W R1) as (first & E1 & P1). cbn [init_it] in E1. rewrite acting_app, E1 in F.
  apply Forall2_app_inv_l in F as (y1 & y & F1 & _ & E). apply (on_rel _ _ _ _ _ Hq) in F1. subst y1. exists first, y. split; [|exact P1].
  rewrite <- E, <- !app_assoc. reflexivity.
Qed.
