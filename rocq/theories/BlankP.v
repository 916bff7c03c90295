(** Proofs for Props_Blank.v (C86). *)
From Coq Require Import QArith Qcanon Permutation.
From Verif Require Import Base StimM SetupM MatM NoiseM LayoutM DetM BlockM ExpM MergeM SpecDet SpecMerge SpecFresh SpecIdeal SpecBlank Lib NoiseP DetP DetCountP FreshP IdealP MergeP MergeP6 CnotP2 CnotP3.
Open Scope Z_scope.

Section Blank.
  (* which instructions may differ, and how; [P] tells whether an ancilla is kept *)
  Context (cs : dict string (list Qc)) (ok : instr -> instr -> Prop).
  Context (ok_gate : forall i, nm i <> DETECTOR -> ok i i).
  Definition oks : circuit -> circuit -> Prop := Forall2 ok.
  Definition Bw (w w' : world) : Prop := w' = w /\ dcoords (snd w) = cs.
  Definition Bd (d d' : detectors) : Prop := d' = d /\ dcoords d = cs.
  Notation bw := (osim Bw).
  Notation bd := (osim Bd).
  (* what the smaller request may be *)
  Definition cut (r r' : list string) : Prop :=
    incl r' r /\ forall a i, In a r -> detector_of cs a i -> ok i (Instr DETECTOR (if mem a r' then tg i else []) (ar i)).
  Context (ok_det : forall a i, detector_of cs a i -> tg i = [] -> ok i i).

  Lemma oks_app a b c d : oks a b -> oks c d -> oks (a ++ c) (b ++ d).
  Proof. apply Forall2_app. Qed.
  Lemma oks_gates c : Forall (fun i => nm i <> DETECTOR) c -> oks c c.
  Proof. induction 1; constructor; auto. Qed.
  Lemma bw_ond {A} (Q : A -> A -> Prop) (x y : model -> ST detectors A) : (forall m, bd Q (x m) (y m)) -> bw Q (ond x) (ond y).
  Proof.
    intros H [m d] w' [-> E]. cbn [fst snd] in *. specialize (H m d d (conj eq_refl E)). unfold ond. cbn [fst snd].
    destruct (x m d) as [d1 [a|]]; [|exact I]. cbn [fst snd] in *. destruct H as (b & E1 & [E2 E3] & HQ).
    destruct (y m d) as [d2 r]. cbn [fst snd] in *. subst. exists b. repeat split; auto.
  Qed.
  Lemma bd_state (x : ST detectors unit) : kd x -> bd (fun a b => a = b) x x.
  Proof.
    intros H d d' [-> E]. specialize (H d). destruct (x d) as [d1 [a|]]; [|exact I]. cbn [fst snd] in *.
    exists a. split; [reflexivity|split; [|reflexivity]]. split; [reflexivity|]. destruct H as (_ & _ & H). congruence.
  Qed.
  Lemma bd_read {A} (f : detectors -> res A) : bd (fun a b => a = b) (sread f) (sread f).
  Proof. apply osim_read. intros d d' a [-> _] E. eauto. Qed.
  Lemma bw_same (x : ST world circuit) : kw x -> (forall w w1 c, x w = (w1, Ok c) -> Forall (fun i => nm i <> DETECTOR) c) -> bw oks x x.
  Proof.
    intros H H1 w w' [-> E]. specialize (H w). destruct (x w) as [w1 [c|]] eqn:X; [|exact I]. cbn [fst snd] in *.
    exists c. split; [reflexivity|split; [|apply oks_gates; eauto]]. split; [reflexivity|]. destruct H as [_ (_ & _ & H)]. congruence.
  Qed.

  Lemma cut_requested d r r' ancs : cut r r' -> requested d (Some r) = Ok ancs ->
    exists ancs', requested d (Some r') = Ok ancs' /\
      forall a, (In a ancs' <-> In a ancs /\ In a r').
  Proof.
    intros [Hi _] E. assert (X : exists ancs', requested d (Some r') = Ok ancs').
    { unfold requested in *. apply bind_ok in E as (fl & E & _). apply mapM_Forall2 in E.
      assert (F : forall a, In a r -> exists b, dget_err a (active d) = Ok b).
      { clear -E. induction E; intros a Ha; [destruct Ha|destruct Ha as [<-|Ha]; eauto]. }
      clear E. assert (G : exists fl', mapM (fun a => dget_err a (active d)) r' = Ok fl').
      { clear -Hi F. induction r' as [|x r' IH]; [exists []; reflexivity|]. destruct (F x (Hi x (or_introl eq_refl))) as [b Eb].
        destruct IH as [fl' E']; [intros y Hy; apply Hi; now right|]. simpl. rewrite Eb. simpl. rewrite E'. simpl. eauto. }
      destruct G as [fl' ->]. simpl. eauto. }
    destruct X as [ancs' E']. exists ancs'. split; [exact E'|]. intros a.
    rewrite (requested_ok _ _ _ E a), (requested_ok _ _ _ E' a). cbn beta iota. specialize (Hi a). tauto.
  Qed.
  Lemma cut_instr d g r r' ancs ancs' t x i : cut r r' -> dcoords d = cs -> (forall a, In a ancs -> In a r) ->
    (forall a, In a ancs' <-> In a ancs /\ In a r') ->
    det_instr d g ancs t x = Ok i -> exists j, det_instr d g ancs' t x = Ok j /\ ok i j /\ nm i = DETECTOR /\ nm j = DETECTOR.
  Proof.
    intros [Hi Hc] Ed Hr Ha E. unfold det_instr in *. destruct x as [a ts]. cbn [fst snd] in *.
    apply bind_ok in E as (recs & E1 & E). apply bind_ok in E as (xs & E2 & E). unfold mk, instr_ok in E. simpl in E. injection E as <-.
    assert (D : detector_of cs a (Instr DETECTOR recs (map ANum (xs ++ [t])))).
    { split; [reflexivity|]. exists xs, t. split; [|reflexivity]. rewrite <- Ed. unfold dget_err in E2. destruct (dget a (dcoords d)); [|discriminate]. now injection E2 as ->. }
    rewrite E2. destruct (mem a ancs) eqn:Ma.
    - apply mem_In in Ma. specialize (Hc a _ (Hr a Ma) D). cbn [tg ar] in Hc. destruct (mem a r') eqn:Mr.
      + assert (M : mem a ancs' = true) by (apply mem_In, Ha; split; [exact Ma|now apply mem_In]). rewrite M, E1. simpl. eexists. split; [reflexivity|]. auto.
      + assert (M : mem a ancs' = false) by (apply mem_not_In; rewrite Ha; apply mem_not_In in Mr; tauto). rewrite M. simpl. eexists. split; [reflexivity|]. auto.
    - injection E1 as <-. assert (M : mem a ancs' = false) by (apply mem_not_In; rewrite Ha; apply mem_not_In in Ma; tauto). rewrite M. simpl.
      eexists. split; [reflexivity|]. split; [now apply (ok_det a)|auto].
  Qed.
  Lemma cut_instrs d g r r' ancs ancs' t l c : cut r r' -> dcoords d = cs -> (forall a, In a ancs -> In a r) ->
    (forall a, In a ancs' <-> In a ancs /\ In a r') ->
    mapM (det_instr d g ancs t) l = Ok c -> exists c', mapM (det_instr d g ancs' t) l = Ok c' /\ oks (appends [] c) (appends [] c').
  Proof.
    intros Hc Ed Hr Ha E. apply mapM_Forall2 in E.
    assert (X : exists c', mapM (det_instr d g ancs' t) l = Ok c' /\ oks c c' /\ Forall (fun i => nm i = DETECTOR) c /\ Forall (fun i => nm i = DETECTOR) c').
    { induction E as [|x i l c E _ IH]; [exists []; repeat split; constructor|]. destruct IH as (c' & E' & O & N1 & N2).
      destruct (cut_instr d g r r' ancs ancs' t x i Hc Ed Hr Ha E) as (j & Ej & Oj & Nj & Nj'). exists (j :: c'). simpl. rewrite Ej. simpl. rewrite E'. simpl.
      repeat split; constructor; auto. }
    destruct X as (c' & E' & O & N1 & N2). exists c'. split; [exact E'|]. rewrite (appends_det c []), (appends_det c' []) by auto. exact O.
  Qed.
  (* the request read from the detectors *)
  Definition anded (r r' : list string) (ancs ancs' : list string) : Prop :=
    (forall a, In a ancs -> In a r) /\ forall a, In a ancs' <-> In a ancs /\ In a r'.
  Lemma bd_requested r r' : cut r r' -> bd (anded r r') (sread (fun d => requested d (Some r))) (sread (fun d => requested d (Some r'))).
  Proof.
    intros H. apply osim_read. intros d d' ancs [-> _] E. destruct (cut_requested d r r' ancs H E) as (ancs' & E' & Ha). exists ancs'. split; [exact E'|].
    split; [|exact Ha]. intros a Hi. now apply (requested_ok _ _ _ E) in Hi.
  Qed.
  Lemma bd_set (f : detectors -> detectors) : (forall d, dcoords (f d) = dcoords d) -> bd (fun a b => a = b) (fun d => (f d, Ok tt)) (fun d => (f d, Ok tt)).
  Proof. intros H d d' [-> E]. exists tt. cbn. split; [reflexivity|split; [|reflexivity]]. split; [reflexivity|]. now rewrite H. Qed.
  Lemma bd_instrs r r' ancs ancs' g (t : detectors -> Qc) dets : cut r r' -> anded r r' ancs ancs' ->
    bd (fun c c' => oks (appends [] c) (appends [] c')) (sread (fun d => mapM (det_instr d g ancs (t d)) dets)) (sread (fun d => mapM (det_instr d g ancs' (t d)) dets)).
  Proof. intros H [A B]. apply osim_read. intros d d' c [-> Ed] E. eapply cut_instrs; eauto. Qed.
  Lemma bd_anc g reset r r' : cut r r' -> bd oks (build_from_anc g reset (Some r)) (build_from_anc g reset (Some r')).
  Proof.
    intros H. unfold build_from_anc. apply (osim_bind _ (anded r r')); [now apply bd_requested|]. intros ancs ancs' Ha.
    apply (osim_bind _ (fun a b => a = b)); [apply bd_read|intros nr ? <-].
    apply (osim_bind _ (fun a b => a = b)); [apply bd_set; reflexivity|intros _ _ _].
    apply (osim_bind _ (fun a b => a = b)); [apply bd_read|intros dets ? <-].
    eapply osim_bind; [apply (bd_instrs r r' ancs ancs' g (fun d => zq (total d - 1)) dets H Ha)|]. intros c c' Hc.
    apply (osim_bind _ (fun a b => a = b)); [apply (bd_set (fun d => set_gens (curr_gen d) (curr_gen d) d)); reflexivity|intros _ _ _].
    now apply osim_ret.
  Qed.
  Lemma bd_data g sup reset recon r r' : cut r r' -> bd oks (build_from_data g sup reset recon (Some r)) (build_from_data g sup reset recon (Some r')).
  Proof.
    intros H. unfold build_from_data. destruct (strict_superset _ _); [apply osim_fail|].
    apply (osim_bind _ (anded r r')); [now apply bd_requested|]. intros ancs ancs' Ha.
    apply (osim_bind _ (fun a b => a = b)); [apply bd_read|intros nr ? <-].
    apply (osim_bind _ (fun a b => a = b)); [apply bd_read|intros dets ? <-].
    apply (osim_bind _ (fun a b => a = b)); [apply osim_lift|intros dets' ? <-].
    eapply osim_bind; [apply (bd_instrs r r' ancs ancs' g (fun d => (zq (total d) - Q2Qc (1#2))%Qc) dets' H Ha)|]. intros c c' Hc.
    apply (osim_bind _ (fun a b => a = b)); [apply (bd_set (fun d => set_gens (curr_gen d) (curr_gen d) d)); reflexivity|intros _ _ _].
    now apply osim_ret.
  Qed.

  (** * The blocks *)
  Lemma bw_run l : bw oks (onm (run_blocks l)) (onm (run_blocks l)).
  Proof.
    apply bw_same; [apply kw_onm, km_blocks|]. intros [m d] w1 c E. unfold onm in E. cbn [fst snd] in E. destruct (run_blocks l m) as [m1 r] eqn:X. injection E as <- ->.
    apply blocks_okc in X as (X & _). eapply Forall_impl; [|exact X]. intros i Hi. apply Hi.
  Qed.
  Lemma bw_det (x : ST detectors unit) : kd x -> bw (fun a b => a = b) (ond (fun _ => x)) (ond (fun _ => x)).
  Proof. intros H. apply bw_ond. intros _. now apply bd_state. Qed.
  Lemma cut_super r r' anc : cut r r' -> strict_superset r anc = false -> strict_superset r' anc = false.
  Proof.
    intros [Hi _] H. destruct (strict_superset r' anc) eqn:E; [|reflexivity]. rewrite <- H. unfold strict_superset in *.
    apply andb_true_iff in E as [E1 E2]. symmetry. apply andb_true_iff. split.
    - apply subset_spec in E1. apply subset_spec. intros x Hx. now apply Hi, E1.
    - apply negb_true_iff in E2. apply negb_true_iff. destruct (subset r anc) eqn:S0; [|reflexivity]. rewrite <- E2. symmetry.
      apply subset_spec in S0. apply subset_spec. intros x Hx. now apply S0, Hi.
  Qed.
  Ltac step :=
    match goal with
    | |- osim _ _ (sbind (slift _) _) _ => apply (osim_bind _ (fun a b => a = b)); [apply osim_lift|intros ? ? <-]
    | |- osim _ _ (sbind (ond (fun _ => activate _)) _) _ => apply (osim_bind _ (fun a b => a = b)); [apply bw_det, kd_activate|intros ? ? <-]
    | |- osim _ _ (sbind (ond (fun _ => deactivate _)) _) _ => apply (osim_bind _ (fun a b => a = b)); [apply bw_det, kd_deactivate|intros ? ? <-]
    | |- osim _ _ (sbind (ond (fun _ => update_from_dict _)) _) _ => apply (osim_bind _ (fun a b => a = b)); [apply bw_det, kd_update_dict|intros ? ? <-]
    | |- osim _ _ (sfail _) _ => apply osim_fail
    | |- osim _ _ (sret _) _ => apply osim_ret; repeat apply oks_app; assumption
    | |- osim _ _ (onm (run_blocks _)) _ => apply bw_run
    | |- osim _ _ (ond (fun m => build_from_anc _ _ _)) _ => apply bw_ond; intros ?; apply bd_anc; assumption
    | |- osim _ _ (ond (fun m => build_from_data _ _ _ _ _)) _ => apply bw_ond; intros ?; apply bd_data; assumption
    | |- osim _ _ (let _ := _ in _) _ => cbv zeta
    end.
  Ltac circ := apply (osim_bind _ oks); [|intros ? ? ?].
  Ltac super H := match goal with |- osim _ _ (if strict_superset ?r ?a then _ else _) _ =>
    let E := fresh in destruct (strict_superset r a) eqn:E; [apply osim_fail|rewrite (cut_super _ _ _ H E)] end.

  Lemma bw_start ls : bw oks (exp_start ls) (exp_start ls).
  Proof.
    apply bw_same; [apply kw_start|]. intros w w1 c E. unfold exp_start in E. do 2 apply sbind_ok in E as (? & ? & _ & E).
    unfold onm in E. destruct (sread (block_coords ls) _) as [m1 r] eqn:X. injection E as _ ->. apply sread_ok in X as [_ X].
    unfold block_coords in X. apply bind_ok in X as (cc & X & [= <-]). apply mapM_Forall2 in X.
    induction X as [|l c ls' cc X _ IH]; simpl; [constructor|]. apply Forall_app. split; [|exact IH]. clear -X.
    apply bind_ok in X as (d & _ & X). unfold NoiseM.qubit_coords in X. destruct (strict_superset _ _); [discriminate|].
    assert (N : Forall (fun i => nm i <> DETECTOR) []) by constructor. revert N X. generalize (@nil instr) as a.
    induction d as [|kv d IH]; intros a N E; simpl in E; [now injection E as <-|]. apply bind_ok in E as (a1 & E1 & E).
    apply (IH a1); [|exact E]. apply bind_ok in E1 as (i & _ & [= <-]). clear -N.
    induction N as [|j c Hj N IH]; [repeat constructor; discriminate|]. destruct c as [|k c].
    - cbn [append]. destruct (_ && _); repeat constructor; cbn; auto; discriminate.
    - change (append (j :: k :: c) ?i) with (j :: append (k :: c) i). constructor; [exact Hj|exact IH].
  Qed.
  Lemma bw_init_with it l di rot : bw oks (init_with it l di rot) (init_with it l di rot).
  Proof. unfold init_with. repeat step. Qed.
  Lemma bw_round it l reset r r' : cut r r' -> bw oks (qec_round it l reset (Some r)) (qec_round it l reset (Some r')).
  Proof. intros H. unfold qec_round. circ; [step|]. step. cbv zeta. cbn [odef]. super H. circ; repeat step. Qed.
  Lemma bw_ground ord l r r' : cut r r' -> bw oks (google_qec_round ord l (Some r)) (google_qec_round ord l (Some r')).
  Proof. intros H. unfold google_qec_round. circ; [step|]. circ; repeat step. Qed.
  Lemma bw_end l rot reset r r' : cut r r' -> bw oks (log_meas_end l rot reset r) (log_meas_end l rot reset r').
  Proof.
    intros H. unfold log_meas_end. step. step. circ; [step|]. apply (osim_bind _ (fun i j => i = j /\ nm i = OBSERVABLE_INCLUDE)).
    - intros [m d] w' [-> E]. unfold onm, sread. cbn [fst snd]. destruct (observable l rot m) as [i|] eqn:X; [|exact I]. exists i. cbn.
      split; [reflexivity|split; [split; [reflexivity|exact E]|split; [reflexivity|]]].
      unfold observable in X. apply bind_ok in X as (? & _ & X). apply bind_ok in X as (? & _ & X). apply bind_ok in X as (? & _ & X).
      unfold mk in X. destruct (instr_ok _); [now injection X as <-|discriminate].
    - intros o o' [<- N]. step. step. apply osim_ret. rewrite !append_last by now rewrite N. apply oks_app; [assumption|].
      constructor; [apply ok_gate; now rewrite N|constructor].
  Qed.
  Lemma bw_meas_with it l rot reset r r' : cut r r' -> bw oks (log_meas_with it l rot reset (Some r)) (log_meas_with it l rot reset (Some r')).
  Proof. intros H. unfold log_meas_with. step. cbv zeta. cbn [odef]. super H. circ; [step|]. circ; [now apply bw_end|]. step. Qed.
  Lemma bw_meas_xzzx ord l rot reset r r' : cut r r' -> bw oks (log_meas_xzzx ord l rot reset (Some r)) (log_meas_xzzx ord l rot reset (Some r')).
  Proof. intros H. unfold log_meas_xzzx. destruct (negb _); [step|]. now apply bw_meas_with. Qed.
  Lemma bw_gmeas ord l rot r r' : cut r r' -> bw oks (google_log_meas ord l rot (Some r)) (google_log_meas ord l rot (Some r')).
  Proof.
    intros H. unfold google_log_meas. destruct (negb _); [step|]. step. cbv zeta. cbn [odef]. super H. circ; [step|]. circ; [step|].
    circ; [now apply bw_end|]. step.
  Qed.
  Lemma bw_trans p it l : bw oks (log_trans p it l) (log_trans p it l).
  Proof. unfold log_trans. repeat step. Qed.

  (** * The experiments on two layouts *)
  Lemma anc_dets g reset req d d1 c : build_from_anc g reset req d = (d1, Ok c) -> Forall (fun i => nm i = DETECTOR) c.
  Proof.
    unfold build_from_anc. intros H. do 4 (apply sbind_ok in H as (? & ? & _ & H)). apply sbind_ok in H as (? & r & H1 & H).
    apply sread_ok in H1 as [_ H1]. apply sbind_ok in H as (? & ? & _ & H). apply sret_ok in H as [_ <-]. apply det_instrs in H1 as [-> H1].
    clear -H1. induction H1 as [|? ? ? ? [(xs & _ & H & _) _] _ IH]; constructor; auto.
  Qed.
  Lemma data_dets g sup reset recon req d d1 c : build_from_data g sup reset recon req d = (d1, Ok c) -> Forall (fun i => nm i = DETECTOR) c.
  Proof.
    unfold build_from_data. destruct (strict_superset _ _); [intros [=]|]. intros H.
    do 4 (apply sbind_ok in H as (? & ? & _ & H)). apply sbind_ok in H as (? & r & H1 & H).
    apply sread_ok in H1 as [_ H1]. apply sbind_ok in H as (? & ? & _ & H). apply sret_ok in H as [_ <-]. apply det_instrs in H1 as [-> H1].
    clear -H1. induction H1 as [|? ? ? ? [(xs & _ & H & _) _] _ IH]; constructor; auto.
  Qed.
  Definition dets2 (c c' : circuit) : Prop := oks c c' /\ Forall (fun i => nm i = DETECTOR) c /\ Forall (fun i => nm i = DETECTOR) c'.
  Lemma bd_both (x y : ST detectors circuit) (P : circuit -> Prop) : bd oks x y -> (forall d d1 c, x d = (d1, Ok c) -> P c) -> (forall d d1 c, y d = (d1, Ok c) -> P c) ->
    bd (fun c c' => oks c c' /\ P c /\ P c') x y.
  Proof.
    intros H Hx Hy d d' E. specialize (H d d' E). specialize (Hx d). specialize (Hy d'). destruct (x d) as [d1 [c|]]; [|exact I]. cbn [fst snd] in *.
    destruct H as (b & E1 & E2 & HQ). destruct (y d') as [d2 r]. cbn [fst snd] in *. subst r. exists b. split; [reflexivity|split; [exact E2|]]. eauto.
  Qed.
  Lemma cat_dets fuse c d : Forall (fun i => nm i = DETECTOR) d -> cat fuse c d = c ++ d.
  Proof. intros H. unfold cat. destruct fuse; [now apply appends_det|reflexivity]. Qed.
  Lemma bw_merged fuse l : bw oks (onm (merged_blocks fuse l)) (onm (merged_blocks fuse l)).
  Proof.
    apply bw_same; [apply kw_onm, km_merged|]. intros [m d] w1 c E. unfold onm in E. cbn [fst snd] in E. destruct (merged_blocks fuse l m) as [m1 r] eqn:X. injection E as <- ->.
    apply merged_okc in X. eapply Forall_impl; [|exact X]. intros i Hi. apply Hi.
  Qed.
  Lemma bw_lift {A B} (Q : A -> B -> Prop) (x : res A) (y : res B) : (forall a, x = Ok a -> exists b, y = Ok b /\ Q a b) -> bw Q (slift x) (slift y).
  Proof.
    intros H w w' E. unfold slift. cbn [fst snd]. destruct x as [a|]; [|exact I]. destruct (H a eq_refl) as (b & -> & HQ). exists b. auto.
  Qed.
  Lemma bw_ok {B} ls r r' (Q : B -> B -> Prop) (x y : ST world B) : cut r r' -> bw Q x y ->
    bw Q (sdo ok <- slift (dets_ok ls (Some r)); if negb ok then sfail ValueError else x) (sdo ok <- slift (dets_ok ls (Some r')); if negb ok then sfail ValueError else y).
  Proof.
    intros H Hx. unfold dets_ok. destruct (mapM _ ls) as [ancs|]; simpl; [|intros w w' E; exact I].
    apply (osim_bind _ (fun a b => a = negb (strict_superset r (concat ancs)) /\ b = negb (strict_superset r' (concat ancs)))).
    - apply bw_lift. intros a [= <-]. eauto.
    - intros a b [-> ->]. rewrite !negb_involutive. destruct (strict_superset r (concat ancs)) eqn:E; [apply osim_fail|]. now rewrite (cut_super _ _ _ H E).
  Qed.
  Lemma bw_mrounds fuse it ls reset r r' : cut r r' -> bw oks (merge_qec_rounds fuse it ls reset (Some r)) (merge_qec_rounds fuse it ls reset (Some r')).
  Proof.
    intros H. unfold merge_qec_rounds. apply bw_ok; [exact H|]. circ; [apply bw_merged|]. apply (osim_bind _ dets2).
    - apply bw_ond. intros m. apply bd_both; [now apply bd_anc|intros d d1 c; apply anc_dets|intros d d1 c; apply anc_dets].
    - intros d d' (O & N1 & N2). rewrite !cat_dets by assumption. apply osim_ret. now apply oks_app.
  Qed.
  Lemma bw_mmeas fuse it ls rots reset r r' : cut r r' -> bw oks (merge_log_meas fuse it ls rots reset (Some r)) (merge_log_meas fuse it ls rots reset (Some r')).
  Proof.
    intros H. unfold merge_log_meas. destruct (negb (Nat.eqb _ _)); [step|]. cbv zeta. apply bw_ok; [exact H|]. circ; [apply bw_merged|].
    apply (osim_bind _ (fun a b => a = b)); [apply osim_lift|]. intros [stabs sup] ? <-. apply (osim_bind _ dets2).
    - apply bw_ond. intros m. apply bd_both; [now apply bd_data|intros d d1 c; apply data_dets|intros d d1 c; apply data_dets].
    - intros d d' (O & N1 & N2). apply (osim_bind _ (fun i j => i = j /\ Forall (fun o => nm o = OBSERVABLE_INCLUDE) i)).
      + intros [m0 d0] w' [-> E]. unfold onm, sread. cbn [fst snd]. destruct (all_observables _ m0) as [os|] eqn:X; [|exact I]. exists os. cbn.
        split; [reflexivity|split; [split; [reflexivity|exact E]|split; [reflexivity|]]].
        unfold all_observables in X. apply bind_ok in X as (os' & X & [= <-]). apply mapM_Forall2 in X. clear -X.
        induction X as [|[k [l rot]] o ? ? X _ IH]; simpl; [constructor|]. apply Forall_app. split; [|exact IH]. clear -X.
        unfold layout_observables in X. cbn [fst snd] in X. apply mapM_Forall2 in X. induction X as [|? ? ? ? X _ IH]; constructor; [|exact IH].
        apply bind_ok in X as (? & _ & X). apply bind_ok in X as (? & _ & X). unfold mk in X. destruct (instr_ok _); [now injection X as <-|discriminate].
      + intros os ? [<- No]. apply osim_ret. rewrite !appends_obs, !cat_dets by assumption. apply oks_app; [now apply oks_app|].
        apply oks_gates. eapply Forall_impl; [|exact No]. cbn. intros i ->. discriminate.
  Qed.
  Lemma bw_cnot ord ordp lc lt : bw oks (log_trans_cnot ord ordp lc lt) (log_trans_cnot ord ordp lc lt).
  Proof. unfold log_trans_cnot. repeat step. Qed.
  Definition oks3 (x y : circuit * layout * layout) : Prop := oks (fst (fst x)) (fst (fst y)) /\ snd (fst x) = snd (fst y) /\ snd x = snd y.
  Lemma bw_loop ordt ordp round round' alt n count : (forall j lc lt, bw oks (round j lc lt) (round' j lc lt)) ->
    forall k lc lt acc acc', oks acc acc' -> bw oks3 (cnot_loop ordt ordp round alt n count k lc lt acc) (cnot_loop ordt ordp round' alt n count k lc lt acc').
  Proof.
    intros H. induction count as [|count IH]; intros k lc lt acc acc' Ha; cbn [cnot_loop]; [apply osim_ret; repeat split; exact Ha|].
    destruct (alt && Nat.odd k); (circ; [apply bw_cnot|]; circ;
      [apply osim_fold; [|constructor]; intros ? ? ? ?; circ; [apply H|]; step|]; apply IH; repeat apply oks_app; assumption).
  Qed.
  Definition plain2 (a b : circuit) : Prop := a = b /\ okc (fun g => g <> DETECTOR /\ g <> OBSERVABLE_INCLUDE) (fun _ => True) a /\ even_targets a.
  Lemma bw_init2 ord l di rot : bw plain2 (init_qubits ord l di rot) (init_qubits ord l di rot).
  Proof.
    unfold init_qubits, init_with. step. step. intros [m d] w' [-> E]. unfold onm. cbn [fst snd]. destruct (run_blocks _ m) as [m1 [c|]] eqn:X; [|exact I]. cbn [fst snd].
    exists c. split; [reflexivity|split; [split; [reflexivity|exact E]|]]. apply blocks_okc in X as (X & Ev & _). split; [reflexivity|split; [|exact Ev]].
    eapply Forall_impl; [|exact X]. cbn. intros i [Hi _]. split; [exact Hi|]. apply Forall_forall. auto.
  Qed.
  Definition stabs2 (lc lt : layout) (rot : bool) : res (list string) :=
    do sc <- get_stabs lc (basis_type rot); do st <- get_stabs lt (basis_type rot); Ok (sc ++ st).
  Definition anc2 (lc lt : layout) : res (list string) := do c <- get_role lc "anc"; do t <- get_role lt "anc"; Ok (c ++ t).
  Definition first2 (ordt : nat -> nat -> list string -> list string) lc lt rot (g : bool) (D : list string) : res (list string) :=
    if g then Ok D else do s <- stabs2 lc lt rot; Ok (ordt 0%nat 0%nat (inter (dedup D) s)).
  Lemma bw_cnots fuse show ordt ordp it lc lt n R di ori rot reset dets dets' gauge gauge' :
    (forall D, match dets with Some d => Ok d | None => anc2 lc lt end = Ok D -> exists D', match dets' with Some d => Ok d | None => anc2 lc lt end = Ok D' /\ cut D D' /\
      forall ds, first2 ordt lc lt rot gauge D = Ok ds -> exists ds', first2 ordt lc lt rot gauge' D' = Ok ds' /\ cut ds ds') ->
    bw oks (repeated_cnot_with fuse show ordt ordp it lc lt n R di ori rot reset dets gauge) (repeated_cnot_with fuse show ordt ordp it lc lt n R di ori rot reset dets' gauge').
  Proof.
    intros HD. unfold repeated_cnot_with. destruct (R <? 0); [step|]. destruct (n <? 0); [step|].
    apply (osim_bind _ (fun D D' => cut D D' /\ forall ds, first2 ordt lc lt rot gauge D = Ok ds -> exists ds', first2 ordt lc lt rot gauge' D' = Ok ds' /\ cut ds ds')).
    { apply bw_lift. exact HD. }
    intros D D' [HC HF]. destruct (negb (mem _ _)); [step|]. step. step. circ; [apply bw_start|].
    apply (osim_bind _ plain2); [apply bw_init2|]. intros ic ? (<- & K1 & E1). apply (osim_bind _ plain2); [apply bw_init2|]. intros it_ ? (<- & K2 & E2).
    circ.
    { apply bw_lift. intros c E. exists c. split; [exact E|].
      assert (NT : TICK <> DETECTOR /\ TICK <> OBSERVABLE_INCLUDE) by (split; discriminate).
      pose proof (merge_okc show _ _ ic it_ c NT K1 K2 E1 E2 E) as K. apply oks_gates. eapply Forall_impl; [|exact K]. cbn. intros i Hi. apply Hi. }
    apply (osim_bind _ cut).
    { apply bw_lift. intros ds E.
      assert (F : forall g X, first2 ordt lc lt rot g X = (if g then Ok X else do sc <- get_stabs lc (basis_type rot); do st <- get_stabs lt (basis_type rot);
        Ok (ordt 0%nat 0%nat (inter (dedup X) (sc ++ st))))).
      { intros g X. unfold first2, stabs2. destruct g; [reflexivity|]. destruct (get_stabs lc _); [|reflexivity]. simpl. destruct (get_stabs lt _); reflexivity. }
      rewrite <- F in E. destruct (HF ds E) as (ds' & E' & Hc). exists ds'. split; [|exact Hc]. now rewrite <- F. }
    intros ds ds' Hd. cbv zeta. circ; [now apply bw_mrounds|].
    apply (osim_bind _ oks3); [apply bw_loop; [intros; now apply bw_mrounds|constructor]|]. intros [[c3 la] lb] [[c3' la'] lb'] (O3 & Ea & Eb). cbn [fst snd] in *. subst la' lb'.
    circ; [now apply bw_mmeas|]. step.
  Qed.

  (** * The experiments *)
  Context (ordt : nat -> nat -> list string -> list string) (l : layout) (rot gauge gauge' : bool) (dets dets' : option (list string)).
  Definition first_of (g : bool) (D : list string) : res (list string) := if negb g then first_dets ordt l rot D else Ok D.
  Context (HD : forall D, default_dets l dets = Ok D -> exists D', default_dets l dets' = Ok D' /\ cut D D' /\
    forall ds, first_of gauge D = Ok ds -> exists ds', first_of gauge' D' = Ok ds' /\ cut ds ds').
  Definition fit (D D' : list string) : Prop := cut D D' /\
    forall ds, first_of gauge D = Ok ds -> exists ds', first_of gauge' D' = Ok ds' /\ cut ds ds'.
  Lemma bw_default : bw fit (slift (default_dets l dets)) (slift (default_dets l dets')).
  Proof. apply bw_lift. intros D E. destruct (HD D E) as (D' & E' & X & Y). exists D'. split; [exact E'|split; assumption]. Qed.
  Lemma bw_first D D' : fit D D' -> bw cut (slift (if negb gauge then first_dets ordt l rot D else Ok D)) (slift (if negb gauge' then first_dets ordt l rot D' else Ok D')).
  Proof. intros [_ H]. apply bw_lift. exact H. Qed.
  Lemma bw_rounds round D D' n : fit D D' -> (forall r ds ds', cut ds ds' -> bw oks (round r ds) (round r ds')) ->
    bw oks (exp_rounds ordt round l rot gauge D n) (exp_rounds ordt round l rot gauge' D' n).
  Proof.
    intros HF H. unfold exp_rounds. apply osim_fold; [|constructor]. intros b d r Hbd. apply (osim_bind _ cut).
    - destruct (Nat.eqb r 0); cbn [andb]; [now apply bw_first|]. apply bw_lift. intros ds [= <-]. exists D'. split; [reflexivity|apply HF].
    - intros ds ds' Hd. circ; [now apply H|]. step.
  Qed.
  Lemma bw_memory_with init round meas R di reset :
    (forall l di rot, bw oks (init l di rot) (init l di rot)) -> (forall r l b d d', cut d d' -> bw oks (round r l b (Some d)) (round r l b (Some d'))) ->
    (forall l a b d d', cut d d' -> bw oks (meas l a b (Some d)) (meas l a b (Some d'))) ->
    bw oks (memory_with ordt init round meas l R di rot reset dets gauge) (memory_with ordt init round meas l R di rot reset dets' gauge').
  Proof.
    intros H1 H2 H3. unfold memory_with. destruct (R <? 0); [step|]. apply (osim_bind _ fit); [apply bw_default|]. intros D D' HF.
    circ; [apply bw_start|]. circ; [apply H1|]. circ; [apply bw_rounds; [exact HF|]; intros; now apply H2|]. circ; [apply H3, HF|]. step.
  Qed.
  Lemma bw_memory k R di reset : bw oks (memory ordt k l R di rot reset dets gauge) (memory ordt k l R di rot reset dets' gauge').
  Proof.
    assert (I1 : forall l di rot, bw oks (init_qubits (ordt 1%nat) l di rot) (init_qubits (ordt 1%nat) l di rot)) by (intros; apply bw_init_with).
    assert (I2 : forall l di rot, bw oks (init_qubits_xzzx (ordt 1%nat) l di rot) (init_qubits_xzzx (ordt 1%nat) l di rot)) by (intros; apply bw_init_with).
    assert (M1 : forall l a b d d', cut d d' -> bw oks (log_meas l a b (Some d)) (log_meas l a b (Some d'))) by (intros; now apply bw_meas_with).
    destruct k.
    1-3: apply bw_memory_with; [exact I1| |exact M1].
    4-5: apply bw_memory_with; [exact I2| |intros; now apply bw_meas_xzzx].
    all: intros r l0 b d d' Hd; now apply bw_round.
  Qed.
  Lemma bw_google R di : bw oks (memory_google ordt l R di rot dets gauge) (memory_google ordt l R di rot dets' gauge').
  Proof.
    unfold memory_google. destruct (R <=? 0); [step|]. apply (osim_bind _ fit); [apply bw_default|]. intros D D' HF.
    circ; [apply bw_start|]. circ; [apply bw_init_with|]. destruct (R =? 1).
    - apply (osim_bind _ cut); [now apply bw_first|]. intros ds ds' Hd. circ; [now apply bw_gmeas|]. step.
    - circ; [apply bw_rounds; [exact HF|]; intros; now apply bw_ground|]. circ; [apply bw_gmeas, HF|]. step.
  Qed.
  Lemma bw_repeated_with it gate swaps n R di reset : (forall t l, bw oks (gate t l) (gate t l)) ->
    bw oks (repeated_with ordt it gate swaps l n R di rot reset dets gauge) (repeated_with ordt it gate swaps l n R di rot reset dets' gauge').
  Proof.
    intros H. unfold repeated_with. destruct (R <? 0); [step|]. destruct (_ || _); [step|]. apply (osim_bind _ fit); [apply bw_default|]. intros D D' HF.
    circ; [apply bw_start|]. circ; [apply bw_init_with|]. apply (osim_bind _ cut); [now apply bw_first|]. intros ds ds' Hd.
    circ; [now apply bw_round|]. cbv zeta. circ.
    { apply osim_fold; [|constructor]. intros ? ? ? ?. cbv zeta. circ; [apply H|]. circ; [|step].
      apply osim_fold; [|constructor]. intros ? ? ? ?. circ; [apply bw_round, HF|]. step. }
    circ; [apply bw_meas_with, HF|]. step.
  Qed.
  Lemma bw_repeated ordp k n R di reset : bw oks (repeated ordt ordp k l n R di rot reset dets gauge) (repeated ordt ordp k l n R di rot reset dets' gauge').
  Proof. destruct k; apply bw_repeated_with; intros t l0; apply bw_trans. Qed.
End Blank.

Section Build.
  Context (f : open_facts).
  (* the first request *)
  Definition firsts (e : experiment) (g : bool) (D : list string) : res (list string) :=
    if g then Ok D else do s <- stabs_of e; Ok (of_ordt f 0%nat 0%nat (inter (dedup D) s)).
  Lemma bw_build cs (ok : instr -> instr -> Prop) e d g : (forall i, nm i <> DETECTOR -> ok i i) -> (forall a i, detector_of cs a i -> tg i = [] -> ok i i) ->
    (forall D, asks_for e D -> exists D', asks_for (asking d g e) D' /\ cut cs ok D D' /\
      forall ds, firsts e (gauge_of e) D = Ok ds -> exists ds', firsts e g D' = Ok ds' /\ cut cs ok ds ds') ->
    osim (Bw cs) (oks ok) (build f e) (build f (asking d g e)).
  Proof.
    intros H1 H2 H.
    assert (X : forall D, match dets_of e with Some d => Ok d | None => of_layouts (fun l => get_role l "anc") e end = Ok D ->
      exists D', match d with Some d => Ok d | None => of_layouts (fun l => get_role l "anc") e end = Ok D' /\ cut cs ok D D' /\
      forall ds, firsts e (gauge_of e) D = Ok ds -> exists ds', firsts e g D' = Ok ds' /\ cut cs ok ds ds').
    { intros D E. destruct (H D) as (D' & A & B).
      - unfold asks_for. destruct (dets_of e); [now injection E as ->|exact E].
      - exists D'. split; [|exact B]. unfold asks_for in A. destruct e; cbn [asking dets_of of_layouts] in *; (destruct d; [now rewrite A|exact A]). }
    clear H.
    assert (F : forall l r g D, (if g : bool then Ok D else do s <- get_stabs l (basis_type r); Ok (of_ordt f 0%nat 0%nat (inter (dedup D) s))) = first_of (of_ordt f) l r g D)
      by (intros l r [] D; reflexivity).
    destruct e; unfold firsts, stabs_of in X; cbn [asking build rot_of gauge_of dets_of of_layouts] in *.
    - apply bw_memory; [assumption|assumption|]. intros D E. destruct (X D E) as (D' & A & B & C). exists D'. split; [exact A|split; [exact B|]].
      intros ds. rewrite <- !F. apply C.
    - apply bw_google; [assumption|assumption|]. intros D E. destruct (X D E) as (D' & A & B & C). exists D'. split; [exact A|split; [exact B|]].
      intros ds. rewrite <- !F. apply C.
    - apply bw_repeated; [assumption|assumption|]. intros D E. destruct (X D E) as (D' & A & B & C). exists D'. split; [exact A|split; [exact B|]].
      intros ds. rewrite <- !F. apply C.
    - destruct rotated; [unfold repeated_cnot_rot_css|unfold repeated_cnot_unrot_css]; apply bw_cnots; assumption.
  Qed.
End Build.
Lemma run_build cs (ok : instr -> instr -> Prop) f e e' w w1 c : osim (Bw cs) (oks ok) (build f e) (build f e') -> dcoords (snd w) = cs -> build f e w = (w1, Ok c) ->
  exists c', build f e' w = (w1, Ok c') /\ Forall2 ok c c'.
Proof.
  intros H E B. specialize (H w w (conj eq_refl E)). rewrite B in H. cbn [fst snd] in H. destruct H as (c' & X & [Y _] & Z).
  exists c'. split; [|exact Z]. rewrite (surjective_pairing (build f e' w)), X, Y. reflexivity.
Qed.
Lemma detector_same cs a i : detector_of cs a i -> Instr DETECTOR (tg i) (ar i) = i.
Proof. intros [N _]. destruct i. cbn in *. now subst. Qed.
Lemma dedup_acc_in (l : list string) : forall seen a, In a (dedup_acc seen l) <-> In a l /\ ~ In a seen.
Proof.
  induction l as [|x l IH]; intros seen a; simpl; [tauto|]. destruct (mem x seen) eqn:M.
  - apply mem_In in M. rewrite IH. split; [tauto|]. intros [[<-|H] N]; tauto.
  - apply mem_not_In in M. simpl. rewrite IH. simpl. split.
    + intros [<-|[H N]]; tauto.
    + intros [[<-|H] N]; [now left|]. destruct (string_dec x a) as [->|Ne]; [now left|right]. tauto.
Qed.
Lemma dedup_in (l : list string) a : In a (dedup l) <-> In a l.
Proof. unfold dedup. rewrite dedup_acc_in. simpl. tauto. Qed.
Lemma in_perm_iff {A} (l l' : list A) : Permutation l l' -> forall a, In a l <-> In a l'.
Proof. intros H a. split; apply Permutation_in; [exact H|now symmetry]. Qed.
Lemma first_in f e g D ds : (forall t n s, Permutation (of_ordt f t n s) s) -> firsts f e g D = Ok ds -> g = false ->
  exists s, stabs_of e = Ok s /\ forall a, In a ds <-> In a D /\ In a s.
Proof.
  intros Hp E ->. unfold firsts in E. apply bind_ok in E as (s & E & [= <-]). exists s. split; [exact E|]. intros a.
  rewrite (in_perm_iff _ _ (Hp 0%nat 0%nat (inter (dedup D) s)) a). unfold inter. rewrite filter_In, mem_In, dedup_in. tauto.
Qed.
Lemma C86_fewer_lemma f e D D' w w1 c : (forall t n s, Permutation (of_ordt f t n s) s) -> asks_for e D -> incl D' D ->
  build f e w = (w1, Ok c) ->
  exists c', build f (asking (Some D') (gauge_of e) e) w = (w1, Ok c') /\ Forall2 (kept_only D' (dcoords (snd w))) c c'.
Proof.
  intros Hp HD Hi B. eapply run_build; [|reflexivity|exact B]. apply bw_build; [left; auto| |].
  { intros a i Hd Ht. right. exists a. split; [exact Hd|]. rewrite Ht. destruct (mem a D'); rewrite <- Ht; now rewrite (detector_same _ _ _ Hd). }
  intros D0 E0. assert (D0 = D) by (unfold asks_for in *; destruct (dets_of e); congruence). subst D0. exists D'.
  assert (C : cut (dcoords (snd w)) (kept_only D' (dcoords (snd w))) D D').
  { split; [exact Hi|]. intros a i _ Hd. right. exists a. auto. }
  split; [|split; [exact C|]].
  { unfold asks_for. destruct e; reflexivity. }
  intros ds E. destruct (gauge_of e) eqn:G.
  - unfold firsts in *. injection E as <-. eauto.
  - destruct (first_in _ _ _ _ _ Hp E eq_refl) as (s & Es & Hs). exists (of_ordt f 0%nat 0%nat (inter (dedup D') s)).
    assert (E' : firsts f e false D' = Ok (of_ordt f 0%nat 0%nat (inter (dedup D') s)))
      by (unfold firsts; now rewrite Es).
    destruct (first_in _ _ _ _ _ Hp E' eq_refl) as (s' & Es' & Hs'). rewrite Es in Es'. injection Es' as <-. split; [exact E'|]. split.
    + intros a Ha. apply Hs' in Ha as [A1 A2]. apply Hs. auto.
    + intros a i Ha Hd. right. exists a. split; [exact Hd|]. apply Hs in Ha as [_ Ha].
      match goal with |- Instr _ (if mem a ?r then _ else _) _ = _ => replace (mem a r) with (mem a D'); [reflexivity|] end.
      destruct (mem a D') eqn:M; symmetry; [apply mem_In, Hs'; split; [now apply mem_In|exact Ha]|].
      apply mem_not_In. rewrite Hs'. apply mem_not_In in M. tauto.
Qed.
Lemma C86_gauge_lemma f e s w w1 c : (forall t n s, Permutation (of_ordt f t n s) s) -> gauge_of e = true ->
  stabs_of e = Ok s ->
  build f e w = (w1, Ok c) ->
  exists c', build f (asking (dets_of e) false e) w = (w1, Ok c') /\ Forall2 (fun i j => j = i \/ kept_only s (dcoords (snd w)) i j) c c'.
Proof.
  intros Hp G Es B. eapply run_build; [|reflexivity|exact B]. apply bw_build; [left; auto|left; auto|].
  intros D E0. exists D.
  assert (C : cut (dcoords (snd w)) (fun i j => j = i \/ kept_only s (dcoords (snd w)) i j) D D).
  { split; [apply incl_refl|]. intros a i Ha Hd. left. apply mem_In in Ha. rewrite Ha. now apply detector_same in Hd. }
  split; [|split; [exact C|]].
  { unfold asks_for in *. destruct e; cbn in *; exact E0. }
  rewrite G. intros ds E. unfold firsts in E. injection E as <-. exists (of_ordt f 0%nat 0%nat (inter (dedup D) s)).
  assert (E' : firsts f e false D = Ok (of_ordt f 0%nat 0%nat (inter (dedup D) s)))
    by (unfold firsts; now rewrite Es).
  destruct (first_in _ _ _ _ _ Hp E' eq_refl) as (s' & Es' & Hs'). rewrite Es in Es'. injection Es' as <-. split; [exact E'|]. split.
  - intros a Ha. now apply Hs' in Ha.
  - intros a i Ha Hd. right. right. exists a. split; [exact Hd|].
    match goal with |- Instr _ (if mem a ?r then _ else _) _ = _ => replace (mem a r) with (mem a s); [reflexivity|] end.
    destruct (mem a s) eqn:M; symmetry; [apply mem_In, Hs'; split; [exact Ha|now apply mem_In]|].
    apply mem_not_In. rewrite Hs'. apply mem_not_In in M. tauto.
Qed.
Lemma cut_same cs r r' : (forall a, In a r' <-> In a r) -> cut cs eq r r'.
Proof.
  intros H. split; [intros a Ha; now apply H|]. intros a i Ha Hd. apply H in Ha. apply mem_In in Ha. rewrite Ha. symmetry. now apply detector_same in Hd.
Qed.
Lemma C86_set_lemma f e D D' w w1 c : (forall t n s, Permutation (of_ordt f t n s) s) -> asks_for e D -> (forall a, In a D' <-> In a D) ->
  build f e w = (w1, Ok c) -> build f (asking (Some D') (gauge_of e) e) w = (w1, Ok c).
Proof.
  intros Hp HD Hi B.
  assert (X : osim (Bw (dcoords (snd w))) (oks eq) (build f e) (build f (asking (Some D') (gauge_of e) e))).
  { apply bw_build; [auto|auto|]. intros D0 E0. assert (D0 = D) by (unfold asks_for in *; destruct (dets_of e); congruence). subst D0. exists D'.
    split; [unfold asks_for; destruct e; reflexivity|]. split; [now apply cut_same|]. intros ds E. destruct (gauge_of e) eqn:G.
    - unfold firsts in *. injection E as <-. exists D'. split; [reflexivity|now apply cut_same].
    - destruct (first_in _ _ _ _ _ Hp E eq_refl) as (s & Es & Hs). exists (of_ordt f 0%nat 0%nat (inter (dedup D') s)).
      assert (E' : firsts f e false D' = Ok (of_ordt f 0%nat 0%nat (inter (dedup D') s))) by (unfold firsts; now rewrite Es).
      destruct (first_in _ _ _ _ _ Hp E' eq_refl) as (s' & Es' & Hs'). rewrite Es in Es'. injection Es' as <-. split; [exact E'|].
      apply cut_same. intros a. rewrite Hs, Hs', Hi. tauto. }
  destruct (run_build _ _ _ _ _ _ _ _ X eq_refl B) as (c' & E' & F). rewrite E'. f_equal. f_equal. clear -F. induction F; congruence.
Qed.
