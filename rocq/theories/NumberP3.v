(** Proofs for Props_Number.v (C84): the experiments. *)
From Coq Require Import QArith Qcanon.
From Verif Require Import Base StimM SetupM MatM NoiseM LayoutM DetM BlockM ExpM MergeM SpecDet SpecFresh SpecNumber Lib NumberP NumberP2.
Open Scope Z_scope.

Section Number.
  Context (f : Z -> Z).
  Notation ri := (renumber_instr f).
  Notation rc := (renumber f).
  Notation sm := (sim (renumbered f)).
  Notation sw := (sim (Rw f)).

  Lemma targets_rt m m' qs : renumbered f m m' ->
    mapM (fun q => meas_target m' q (-1)) qs = mapM (fun q => meas_target m q (-1)) qs /\
    (forall ts, mapM (fun q => meas_target m q (-1)) qs = Ok ts -> map (renumber_target f) ts = ts).
  Proof.
    intros H. split; [apply mapM_ext'; intros; now apply (target_eq f)|]. intros ts E.
    apply (mapM_fix (renumber_target f) _ _ _ (fun q t => target_tr f m q (-1) t) E).
  Qed.
  Lemma include_rt m m' qs a : renumbered f m m' ->
    (do ts <- mapM (fun q => meas_target m' q (-1)) qs; mk OBSERVABLE_INCLUDE ts a) =
    rmap ri (do ts <- mapM (fun q => meas_target m q (-1)) qs; mk OBSERVABLE_INCLUDE ts a).
  Proof.
    intros H. destruct (targets_rt m m' qs H) as [A B]. rewrite A. clear A. destruct (mapM (fun q => meas_target m q (-1)) qs) as [ts|]; [|reflexivity]. cbn [bind].
    specialize (B ts eq_refl). destruct (mk OBSERVABLE_INCLUDE ts a) as [i|] eqn:E; [|reflexivity]. cbn [rmap].
    apply mk_tg in E. subst i. unfold renumber_instr. cbn [nm tg ar]. now rewrite B.
  Qed.
  Lemma observable_rt l rot m m' : renumbered f m m' -> observable l rot m' = rmap ri (observable l rot m).
  Proof.
    intros H. unfold observable. destruct (first_log l) as [lq|]; [|reflexivity]. cbn [bind].
    destruct (dget_err lq _) as [qs|]; [|reflexivity]. cbn [bind]. now apply include_rt.
  Qed.
  Lemma layout_obs_rt m m' k lr : renumbered f m m' -> layout_observables m' k lr = rmap (map ri) (layout_observables m k lr).
  Proof.
    intros H. destruct lr as [l rot]. unfold layout_observables. rewrite <- (map_id (enumerate (l_logs l))) at 1.
    apply mapM_rmap. intros [j q] _. cbn [fst snd]. destruct (dget_err q _) as [qs|]; [|reflexivity]. cbn [bind]. now apply include_rt.
  Qed.
  Lemma all_obs_rt m m' lrs : renumbered f m m' -> all_observables lrs m' = rmap (map ri) (all_observables lrs m).
  Proof.
    intros H. unfold all_observables. apply (bind_rmap (map (map ri))).
    - rewrite <- (map_id (enumerate lrs)) at 1. apply mapM_rmap. intros [k lr] _. now apply layout_obs_rt.
    - intros os _. cbn [rmap]. now rewrite concat_map.
  Qed.
  Lemma block_coords_rt ls m m' : renumbered f m m' -> block_coords ls m' = rmap rc (block_coords ls m).
  Proof.
    intros H. unfold block_coords. apply (bind_rmap (map rc)).
    - rewrite <- (map_id ls) at 1. apply mapM_rmap. intros l _. destruct (LayoutM.qubit_coords l) as [d|]; [|reflexivity]. now apply coords_rt.
    - intros cs _. cbn [rmap]. unfold renumber at 2. now rewrite concat_map.
  Qed.
  Lemma sw_run l : sw rc (onm (run_blocks l)) (onm (run_blocks l)).
  Proof. apply sw_onm, sm_blocks. Qed.
  Lemma sw_merged fuse l : sw rc (onm (merged_blocks fuse l)) (onm (merged_blocks fuse l)).
  Proof. apply sw_onm, sm_merged. Qed.

  Ltac step :=
    match goal with
    | |- sim _ _ (sbind (slift _) _) _ => apply (sim_bind _ (fun a => a)); [apply sim_lift|intros ?]
    | |- sim _ _ (sbind (ond (fun _ => activate _)) _) _ => apply (sim_bind _ (fun a => a)); [apply sw_ond|intros ?]
    | |- sim _ _ (sbind (ond (fun _ => deactivate _)) _) _ => apply (sim_bind _ (fun a => a)); [apply sw_ond|intros ?]
    | |- sim _ _ (sbind (ond (fun _ => update_from_dict _)) _) _ => apply (sim_bind _ (fun a => a)); [apply sw_ond|intros ?]
    | |- sim _ _ (sfail _) _ => apply sim_fail
    | |- sim _ _ (sret _) _ => apply sim_ret; rewrite ?rc_app, <- ?append_rc; reflexivity
    | |- sim _ _ (ond (fun m => build_from_anc _ _ _)) _ => apply sw_anc
    | |- sim _ _ (ond (fun m => build_from_data _ _ _ _ _)) _ => apply sw_data
    | |- sim _ _ (onm (run_blocks _)) _ => apply sw_run
    | |- sim _ _ (onm (merged_blocks _ _)) _ => apply sw_merged
    | |- sim _ _ (if ?b then _ else _) _ => destruct b
    | |- sim _ _ (match ?x with (_, _) => _ end) _ => destruct x
    | |- sim _ _ (let _ := _ in _) _ => cbv zeta
    end.
  Ltac circ := apply (sim_bind _ rc); [|intros ?].

  Lemma sw_start ls : sw rc (exp_start ls) (exp_start ls).
  Proof.
    unfold exp_start. apply (sim_bind _ (fun a => a)); [apply sw_onm, sm_new|intros _].
    apply (sim_bind _ (fun a => a)); [apply (sw_ond f (fun d => (det_new d, Ok tt)))|intros _].
    apply sw_onm, sim_read. intros m m' H. now apply block_coords_rt.
  Qed.
  Lemma sw_init_with it l di rot : sw rc (init_with it l di rot) (init_with it l di rot).
  Proof. unfold init_with. repeat step. Qed.
  Lemma sw_round it l reset dets : sw rc (qec_round it l reset dets) (qec_round it l reset dets).
  Proof. unfold qec_round. circ; [step|]. repeat step. circ; repeat step. Qed.
  Lemma sw_ground ord l dets : sw rc (google_qec_round ord l dets) (google_qec_round ord l dets).
  Proof. unfold google_qec_round. circ; [step|]. circ; repeat step. Qed.
  Lemma sw_end l rot reset req : sw rc (log_meas_end l rot reset req) (log_meas_end l rot reset req).
  Proof.
    unfold log_meas_end. repeat step. circ; [step|]. apply (sim_bind _ ri).
    - apply sw_onm, sim_read. intros m m' H. now apply observable_rt.
    - intros o. repeat step.
  Qed.
  Lemma sw_meas_with it l rot reset dets : sw rc (log_meas_with it l rot reset dets) (log_meas_with it l rot reset dets).
  Proof. unfold log_meas_with. repeat step. circ; [step|]. circ; [apply sw_end|]. step. Qed.
  Lemma sw_meas_xzzx ord l rot reset dets : sw rc (log_meas_xzzx ord l rot reset dets) (log_meas_xzzx ord l rot reset dets).
  Proof. unfold log_meas_xzzx. step; [step|]. apply sw_meas_with. Qed.
  Lemma sw_gmeas ord l rot dets : sw rc (google_log_meas ord l rot dets) (google_log_meas ord l rot dets).
  Proof. unfold google_log_meas. repeat step. circ; [step|]. circ; [step|]. circ; [apply sw_end|]. step. Qed.
  Lemma sw_trans p it l : sw rc (log_trans p it l) (log_trans p it l).
  Proof. unfold log_trans. repeat step. Qed.
  Lemma sw_cnot ord ordp lc lt : sw rc (log_trans_cnot ord ordp lc lt) (log_trans_cnot ord ordp lc lt).
  Proof. unfold log_trans_cnot. repeat step. Qed.
  Lemma sw_mrounds fuse it ls reset dets : sw rc (merge_qec_rounds fuse it ls reset dets) (merge_qec_rounds fuse it ls reset dets).
  Proof. unfold merge_qec_rounds. repeat step. circ; [step|]. circ; [step|]. apply sim_ret. now rewrite cat_rc. Qed.
  Lemma sw_mmeas fuse it ls rots reset dets : sw rc (merge_log_meas fuse it ls rots reset dets) (merge_log_meas fuse it ls rots reset dets).
  Proof.
    unfold merge_log_meas. repeat step. circ; [step|]. repeat step. circ; [step|]. apply (sim_bind _ (map ri)).
    - apply sw_onm, sim_read. intros m m' H. now apply all_obs_rt.
    - intros os. apply sim_ret. now rewrite cat_rc, appends_rc.
  Qed.
  Lemma sw_acc {A} (x : A -> ST world circuit) l acc : (forall a, sw rc (x a) (x a)) ->
    sw rc (sfold (fun acc a => sdo c <- x a; sret (acc ++ c)) l acc) (sfold (fun acc a => sdo c <- x a; sret (acc ++ c)) l (rc acc)).
  Proof. intros H. apply sim_fold'; [reflexivity|]. intros b a _. circ; [apply H|]. step. Qed.
  Lemma sw_rounds ordt round l rot gauge dets n : (forall r ds, sw rc (round r ds) (round r ds)) ->
    sw rc (exp_rounds ordt round l rot gauge dets n) (exp_rounds ordt round l rot gauge dets n).
  Proof. intros H. unfold exp_rounds. apply sim_fold'; [reflexivity|]. intros b a _. step. circ; [apply H|]. step. Qed.
  Lemma sw_memory_with ordt init round meas l R di rot reset dets gauge :
    (forall l di rot, sw rc (init l di rot) (init l di rot)) -> (forall r l b d, sw rc (round r l b d) (round r l b d)) ->
    (forall l a b d, sw rc (meas l a b d) (meas l a b d)) ->
    sw rc (memory_with ordt init round meas l R di rot reset dets gauge) (memory_with ordt init round meas l R di rot reset dets gauge).
  Proof.
    intros H1 H2 H3. unfold memory_with. repeat step. circ; [apply sw_start|]. circ; [apply H1|].
    circ; [apply sw_rounds; intros; apply H2|]. circ; [apply H3|]. step.
  Qed.
  Lemma sw_memory ordt k l R di rot reset dets gauge :
    sw rc (memory ordt k l R di rot reset dets gauge) (memory ordt k l R di rot reset dets gauge).
  Proof.
    destruct k; apply sw_memory_with; intros; try apply sw_round; try apply sw_meas_with; try apply sw_meas_xzzx; apply sw_init_with.
  Qed.
  Lemma sw_google ordt l R di rot dets gauge : sw rc (memory_google ordt l R di rot dets gauge) (memory_google ordt l R di rot dets gauge).
  Proof.
    unfold memory_google. repeat step. circ; [apply sw_start|]. circ; [apply sw_init_with|]. repeat step.
    - circ; [apply sw_gmeas|]. step.
    - circ; [apply sw_rounds; intros; apply sw_ground|]. circ; [apply sw_gmeas|]. step.
  Qed.
  Lemma sw_repeated_with ordt it gate swaps l n R di rot reset dets gauge : (forall t l, sw rc (gate t l) (gate t l)) ->
    sw rc (repeated_with ordt it gate swaps l n R di rot reset dets gauge) (repeated_with ordt it gate swaps l n R di rot reset dets gauge).
  Proof.
    intros H. unfold repeated_with. repeat step. circ; [apply sw_start|]. circ; [apply sw_init_with|]. step. circ; [apply sw_round|]. cbv zeta.
    circ.
    { apply sim_fold'; [reflexivity|]. intros ? ? _. cbv zeta. circ; [apply H|]. circ; [|step].
      apply (sw_acc (fun r => qec_round _ l reset (Some _)) _ []). intros; apply sw_round. }
    circ; [apply sw_meas_with|]. step.
  Qed.
  Lemma sw_repeated ordt ordp k l n R di rot reset dets gauge :
    sw rc (repeated ordt ordp k l n R di rot reset dets gauge) (repeated ordt ordp k l n R di rot reset dets gauge).
  Proof. destruct k; apply sw_repeated_with; intros; apply sw_trans. Qed.
  Definition r3 (x : circuit * layout * layout) : circuit * layout * layout := (rc (fst (fst x)), snd (fst x), snd x).
  Lemma sw_loop ordt ordp round alt n count : (forall j lc lt, sw rc (round j lc lt) (round j lc lt)) ->
    forall k lc lt acc, sw r3 (cnot_loop ordt ordp round alt n count k lc lt acc) (cnot_loop ordt ordp round alt n count k lc lt (rc acc)).
  Proof.
    intros H. induction count as [|count IH]; intros k lc lt acc; simpl; [now apply sim_ret|].
    destruct (alt && Nat.odd k); (circ; [apply sw_cnot|]; circ; [apply (sw_acc (fun r => round _ _ _) _ []); intros; apply H|];
      rewrite <- !rc_app; apply IH).
  Qed.
  Lemma sw_cnots fuse show ordt ordp it lc lt n R di ori rot reset dets gauge :
    sw rc (repeated_cnot_with fuse show ordt ordp it lc lt n R di ori rot reset dets gauge)
          (repeated_cnot_with fuse show ordt ordp it lc lt n R di ori rot reset dets gauge).
  Proof.
    unfold repeated_cnot_with. repeat step. circ; [apply sw_start|]. circ; [apply sw_init_with|]. circ; [apply sw_init_with|].
    circ; [match goal with |- sim _ _ (slift (merge_circuits _ _ ?l)) _ => apply sim_lift', (circuits_rc f _ _ l) end|].
    repeat step. circ; [apply sw_mrounds|]. apply (sim_bind _ r3); [apply sw_loop with (acc := []); intros; apply sw_mrounds|].
    intros [[c lc'] lt']. cbn [r3 fst snd]. circ; [apply sw_mmeas|]. step.
  Qed.
  Lemma sw_build fa e : sw rc (build fa e) (build fa e).
  Proof.
    destruct e; simpl; [apply sw_memory|apply sw_google|apply sw_repeated|]. destruct rotated; apply sw_cnots.
  Qed.
End Number.

Lemma C84_build f fa e m m' d : renumbered f m m' ->
  snd (build fa e (m', d)) = renumber_res f (snd (build fa e (m, d))) /\
  renumbered f (fst (fst (build fa e (m, d)))) (fst (fst (build fa e (m', d)))) /\
  snd (fst (build fa e (m', d))) = snd (fst (build fa e (m, d))).
Proof.
  intros H. destruct (sw_build f fa e (m, d) (m', d) (conj H eq_refl)) as [[A B] C]. split; [|split]; [|exact A|exact B].
  rewrite C. now destruct (snd (build fa e (m, d))).
Qed.
Lemma C84_gate f o qs m m' : renumbered f m m' ->
  snd (apply o qs m') = renumber_res f (snd (apply o qs m)) /\ renumbered f (fst (apply o qs m)) (fst (apply o qs m')).
Proof.
  intros H. destruct (sm_apply f o qs m m' H) as [A C]. split; [|exact A]. rewrite C. now destruct (snd (apply o qs m)).
Qed.

(** * Two numberings of the same labels *)
Definition index_of (qi qi' : dict string Z) (i : Z) : Z :=
  match find (fun kv => eqb (snd kv) i) qi with
  | Some kv => match dget (fst kv) qi' with Some j => j | None => 0 end
  | None => 0
  end.
Lemma find_val (qi : dict string Z) q i : NoDup (dvals qi) -> dget q qi = Some i -> exists kv, find (fun kv => eqb (snd kv) i) qi = Some kv /\ fst kv = q.
Proof.
  intros N. induction qi as [|[k v] qi IH]; simpl; [discriminate|]. inversion N as [|? ? Hn N1]; subst.
  destruct (eqb_spec q k) as [->|Hk].
  - intros [= ->]. rewrite eqb_refl. eexists; split; reflexivity.
  - intros E. destruct (eqb_spec v i) as [->|Hv]; [|now apply IH]. exfalso. apply Hn.
    apply dget_In in E. apply (in_map snd) in E. exact E.
Qed.
Lemma C84_two k s qi qi' : NoDup (dvals qi) -> NoDup (dvals qi') -> (forall q, In q (dkeys qi) <-> In q (dkeys qi')) ->
  renumbered (index_of qi qi') (model_init k s qi) (model_init k s qi').
Proof.
  intros N N' HK. unfold renumbered, model_init. cbn [kind stp num inds order]. split; [reflexivity|split; [reflexivity|split; [reflexivity|]]].
  assert (V : forall q i, dget q qi = Some i -> dget q qi' = Some (index_of qi qi' i)).
  { intros q i E. destruct (find_val qi q i N E) as (kv & F & <-). unfold index_of. rewrite F.
    destruct (dget (fst kv) qi') as [j|] eqn:D; [reflexivity|]. exfalso. apply dget_None in D. apply D, HK. eapply dget_Some_key; eauto. }
  assert (I : forall q, dget q qi' = option_map (index_of qi qi') (dget q qi)).
  { intros q. destruct (dget q qi) as [i|] eqn:E; [now apply V|]. simpl. apply dget_None. rewrite <- HK. now apply dget_None. }
  split; [exact I|]. split.
  - intros q. assert (D : forall d : dict string Z, dget q (map (fun kv => (fst kv, @nil Z)) d) = option_map (fun _ => []) (dget q d)).
    { induction d as [|[k0 v] d IH]; simpl; [reflexivity|]. destruct (eqb q k0); [reflexivity|exact IH]. }
    rewrite !D, I. now destruct (dget q qi).
  - intros q r i j Ei Ej E. apply V in Ei as Ei'. apply V in Ej as Ej'. rewrite E in Ei'.
    assert (q = r); [|congruence]. destruct (find_val qi' q _ N' Ei') as (kv & F & <-). destruct (find_val qi' r _ N' Ej') as (kv' & F' & <-).
    congruence.
Qed.
