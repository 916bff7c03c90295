(** C40: from the argument on labels to the circuit of an experiment. *)
From Coq Require Import QArith Qcanon.
From Verif Require Import Base Lib StimM SetupM NoiseM SpecNoise NoiseP LayoutM DetM SpecDet DetP DetCountP
  BlockM ExpM SpecTrack SpecExp TrackP LiftP ExpDetP ExpP ExpP3 ExpP4 ExpP5 ExpP6.
Open Scope Z_scope.

(** * No outcome selected *)
Definition nosel : nat -> bool := fun _ => false.
Definition still {Q} `{Eqb Q} (l : list (gate Q)) : Prop := bk l nosel identity_op identity_op.
Lemma still_app {Q} `{Eqb Q} (a b : list (gate Q)) : still a -> still b -> still (a ++ b).
Proof. intros A B. eapply bk_app; [exact B|exact A]. Qed.
Lemma still_one {Q} `{Eqb Q} g (qs : list Q) : mem g [GX; GZ; GI; GH; GS; GSDAG; GM; GMX; GMY; GR; GRX; GRY] = true -> still (map (G1 g) qs).
Proof.
  intros Hg. induction qs as [|q qs IH]; [apply bk_nil|]. cbn [map]. eapply bk_cons; [exact IH|].
  assert (E' : peq (put2 (@identity_op Q) q false false) identity_op) by (intros x; unfold put2, put; cbn; destruct (eqb q x); auto).
  destruct g; try discriminate; cbn; eexists; (split; [reflexivity|]); first [apply peq_refl|exact E'].
Qed.
Lemma still_two {Q} `{Eqb Q} g (qs : list Q) : mem g [GCZ; GCX; GSWAP] = true -> still (pair_gates g qs).
Proof.
  intros Hg. induction qs as [qs IH] using (well_founded_induction (well_founded_ltof _ (@length Q))).
  destruct qs as [|a [|b qs]]; [apply bk_nil|apply bk_nil|]. cbn [pair_gates]. eapply bk_cons; [apply IH; unfold ltof; cbn; lia|].
  destruct g; try discriminate; cbn; eexists; (split; [reflexivity|]); intros x; unfold put2, put; cbn; repeat match goal with |- context [eqb ?u ?v] => destruct (eqb u v) end; auto.
Qed.
Lemma still_blocks bl : still (lg_blocks bl).
Proof.
  induction bl as [|b bl IH]; [apply bk_nil|]. unfold lg_blocks in *. cbn [flat_map]. apply still_app; [|exact IH]. destruct b as [b|]; [|apply bk_nil].
  unfold lg_block. induction b as [|c b IHb]; [apply bk_nil|]. cbn [flat_map]. apply still_app; [|exact IHb].
  destruct c as [o qs|]; [|apply bk_nil]. cbn [lg_call]. destruct (std_gate o) as [g|] eqn:E; [|apply bk_nil].
  destruct o; cbn in E; try discriminate; injection E as <-; cbn [is_two]; first [apply still_one; reflexivity|apply still_two; reflexivity].
Qed.
Lemma still_Gn G n : (forall r, still (G r)) -> still (Gn G n).
Proof. intros H. induction n; [apply bk_nil|]. cbn [Gn]. now apply still_app. Qed.

Lemma empty_det qi m L c i : tracked qi m L c -> still L -> tg i = [] -> deterministic c i.
Proof.
  intros T S E. apply (det_labels qi m L c i (fun _ _ => false) T).
  - rewrite E. constructor.
  - intros k Hk. unfold lists. rewrite E. cbn. symmetry. now apply selT_false.
  - eapply bk_ext; [exact S|]. intros k Hk. unfold nosel. symmetry. now apply selT_false.
Qed.

Lemma count_times_all n (anc : list string) a : NoDup anc -> In a anc -> count a (times n anc) = n.
Proof.
  intros N Ha. induction n as [|n IH]; [reflexivity|]. cbn [times]. rewrite count_app, IH, count_nodup by exact N.
  now rewrite (proj2 (mem_In a anc) Ha).
Qed.
Lemma count_none (s : list string) a : ~ In a s -> count a s = 0%nat.
Proof.
  induction s as [|x s IH]; intros N; [reflexivity|]. cbn [count]. rewrite IH by (intros Hi; apply N; now right).
  rewrite (proj2 (eqb_neq a x)); [reflexivity|]. intros ->. apply N. now left.
Qed.
Lemma odd_mem (s : list string) q : NoDup s -> Nat.odd (count q s) = mem q s.
Proof. intros N. rewrite count_nodup by exact N. now destruct (mem q s). Qed.

(* the selections of the checks when all the outcomes exist *)
Definition sel_round (reset : bool) (a : string) : string -> nat -> bool :=
  fun q j => eqb a q && (Nat.eqb j 1 || Nat.eqb j (if reset then 2 else 3))%nat.
Definition sel_data (reset : bool) (sup : list string) (a : string) : string -> nat -> bool := fun q j =>
  xorb (mem q sup && Nat.eqb j 1) (eqb a q && (Nat.eqb j 1 || (negb reset && Nat.eqb j 2)))%nat.
Definition sel_obs (lq : list string) : string -> nat -> bool := fun q j => mem q lq && Nat.eqb j 1%nat.
Lemma form_round_sel reset n a ML k : (1 <= k)%nat -> count a ML = n ->
  selT ML (form_round reset n a) k = selT ML (sel_round reset a) k.
Proof.
  intros Hk C. apply selT_ext; [exact Hk|]. intros q j _ Hj. unfold form_round, sel_round. destruct (eqb_spec a q) as [<-|]; [|reflexivity]. cbn [andb].
  destruct (Nat.eqb_spec j (if reset then 2 else 3)) as [E|]; [|now rewrite andb_false_r]. rewrite (proj2 (Nat.leb_le _ n)) by lia. reflexivity.
Qed.
Lemma form_data_sel reset n sup s a ML k : (1 <= k)%nat -> count a ML = n -> NoDup s -> (forall q, In q s <-> In q sup) ->
  selT ML (form_data reset n s a) k = selT ML (sel_data reset sup a) k.
Proof.
  intros Hk C N E. apply selT_ext; [exact Hk|]. intros q j _ Hj. unfold form_data, sel_data. f_equal.
  - rewrite odd_mem by exact N. f_equal. apply Bool.eq_true_iff_eq. now rewrite !mem_In.
  - destruct (eqb_spec a q) as [<-|]; [|reflexivity]. cbn [andb]. f_equal.
    + destruct (Nat.eqb_spec j 1); [|apply andb_false_r]. now rewrite (proj2 (Nat.leb_le 1 n)) by lia.
    + destruct (Nat.eqb_spec j 2); [|now rewrite !andb_false_r]. now rewrite (proj2 (Nat.leb_le 2 n)), andb_true_r by lia.
Qed.
Lemma form_obs_sel qs ML k : (1 <= k)%nat -> NoDup qs -> selT ML (form_obs qs) k = selT ML (sel_obs qs) k.
Proof. intros Hk N. apply selT_ext; [exact Hk|]. intros q j _ _. unfold form_obs, sel_obs. now rewrite odd_mem. Qed.

Section Det.
  Context (d0 : detectors) (qi : dict string Z) (ancs data : list string) (reset : bool).
  Context (I : list (gate string)) (G : nat -> list (gate string)).
  Hypothesis HIm : mlab I = [].
  Hypothesis HI : still I.
  Hypothesis HG : forall r, still (G r).
  Hypothesis Na : NoDup ancs.

  (* a round *)
  Lemma round_good n ds L c0 c w : round_out d0 qi ancs reset n ds L c0 c w -> still L ->
    (forall a, In a ancs -> count a (mlab L) = S n) ->
    (forall a, In a ds -> In a ancs -> bk L (selT (mlab L) (sel_round reset a)) identity_op identity_op) ->
    good c0 c.
  Proof.
    intros [_ (cb & cd & ls & -> & T & _ & B & A & _ & F)] S C D. apply good_app; [now apply good_none|]. apply good_checks; [exact A|].
    clear A. induction F as [|a i ls cd (F1 & F2 & F3 & F4) _ IH]; constructor; [|exact IH]. intros _. clear IH.
    destruct F3 as [[Hd Ha]|E]; [|eapply empty_det; eauto]. apply (det_labels qi _ L _ i (sel_round reset a) T F2).
    - intros k Hk. rewrite F4 by (auto; lia). apply form_round_sel; [lia|auto].
    - auto.
  Qed.
  Lemma trace_good dsf pre n c w : trace d0 qi ancs reset dsf I G pre n c w ->
    (forall r, (r < n)%nat -> mlab (G r) = ancs) ->
    (forall r a, (r < n)%nat -> In a (dsf r) -> In a ancs ->
       bk (I ++ Gn G (S r)) (selT (mlab (I ++ Gn G (S r))) (sel_round reset a)) identity_op identity_op) ->
    good pre c.
  Proof.
    induction 1 as [w T D|n c w c' w' _ IH O]; intros Hm Hd; [apply good_none; constructor|].
    apply good_app; [apply IH; auto|]. eapply round_good; [exact O| | |].
    - apply still_app; [exact HI|now apply still_Gn].
    - intros a Ha. rewrite mlab_app, HIm, (mlab_Gn G ancs) by exact Hm. now apply count_times_all.
    - intros a H1 H2. apply Hd; auto.
  Qed.
End Det.
Section Final.
  Context (d0 : detectors) (qi : dict string Z) (ancs data : list string) (reset : bool).
  Context (l : layout) (rot : bool).
  (* the final measurement *)
  Lemma meas_good n ds L m c0 c : meas_out d0 qi ancs l rot reset n ds L m c0 c -> tracked qi m L c0 -> still L ->
    (forall a, In a ancs -> count a (mlab L) = n) ->
    (forall stabs sup a s, get_stabs l (basis_type rot) = Ok stabs -> support_from_adj l stabs = Ok sup -> In a stabs -> dget a sup = Some s ->
       NoDup s /\ exists s', (forall q, In q s <-> In q s') /\ bk L (selT (mlab L) (sel_data reset s' a)) identity_op identity_op) ->
    (forall lq qs, nth_error (l_logs l) 0 = Some lq -> dget lq (if rot then l_logx l else l_logz l) = Some qs ->
       NoDup qs /\ bk L (selT (mlab L) (sel_obs qs)) identity_op identity_op) ->
    good c0 c.
  Proof.
    intros [(stabs & sup & lq & qs & cd & o & ls & -> & _ & A & Es & Esup & El & Eq & Eo & _ & Fo & So & P & F)] T S C Hd Ho.
    apply good_checks; [exact A|]. apply Forall_app. split.
    - assert (Hin : forall a, In a ls -> In a stabs).
      { intros a Ha. eapply Permutation_in in Ha; [|exact P]. apply filter_In in Ha as [_ Ha]. now apply mem_In. }
      clear A P. induction F as [|a i ls cd (F1 & F2 & F3 & F4) _ IH]; constructor; [|apply IH; intros; apply Hin; now right]. intros _. clear IH.
      destruct F3 as [[H1 H2]|E]; [|eapply empty_det; eauto]. destruct (F4 H1 H2) as (s & Hs & F5).
      destruct (Hd _ _ a s Es Esup (Hin a (or_introl eq_refl)) Hs) as (Ns & s' & Eq' & B).
      apply (det_labels qi _ L _ i (sel_data reset s' a) T F2); [|exact B].
      intros k Hk. rewrite F5 by lia. apply form_data_sel; [lia|auto|exact Ns|exact Eq'].
    - constructor; [|constructor]. intros _. destruct (Ho _ _ El Eq) as [Nq B].
      apply (det_labels qi _ L _ o (sel_obs qs) T Fo); [|exact B]. intros k Hk. rewrite So by lia. now apply form_obs_sel.
  Qed.
End Final.

(* a memory experiment *)
Lemma memory_good ordt d0 qi l rot reset dets R I G D c ancs data bt : 
  memory_out ordt d0 qi l rot reset false dets R I G D c ->
  get_role l "anc" = Ok ancs -> (forall a, In a data -> ~ In a ancs) -> get_stabs l (basis_type rot) = Ok bt ->
  (forall s, Permutation (ordt 0%nat 0%nat s) s) ->
  mlab I = [] -> (forall r, mlab (G r) = ancs) -> mlab D = data -> still I -> (forall r, still (G r)) -> still D ->
  (forall r a, (r < R)%nat -> (r = 0%nat -> In a bt) -> In a ancs ->
     bk (I ++ Gn G (S r)) (selT (mlab (I ++ Gn G (S r))) (sel_round reset a)) identity_op identity_op) ->
  (forall sup a s, support_from_adj l bt = Ok sup -> In a bt -> dget a sup = Some s ->
     NoDup s /\ exists s', (forall q, In q s <-> In q s') /\
     bk (I ++ Gn G R ++ D) (selT (mlab (I ++ Gn G R ++ D)) (sel_data reset s' a)) identity_op identity_op) ->
  (forall lq qs, nth_error (l_logs l) 0 = Some lq -> dget lq (if rot then l_logx l else l_logz l) = Some qs ->
     NoDup qs /\ bk (I ++ Gn G R ++ D) (selT (mlab (I ++ Gn G R ++ D)) (sel_obs qs)) identity_op identity_op) ->
  all_deterministic c.
Proof.
  intros [(ancs' & ds & dsf & c01 & c2 & c3 & c4 & w2 & m3 & -> & Ea & _ & B1 & Ask & Ht & B3 & T & Hm)] Ea' Hda Eb Ho HI HG HD SI SG SD D1 D2 D3.
  rewrite Ea in Ea'. injection Ea' as <-. rename ancs' into ancs.
  assert (Na : NoDup ancs) by (apply trace_state in Ht as [_ X]; apply X).
  apply good_all. apply good_app; [now apply good_none|]. apply good_app.
  - eapply trace_good with (reset := reset) (dsf := dsf) (w := w2); eauto.
    intros r a Hr Hd Ha. apply D1; auto. intros ->. specialize (Ask 0%nat Hr). cbn in Ask. unfold first_dets in Ask. rewrite Eb in Ask. cbn [bind] in Ask.
    injection Ask as Ask. rewrite <- Ask in Hd. eapply Permutation_in in Hd; [|apply Ho]. unfold inter in Hd. apply filter_In in Hd as [_ Hd]. now apply mem_In.
  - apply good_app; [now apply good_none|]. rewrite <- !app_assoc. cbn [app].
    eapply meas_good; [exact Hm|exact T| | | |].
    + apply still_app; [exact SI|]. apply still_app; [now apply still_Gn|exact SD].
    + intros a Ha. rewrite !mlab_app, HI, HD, (mlab_Gn G ancs) by auto. cbn [app]. rewrite count_app, count_times_all by auto.
      rewrite count_none; [lia|]. intros Hi. now apply (Hda a).
    + intros stabs sup a s Es Esup. rewrite Eb in Es. injection Es as <-. now apply D2.
    + exact D3.
Qed.
