(** If no detector of an experiment is flipped, the outcomes of the ancillas of the basis are
    not flipped, and the final outcomes have even parity on the stabilizers. *)
From Coq Require Import QArith Qcanon.
From Verif Require Import Base Lib StimM SetupM NoiseM SpecNoise NoiseP LayoutM SpecLayout LayoutP LayoutP2 DetM SpecDet DetP DetCountP SpecGen GeomP
  BlockM ExpM SpecTrack SpecExp SpecFault TrackP LiftP ExpDetP ExpP ExpP3 ExpP4 ExpP8 ExpP12 FaultP FaultP3 FaultP4.
Open Scope Z_scope.

Section Val.
  Context (fl : nat -> bool).
  Definition val (ML : list string) (T : string -> nat -> bool) : bool :=
    xorl (map (fun k => selT ML T k && fl (length ML - k)) (seq 1 (length ML))).
  Lemma sel_last (ML B : list string) T k : NoDup B -> (1 <= k <= length B)%nat -> selT (ML ++ B) T k = selT B (fun q _ => T q 1%nat) k.
  Proof.
    intros N Hk. unfold selT. rewrite rev_app_distr, nth_error_app1 by (rewrite rev_length; lia).
    destruct (nth_error (rev B) (k - 1)) as [x|] eqn:E; [|reflexivity]. f_equal. rewrite firstn_app, rev_length. replace (k - length B)%nat with 0%nat by lia.
    rewrite app_nil_r. pose proof (count_firstn_pos x (rev B) k E ltac:(lia)) as C1.
    pose proof (count_app x (firstn k (rev B)) (skipn k (rev B))) as C. rewrite firstn_skipn, count_rev, count_nodup in C by exact N.
    destruct (mem x B); lia.
  Qed.
  Lemma val_last ML B T : NoDup B -> (forall p q j, nth_error ML p = Some q -> (1 <= j)%nat -> T q (j + count q B)%nat && fl p = false) ->
    val (ML ++ B) T = xorl (map (fun k => selT B (fun q _ => T q 1%nat) k && fl (length ML + length B - k)%nat) (seq 1 (length B))).
  Proof.
    intros N Z. unfold val. rewrite app_length, seq_split', map_app, GeomP.xorl_app.
    match goal with |- xorb _ ?x = _ => replace x with false end.
    - rewrite xorb_false_r. apply xorl_ext'. intros k Hk. apply in_seq in Hk. rewrite sel_last by (auto; lia). reflexivity.
    - symmetry. apply xorl_zero. intros k Hk. apply in_seq in Hk. replace k with ((k - length B) + length B)%nat by lia.
      rewrite selT_shift by lia. set (k' := (k - length B)%nat). replace (length ML + length B - (k' + length B))%nat with (length ML - k')%nat by lia.
      unfold selT. rewrite rev_nth by (unfold k'; lia). destruct (nth_error ML (length ML - k')) as [x|] eqn:E; [|reflexivity].
      apply Z; [exact E|]. rewrite <- rev_nth in E by (unfold k'; lia). apply count_firstn_pos; [exact E|unfold k'; lia].
  Qed.
  (* a round *)
  Lemma val_round reset n ML ancs a i : NoDup ancs -> nth_error ancs i = Some a ->
    (forall p, nth_error ML p = Some a -> fl p = false) -> val (ML ++ ancs) (form_round reset n a) = fl (length ML + i)%nat.
  Proof.
    intros N Hi Z. assert (Li : (i < length ancs)%nat) by (apply nth_error_Some; congruence). rewrite val_last; [|exact N|].
    - rewrite (xor_unique _ _ (length ancs - i)%nat); [|apply seq_NoDup|apply in_seq; lia|].
      + unfold selT. rewrite rev_nth by lia. replace (length ancs - (length ancs - i))%nat with i by lia. rewrite Hi. unfold form_round. rewrite eqb_refl.
        cbn. f_equal. lia.
      + intros k Hk Nk. apply in_seq in Hk. unfold selT. rewrite rev_nth by lia. destruct (nth_error ancs (length ancs - k)) as [x|] eqn:E; [|reflexivity].
        unfold form_round. rewrite (proj2 (eqb_neq a x)); [reflexivity|]. intros ->. apply Nk.
        assert (length ancs - k = i)%nat; [|lia]. eapply NoDup_nth_error; [exact N| |congruence]. lia.
    - intros p q j Hp Hj. unfold form_round. destruct (eqb_spec a q) as [<-|]; [|reflexivity]. rewrite (Z p Hp). apply andb_false_r.
  Qed.
  (* the final measurement *)
  Lemma val_data ML data T S : NoDup data -> (forall q, In q data -> T q 1%nat = mem q S) ->
    (forall p q j, nth_error ML p = Some q -> (1 <= j)%nat -> T q (j + count q data)%nat && fl p = false) ->
    val (ML ++ data) T = xorl (map (fun k => dsel data S k && fl (length (ML ++ data) - k)%nat) (seq 1 (length (ML ++ data)))).
  Proof.
    intros N E Z. rewrite val_last by assumption. rewrite app_length, seq_split', map_app, GeomP.xorl_app.
    match goal with |- _ = xorb _ ?x => replace x with false end.
    - rewrite xorb_false_r. apply xorl_ext'. intros k Hk. f_equal. unfold dsel. apply in_seq in Hk. apply selT_ext; [lia|]. intros q j Hq _. now apply E.
    - symmetry. apply xorl_zero. intros k Hk. apply in_seq in Hk. rewrite (dsel_out data) by lia. reflexivity.
  Qed.
End Val.

Section Exp.
  Context (ordt : nat -> nat -> list string -> list string).
  Hypothesis Hp : forall t n s, Permutation (ordt t n s) s.
  Context (d0 : detectors) (qi : dict string Z) (l : layout) (rot reset gauge : bool) (dets : option (list string)) (R : nat).
  Context (I : list (gate string)) (G : nat -> list (gate string)) (D : list (gate string)) (c : circuit).
  Context (ancs data bts : list string).
  Hypothesis Ea : get_role l "anc" = Ok ancs.
  Hypothesis Eb : get_stabs l (basis_type rot) = Ok bts.
  Hypothesis Hb : incl bts ancs.
  Hypothesis Hdets : forall ds, dets = Some ds -> incl bts ds.
  Hypothesis Nd : NoDup data.
  Hypothesis Hda : forall q, In q data -> ~ In q ancs.
  Hypothesis HI : mlab I = [].
  Hypothesis HG : forall r, mlab (G r) = ancs.
  Hypothesis HD : mlab D = data.
  Context (fs : list fault).
  Let fl := outcome_flipped c fs.
  Hypothesis Un : undetected c fs.
  Lemma check_val pre i L T m : tracked qi m L pre -> (forall k, (1 <= k)%nat -> lists i k = selT (mlab L) T k) -> check_flipped c fs pre i = val fl (mlab L) T.
  Proof.
    intros Tr E. unfold check_flipped, val. rewrite odd_xorl. rewrite mlab_len, (num_meas_rel _ _ _ (tk_rel _ _ _ _ Tr)). apply xorl_ext'.
    intros k Hk. apply in_seq in Hk. now rewrite E by lia.
  Qed.
  Lemma labels_known dsf pre n cr w : trace d0 qi ancs reset dsf I G pre n cr w -> NoDup ancs /\ incl ancs (labels d0).
  Proof. intros Ht. apply trace_state in Ht as [_ D']. split; [apply D'|]. rewrite <- (proj1 (ds_same _ _ _ _ D')). apply D'. Qed.
  (* the outcomes of the ancillas of the basis *)
  Lemma anc_quiet dsf pre n cr w : trace d0 qi ancs reset dsf I G pre n cr w ->
    (forall r, (r < n)%nat -> incl bts (dsf r)) -> forall post, c = (pre ++ cr) ++ post ->
    forall a p, In a bts -> nth_error (mlab (I ++ Gn G n)) p = Some a -> fl p = false.
  Proof.
    induction 1 as [w T D'|n cr w c' w' Ht IH O]; intros Hs post E a p Ha Hn.
    - cbn [Gn] in Hn. rewrite app_nil_r, HI in Hn. now destruct p.
    - destruct (labels_known _ _ _ _ _ Ht) as [Na Kn].
      specialize (IH (fun r Hr => Hs r ltac:(lia)) (c' ++ post)). rewrite E, <- !app_assoc in IH. specialize (IH eq_refl a).
      assert (EM : mlab (I ++ Gn G (S n)) = mlab (I ++ Gn G n) ++ ancs) by (cbn [Gn]; rewrite !mlab_app, HG, !app_assoc; reflexivity).
      rewrite EM in Hn.
      destruct (Nat.lt_ge_cases p (length (mlab (I ++ Gn G n)))) as [Lp|Lp]; [rewrite nth_error_app1 in Hn by exact Lp; now apply IH|].
      rewrite nth_error_app2 in Hn by exact Lp.
      destruct O as [_ (cb & cd & ls & -> & T & _ & _ & An & P & F)].
      destruct (Forall2_pick _ _ _ a F) as (r1 & i & r2 & -> & (xs & X1 & X2 & X3) & _ & _ & K); [apply (Permutation_in _ (Permutation_sym P)); auto|].
      apply Forall_app in An as [An _].
      assert (T' : tracked qi (fst w') (I ++ Gn G (S n)) (((pre ++ cr) ++ cb) ++ r1)) by now apply tracked_ann.
      assert (Ec : c = (((pre ++ cr) ++ cb) ++ r1) ++ i :: r2 ++ post) by (rewrite E, <- !app_assoc; reflexivity).
      pose proof (Un _ _ _ Ec X2) as U.
      rewrite (check_val _ i (I ++ Gn G (S n)) _ _ T' (K (Hs n ltac:(lia) a Ha) (Hb a Ha))) in U.
      rewrite EM, (val_round fl reset (S n) _ ancs a _ Na Hn) in U by (intros p' Hp'; now apply IH).
      rewrite <- U. f_equal. lia.
  Qed.

  (* the final measurement after [c0] *)
  Lemma end_parities L ML m k ds c0 c4 lq lg : wf l -> c = c0 ++ c4 -> tracked qi m L c0 -> meas_out d0 qi ancs l rot reset k ds L m c0 c4 ->
    incl ancs (labels d0) -> incl bts ds -> Forall (fun x => nm x <> OBSERVABLE_INCLUDE) c0 ->
    mlab L = ML ++ data -> (forall a p, In a bts -> nth_error ML p = Some a -> fl p = false) -> incl ML ancs -> NoDup lq -> incl lq data ->
    (forall a, In a bts -> incl (support l a) data) ->
    l_logs l = [lg] -> dget lg (if rot then l_logx l else l_logz l) = Some lq ->
    (forall a, In a bts -> flipped_parity data c fs (support l a) = false) /\
    (logical_error c fs -> flipped_parity data c fs lq = true).
  Proof.
    intros Wl Ec T0 Hm Kn Hds' Nob EM Qu HA Nlq Ilq Hsup Elog Elq.
    destruct Hm as [(stabs & sup & lq' & qs & cd & o & ls & E4 & T4 & An & Es & Esup & El & Eq & No & _ & _ & So & P & F)].
    fold (basis_type rot) in Es. rewrite Eb in Es. injection Es as <-. rewrite Elog in El. injection El as <-. rewrite Elq in Eq. injection Eq as <-.
    assert (Mc : num_meas (gates c) = length (ML ++ data)).
    { rewrite <- EM, mlab_len, (num_meas_rel _ _ _ (tk_rel _ _ _ _ T4)). rewrite Ec. reflexivity. }
    rewrite E4 in An. apply Forall_app in An as [An _]. split.
    - intros a Ha. destruct (Forall2_pick _ _ _ a F) as (r1 & i & r2 & Ecd & (xs & X1 & X2 & X3) & _ & _ & K).
      { apply (Permutation_in _ (Permutation_sym P)). apply filter_In. split; [auto|now apply mem_In]. }
      destruct (K (Hds' a Ha) (Hb a Ha)) as (s & Hs & Li). destruct (support_lemma l bts sup Wl Esup a Ha) as (s0 & E0 & N0 & H0). rewrite Hs in E0. injection E0 as <-.
      rewrite Ecd in An. apply Forall_app in An as [An _].
      assert (T' : tracked qi m L (c0 ++ r1)) by now apply tracked_ann.
      assert (Ec' : c = (c0 ++ r1) ++ i :: r2 ++ [o]) by (rewrite Ec, E4, Ecd, <- !app_assoc; reflexivity).
      pose proof (Un _ _ _ Ec' X2) as U. rewrite (check_val _ i _ _ _ T' Li), EM in U.
      rewrite (val_data fl _ data _ (support l a) Nd) in U.
      + unfold flipped_parity, M. now rewrite Mc.
      + intros q Hq. unfold form_data. rewrite (proj2 (eqb_neq a q)) by (intros ->; apply (Hda q Hq); auto). cbn [andb]. rewrite xorb_false_r, andb_true_r, odd_mem by exact N0.
        apply Bool.eq_true_iff_eq. now rewrite !mem_In.
      + intros p q j Hq Hj. unfold form_data. rewrite odd_mem by exact N0. rewrite (mem_not q s).
        2:{ intros Hi. apply H0 in Hi. apply (Hda q); [now apply (Hsup a Ha)|]. eapply HA, nth_error_In; eauto. }
        cbn [andb]. rewrite xorb_false_l. destruct (eqb_spec a q) as [<-|]; [|reflexivity]. now rewrite (Qu a p Ha Hq), andb_false_r.
    - intros (pre & i & post & Ei & Ni & Ci).
      assert (Fo : pre = c0 ++ cd /\ i = o).
      { clear Ci. assert (Nc : forall x, In x (c0 ++ cd) -> nm x <> OBSERVABLE_INCLUDE).
        { intros x Hx. rewrite in_app_iff in Hx. destruct Hx as [Hx|Hx]; [now apply (proj1 (Forall_forall _ _) Nob)|].
          clear - F Hx. induction F as [|a j ls cd ((xs & _ & X & _) & _) _ IH]; [destruct Hx|]. destruct Hx as [<-|Hx]; [congruence|auto]. }
        assert (Ei' : (c0 ++ cd) ++ [o] = pre ++ i :: post) by (rewrite <- Ei, Ec, E4, <- !app_assoc; reflexivity).
        apply app_eq_app in Ei' as (l1 & [[E1 E2]|[E1 E2]]).
        - destruct l1 as [|x l1]; [rewrite app_nil_r in E1; cbn in E2; injection E2 as -> ->; auto|]. cbn in E2. injection E2 as <- E2. exfalso. apply (Nc i); [|exact Ni]. rewrite E1. apply in_app_iff. right. now left.
        - destruct l1 as [|x l1]; [rewrite app_nil_r in E1; cbn in E2; injection E2 as -> _; auto|]. cbn in E2. injection E2 as _ E2. destruct l1; discriminate E2. }
      destruct Fo as [-> ->].
      assert (T' : tracked qi m L (c0 ++ cd)) by now apply tracked_ann.
      rewrite (check_val _ o _ _ _ T' So), EM in Ci. rewrite (val_data fl _ data _ lq Nd) in Ci.
      + unfold flipped_parity, M. now rewrite Mc.
      + intros q Hq. unfold form_obs. now rewrite andb_true_r, odd_mem.
      + intros p q j Hq Hj. unfold form_obs. rewrite odd_mem, (mem_not q lq); [reflexivity| |exact Nlq]. intros Hi. apply (Hda q); [now apply Ilq|]. eapply HA, nth_error_In; eauto.
  Qed.
  Lemma round_no_obs n ds L m pre cr w : round_out d0 qi ancs m n ds L pre cr w -> Forall (fun x => nm x <> OBSERVABLE_INCLUDE) cr.
  Proof.
    intros [_ (cb & cd & ls & -> & T & _ & NC & An & P & F)]. apply Forall_app. split.
    - eapply Forall_impl; [|exact NC]. cbv beta. intros x Hx E. apply Hx. now right.
    - clear - F. induction F as [|a j ls cd ((xs & _ & X & _) & _) _ IH]; constructor; [congruence|auto].
  Qed.
  Lemma trace_no_obs dsf pre n cr w : trace d0 qi ancs reset dsf I G pre n cr w -> Forall (fun x => nm x <> OBSERVABLE_INCLUDE) cr.
  Proof.
    induction 1 as [w T D'|n cr w c' w' Ht IH O]; [constructor|]. apply Forall_app. split; [exact IH|]. eapply round_no_obs; eauto.
  Qed.
  Lemma checkless_no_obs c0 : checkless c0 -> Forall (fun x => nm x <> OBSERVABLE_INCLUDE) c0.
  Proof. apply Forall_impl. intros x Hx E. apply Hx. now right. Qed.
  Lemma rounds_labels n : incl (mlab (I ++ Gn G n)) ancs.
  Proof.
    intros q Hq. rewrite mlab_app, HI in Hq. cbn [app] in Hq. revert Hq. induction n as [|n IH]; intros Hq; [destruct Hq|].
    cbn [Gn] in Hq. rewrite mlab_app, HG in Hq. apply in_app_iff in Hq as [Hq|Hq]; auto.
  Qed.
  Lemma final_parities lq lg : wf l -> memory_out ordt d0 qi l rot reset gauge dets R I G D c -> NoDup lq -> incl lq data ->
    (forall a, In a bts -> incl (support l a) data) ->
    l_logs l = [lg] -> dget lg (if rot then l_logx l else l_logz l) = Some lq ->
    (forall a, In a bts -> flipped_parity data c fs (support l a) = false) /\
    (logical_error c fs -> flipped_parity data c fs lq = true).
  Proof.
    intros Wl [(ancs' & ds & dsf & c01 & c2 & c3 & c4 & w2 & m3 & Ec & Ea' & Ed & B1 & Ask & Ht & B3 & T & Hm)] Nlq Ilq Hsup Elog Elq.
    rewrite Ea in Ea'. injection Ea' as <-. destruct (labels_known _ _ _ _ _ Ht) as [Na Kn].
    assert (Hds : forall r, (r < R)%nat -> incl bts (dsf r)).
    { intros r Hr a Ha. apply (asked_shown ordt Hp l rot gauge dets ds ancs r _ a Ea Ed (Ask r Hr)). split; [eauto|]. split; [intros ds' E; now apply (Hdets ds')|]. intros _ _. exists bts. auto. }
    assert (Hds' : incl bts ds).
    { intros a Ha. unfold default_dets in Ed. destruct dets as [x|]; [injection Ed as <-; apply (Hdets x eq_refl a Ha)|]. rewrite Ea in Ed. injection Ed as <-. auto. }
    eapply (end_parities _ (mlab (I ++ Gn G R)) _ _ ds (c01 ++ c2 ++ c3) c4); eauto.
    - rewrite Ec, <- !app_assoc. reflexivity.
    - apply Forall_app. split; [now apply checkless_no_obs|]. apply Forall_app. split; [eapply trace_no_obs; eauto|now apply checkless_no_obs].
    - now rewrite !mlab_app, HD, app_assoc.
    - apply (anc_quiet _ _ _ _ _ Ht Hds (c3 ++ c4)). rewrite Ec, <- !app_assoc. reflexivity.
    - apply rounds_labels.
  Qed.
End Exp.
