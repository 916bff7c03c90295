(** The detectors of an experiment without logical gates are built without an exception. *)
From Coq Require Import QArith Qcanon.
From Verif Require Import Base Lib StimM MatM MatP DetM SpecDet DetP DetCountP DetLinP DetDetP DetHistP ExpDetP ExpP3 SpecOk NoiseM LayoutM LayoutP BlockM TrackP OkP.
Open Scope Z_scope.

Lemma requested_total d ds : wf_det d -> incl ds (labels d) -> exists r, requested d (Some ds) = Ok r.
Proof.
  intros W H. unfold requested. destruct (mapM_total (fun a => dget_err a (active d)) ds) as [fl ->]; [|cbn; eauto].
  intros a Ha. unfold dget_err. destruct (dget a (active d)) eqn:E; [cbn; eauto|]. apply dget_None in E.
  exfalso. apply E. rewrite (wf_active _ W). auto.
Qed.
Lemma next_rounds_total d : wf_det d -> exists nr, next_rounds d = Ok nr /\ dkeys nr = labels d.
Proof.
  intros W. destruct (mapM_total (fun ab : string * bool => do n <- dget_err (fst ab) (num_rounds d); Ok (fst ab, if snd ab then n + 1 else n)) (active d)) as [nr E].
  - intros [a b] H. cbn [fst snd]. unfold dget_err. destruct (dget a (num_rounds d)) eqn:E; [cbn; eauto|]. apply dget_None in E. exfalso. apply E.
    rewrite (wf_rounds _ W), <- (wf_active _ W). apply in_map_iff. now exists (a, b).
  - exists nr. split; [exact E|]. rewrite <- (wf_active _ W). apply mapM_Forall2 in E. clear W. unfold dkeys. induction E as [|[a b] y l l' H _ IH]; [reflexivity|].
    cbn [map]. rewrite IH. apply bind_ok in H as (n & _ & H). injection H as <-. reflexivity.
Qed.
Lemma key_get {V} a (d : dict string V) : In a (dkeys d) -> exists v, dget a d = Some v.
Proof. intros H. destruct (dget a d) eqn:E; [eauto|]. apply dget_None in E. contradiction. Qed.

Lemma get_anc_meas_total ls c p b nr r1 r2 : NoDup ls -> Permutation (dkeys c) ls -> Permutation (dkeys p) ls -> Permutation (dkeys b) ls ->
  rows_ok ls b -> invertible ls b -> dkeys nr = ls -> exists dets, get_anc_meas c p b nr r1 r2 = Ok dets.
Proof.
  intros Hn Hc Hp Hb Rb Hi Hr. unfold get_anc_meas.
  assert (K : forall g : gen, Permutation (dkeys g) ls -> exists r, mapM (fun a => dget_err a g) (dkeys c) = Ok r).
  { intros g P. apply mapM_total. intros a Ha. destruct (key_get a g) as [v E]; [rewrite P, <- Hc; exact Ha|]. unfold dget_err. rewrite E. cbn. eauto. }
  destruct (K c Hc) as [C ->]. cbn [bind]. destruct (K b Hb) as [B E2]. rewrite E2. cbn [bind]. destruct (K p Hp) as [P ->]. cbn [bind].
  apply mapM_rowg in E2. subst B. destruct (kernel_free_rows ls (dkeys c) b) as [KF SQ]; auto.
  destruct (nonsingular_rational _ SQ KF) as [X EX]. rewrite EX. cbn [of_opt bind].
  apply mapM_total. intros [a [x1 x2]] Ha. apply in_combine_l in Ha. destruct (key_get a nr) as [v E]; [rewrite Hr, <- Hc; exact Ha|].
  unfold dget_err. rewrite E. cbn. eauto.
Qed.

(* with the same generators before and after, a detector only lists its own ancilla *)
Lemma crow_own ls (curr : gen) col g a k t : NoDup ls -> Permutation (dkeys curr) ls -> is_inv ls g col -> In a ls ->
  In t (select (dkeys curr) (nonzero (crow curr col g a)) k) -> t = (a, k).
Proof.
  intros Hn Hp Hi Ha H. unfold crow in H. rewrite select_eq in H. apply in_map_iff in H as (b & <- & H). apply filter_In in H as [Hb H].
  f_equal. destruct (Hi b) as [_ Hd]; [eapply Permutation_in; eauto|]. rewrite (Hd a Ha) in H. destruct (eqb_spec a b); [congruence|].
  exfalso. revert H. clear. vm_compute. discriminate.
Qed.
Lemma own_targets ls (g : gen) col rc rp n a t : NoDup ls -> Permutation (dkeys g) ls -> is_inv ls g col -> In a ls ->
  In t (contributions g g col rc rp n a) ->
  t = (a, -1) \/ 2 <= n /\ t = (a, -2) \/ 3 <= n /\ (rp = false) /\ t = (a, -3).
Proof.
  intros Hn Hp Hi Ha H. unfold contributions in H. rewrite !in_app_iff in H.
  assert (O := fun k => crow_own ls g col g a k t Hn Hp Hi Ha).
  destruct H as [H|[H|[H|H]]].
  - left. now apply O.
  - destruct (Z.leb_spec 2 n); [|destruct H]. right. left. split; [lia|]. now apply O.
  - destruct (Z.leb_spec 2 n); [|rewrite andb_false_r in H; destruct H]. destruct rc; cbn in H; [destruct H|]. right. left. split; [lia|]. now apply O.
  - destruct (Z.leb_spec 3 n); [|rewrite andb_false_r in H; destruct H]. destruct rp; cbn in H; [destruct H|]. right. right. split; [lia|]. split; [reflexivity|]. now apply O.
Qed.
Lemma det_instr_total d g ancs t x : (In (fst x) ancs -> forall y, In y (snd x) -> exists r, g (fst y) (snd y) = Ok r) ->
  In (fst x) (dkeys (dcoords d)) -> exists i, det_instr d g ancs t x = Ok i.
Proof.
  intros H Hc. unfold det_instr. destruct (key_get _ _ Hc) as [cs Ec].
  assert (R : exists recs, (if mem (fst x) ancs then mapM (fun t => g (fst t) (snd t)) (remove_pairs (snd x)) else Ok []) = Ok recs).
  { destruct (mem (fst x) ancs) eqn:M; [|eauto]. apply mapM_total. intros y Hy. unfold remove_pairs in Hy. apply filter_In in Hy as [Hy _].
    apply H; [now apply mem_In|exact Hy]. }
  destruct R as [recs ->]. cbn [bind]. unfold dget_err. rewrite Ec. cbn [of_opt bind]. unfold mk, instr_ok. cbn. eauto.
Qed.

Record dstI (d0 : detectors) (ancs : list string) (n : nat) (d : detectors) : Prop := {
  di_dst : dst d0 ancs n d;
  di_curr : curr_gen d = identity (labels d);
  di_coords : incl (labels d) (dkeys (dcoords d)) }.

Lemma build_anc_total d0 ancs n d g reset ds : dstI d0 ancs n d -> incl ds ancs ->
  (forall a j, In a ancs -> (1 <= j <= S n)%nat -> exists t, g a (- Z.of_nat j) = Ok t) ->
  exists d' c, build_from_anc g reset (Some ds) d = (d', Ok c) /\ dstI d0 ancs (S n) d'.
Proof.
  intros [D Dc Dk] Hd G. pose proof (ds_wf _ _ _ _ D) as W. pose proof (SpecDet.wf_nodup _ W) as Hn.
  enough (X : exists d' c, build_from_anc g reset (Some ds) d = (d', Ok c)).
  { destruct X as (d' & c & X). exists d', c. split; [exact X|]. destruct (anc_content _ _ _ _ _ _ W (ds_gens _ _ _ _ D) X) as [(nr & En & ->) _].
    constructor; [eapply dst_round; eauto|exact Dc|exact Dk]. }
  destruct (requested_total d ds W) as [ancs' Er]; [intros a Ha; apply (ds_known _ _ _ _ D); auto|].
  destruct (next_rounds_total d W) as (nr & En & Kn).
  assert (Rq : forall a, In a ancs' -> In a ancs).
  { intros a Ha. apply (requested_ok _ _ _ Er) in Ha as [Ha _]. auto. }
  unfold build_from_anc. unfold sbind, sread, sret. rewrite Er, En. cbv beta iota zeta.
  set (d1 := set_rounds nr (total d + 1) d).
  match goal with |- context [match match ?X with Ok a => (d1, Ok a) | Err e => _ end with _ => _ end] => idtac | _ => idtac end.
  match goal with |- exists d' c, match ?X with Ok a => _ | Err e => _ end = _ => assert (M : exists dets, X = Ok dets /\ forall x, In x dets -> In (fst x) (labels d) /\
    forall y, In (fst x) ancs -> In y (snd x) -> fst y = fst x /\ exists j, (1 <= j <= S n)%nat /\ snd y = - Z.of_nat j) end.
  { change (dfr d1) with (dfr d). change (curr_gen d1) with (curr_gen d). change (prev_gen d1) with (prev_gen d). change (labels d1) with (labels d).
    change (num_rounds d1) with nr. rewrite (ds_gens _ _ _ _ D).
    assert (Nr : forall a v, In a ancs -> dget a nr = Some v -> v = Z.of_nat (S n)).
    { intros a v Ha E. pose proof (DetDetP.next_rounds_get d nr a (Z.of_nat n) true W En (proj2 (ds_act _ _ _ _ D a) Ha) (ds_num _ _ _ _ D a Ha)) as E'. rewrite E in E'. injection E' as ->. lia. }
    assert (Gm : exists dets, get_anc_meas (curr_gen d) (curr_gen d) (curr_gen d) nr reset reset = Ok dets /\ forall x, In x dets -> In (fst x) (labels d) /\
      forall y, In (fst x) ancs -> In y (snd x) -> fst y = fst x /\ exists j, (1 <= j <= S n)%nat /\ snd y = - Z.of_nat j).
    { destruct (get_anc_meas_total (labels d) (curr_gen d) (curr_gen d) (curr_gen d) nr reset reset) as [dets E]; auto using wf_curr, rows_ok_curr.
      - rewrite Dc. now apply identity_invertible.
      - exists dets. split; [exact E|]. destruct (get_anc_meas_char (labels d) _ _ _ Hn (wf_curr _ W) (rows_ok_curr d W) _ _ _ _ E) as (col & Hi & F).
        intros x Hx. destruct (Forall2_in_r _ _ _ x F Hx) as (a & Ha & v & Ev & ->). cbn [fst snd]. split; [eapply Permutation_in; [apply (wf_curr _ W)|exact Ha]|].
        intros y Hy I. pose proof (Nr a v Hy Ev) as ->.
        apply (own_targets (labels d)) in I; auto using wf_curr; [|eapply Permutation_in; [apply (wf_curr _ W)|exact Ha]].
        destruct I as [->|[[L ->]|(L & _ & ->)]]; cbn [fst snd]; (split; [reflexivity|]); [exists 1%nat|exists 2%nat|exists 3%nat]; (split; [lia|reflexivity]). }
    destruct (dfr d); [exact Gm|exact Gm|]. clear Gm.
    destruct (mapM_total (fun a => do n0 <- dget_err a nr; Ok (a, (a, -1) :: (if 0 <=? (if reset then -2 else -3) + n0 then [(a, if reset then -2 else -3)] else []))) (labels d)) as [dets E].
    { intros a Ha. destruct (key_get a nr) as [v Ev]; [now rewrite Kn|]. unfold dget_err. rewrite Ev. cbn. eauto. }
    exists dets. split; [exact E|]. apply mapM_Forall2 in E. intros x Hx. destruct (Forall2_in_r _ _ _ x E Hx) as (a & Ha & Q).
    apply bind_ok in Q as (v & Ev & Q). injection Q as <-. cbn [fst snd]. split; [exact Ha|]. intros y Hy I.
    unfold dget_err in Ev. destruct (dget a nr) eqn:Eg; cbn in Ev; [|discriminate]. injection Ev as ->. pose proof (Nr a v Hy Eg) as ->.
    destruct I as [<-|I]; [split; [reflexivity|]; exists 1%nat; split; [lia|reflexivity]|].
    match type of I with In _ (if ?b then _ else _) => destruct b eqn:B end; [|destruct I]. destruct I as [<-|[]]. cbn [fst snd]. split; [reflexivity|].
    apply Z.leb_le in B. destruct reset; [exists 2%nat|exists 3%nat]; (split; [lia|reflexivity]). }
  destruct M as (dets & -> & M).
  match goal with |- exists d' c, match ?X with Ok a => _ | Err e => _ end = _ => assert (C : exists c, X = Ok c) end.
  { apply mapM_total. intros x Hx. destruct (M x Hx) as [M1 M2]. apply det_instr_total; [|apply Dk; exact M1]. intros Hm y Hy.
    destruct (M2 y (Rq _ Hm) Hy) as [-> (j & Hj & ->)]. apply G; [now apply Rq|exact Hj]. }
  destruct C as [c ->]. eauto.
Qed.

Lemma not_superset (a b : list string) : incl a b -> strict_superset a b = false.
Proof. intros H. unfold strict_superset. apply subset_spec in H. rewrite H. apply andb_false_r. Qed.

Lemma build_data_total d0 ancs n d g sup reset stabs ds : dstI d0 ancs n d -> incl ds ancs -> incl stabs ancs -> incl stabs (dkeys sup) ->
  (forall a j, In a ancs -> (1 <= j <= n)%nat -> exists t, g a (- Z.of_nat j) = Ok t) ->
  (forall a qs q, In a ancs -> dget a sup = Some qs -> In q qs -> exists t, g q (-1) = Ok t) ->
  exists c, build_from_data g sup reset stabs (Some ds) d = (set_gens (curr_gen d) (curr_gen d) d, Ok c).
Proof.
  intros [D Dc Dk] Hd Hs Hk G S. pose proof (ds_wf _ _ _ _ D) as W. pose proof (SpecDet.wf_nodup _ W) as Hn.
  unfold build_from_data. rewrite not_superset by exact Hk.
  destruct (requested_total d ds W) as [ancs' Er]; [intros a Ha; apply (ds_known _ _ _ _ D); auto|].
  destruct (next_rounds_total d W) as (nr & En & Kn).
  unfold sbind, sread, sret, slift. rewrite Er, En. cbv beta iota zeta.
  assert (Nr : forall a v, In a ancs -> dget a nr = Some v -> v = Z.of_nat (Datatypes.S n)).
  { intros a v Ha E. pose proof (DetDetP.next_rounds_get d nr a (Z.of_nat n) true W En (proj2 (ds_act _ _ _ _ D a) Ha) (ds_num _ _ _ _ D a Ha)) as E'. rewrite E in E'. injection E' as ->. lia. }
  match goal with |- exists c, match ?X with Ok a => _ | Err e => _ end = _ => assert (M : exists dets, X = Ok dets /\ forall x, In x dets -> In (fst x) (labels d) /\
    forall y, In (fst x) ancs -> In y (snd x) -> fst y = fst x /\ exists j, (1 <= j <= Datatypes.S n)%nat /\ snd y = - Z.of_nat j) end.
  { rewrite (ds_gens _ _ _ _ D).
    assert (Gm : exists dets, get_anc_meas (curr_gen d) (curr_gen d) (curr_gen d) nr true reset = Ok dets /\ forall x, In x dets -> In (fst x) (labels d) /\
      forall y, In (fst x) ancs -> In y (snd x) -> fst y = fst x /\ exists j, (1 <= j <= Datatypes.S n)%nat /\ snd y = - Z.of_nat j).
    { destruct (get_anc_meas_total (labels d) (curr_gen d) (curr_gen d) (curr_gen d) nr true reset) as [dets E]; auto using wf_curr, rows_ok_curr.
      - rewrite Dc. now apply identity_invertible.
      - exists dets. split; [exact E|]. destruct (get_anc_meas_char (labels d) _ _ _ Hn (wf_curr _ W) (rows_ok_curr d W) _ _ _ _ E) as (col & Hi & F).
        intros x Hx. destruct (Forall2_in_r _ _ _ x F Hx) as (a & Ha & v & Ev & ->). cbn [fst snd]. split; [eapply Permutation_in; [apply (wf_curr _ W)|exact Ha]|].
        intros y Hy I. pose proof (Nr a v Hy Ev) as ->.
        apply (own_targets (labels d)) in I; auto using wf_curr; [|eapply Permutation_in; [apply (wf_curr _ W)|exact Ha]].
        destruct I as [->|[[L ->]|(L & _ & ->)]]; cbn [fst snd]; (split; [reflexivity|]); [exists 1%nat|exists 2%nat|exists 3%nat]; (split; [lia|reflexivity]). }
    destruct (dfr d); [exact Gm|exact Gm|]. clear Gm.
    match goal with |- exists dets, mapM ?f _ = _ /\ _ => destruct (mapM_total f (labels d)) as [dets E] end.
    { intros a Ha. destruct (key_get a nr) as [v Ev]; [now rewrite Kn|]. unfold dget_err. rewrite Ev. cbn. eauto. }
    exists dets. split; [exact E|]. apply mapM_Forall2 in E. intros x Hx. destruct (Forall2_in_r _ _ _ x E Hx) as (a & Ha & Q).
    apply bind_ok in Q as (v & Ev & Q). injection Q as <-. cbn [fst snd]. split; [exact Ha|]. intros y Hy I.
    unfold dget_err in Ev. destruct (dget a nr) eqn:Eg; cbn in Ev; [|discriminate]. injection Ev as ->. pose proof (Nr a v Hy Eg) as ->.
    destruct I as [<-|I]; [split; [reflexivity|]; exists 1%nat; split; [lia|reflexivity]|]. apply in_app_or in I as [I|I].
    - destruct (Z.ltb_spec 1 (Z.of_nat (Datatypes.S n))); [|destruct I]. destruct I as [<-|[]]. split; [reflexivity|]. exists 2%nat. split; [lia|reflexivity].
    - destruct (Z.ltb_spec 2 (Z.of_nat (Datatypes.S n))); [|rewrite andb_false_r in I; destruct I]. destruct reset; [destruct I|]. destruct I as [<-|[]].
      split; [reflexivity|]. exists 3%nat. split; [lia|reflexivity]. }
  destruct M as (dets & -> & M).
  match goal with |- exists c, match ?X with Ok a => _ | Err e => _ end = _ => assert (T : exists dets', X = Ok dets' /\
     forall x, In x dets' -> In (fst x) (labels d) /\ forall y, In (fst x) ancs -> In y (snd x) -> exists r, g (fst y) (snd y) = Ok r) end.
  { match goal with |- exists dets', mapM ?f ?l = _ /\ _ => assert (F : forall x, In x l -> exists y, f x = Ok y /\ In (fst y) (labels d) /\
        forall z, In (fst y) ancs -> In z (snd y) -> exists r, g (fst z) (snd z) = Ok r) end.
    { intros x Hx. apply filter_In in Hx as [Hx Hm]. apply mem_In in Hm. destruct (M x Hx) as [M1 M2].
      assert (P : exists l, to_data sup (snd x) = Ok l /\ forall z, In z l -> exists r, g (fst z) (snd z) = Ok r).
      { unfold to_data.
        match goal with |- exists l, (do _ <- mapM ?f _; _) = _ /\ _ => assert (Q : forall t, In t (snd x) -> exists l, f t = Ok l /\ forall z, In z l -> exists r, g (fst z) (snd z) = Ok r) end.
        { intros t Ht. destruct (M2 t (Hs _ Hm) Ht) as [E1 (j & Hj & E2)]. destruct (eqb_spec (snd t) (-1)) as [E|E].
          - destruct (key_get (fst x) sup) as [qs Eq]; [auto|]. unfold dget_err. rewrite E1, Eq. cbn [of_opt bind]. eexists. split; [reflexivity|].
            intros z Hz. apply in_map_iff in Hz as (q & <- & Hq). cbn [fst snd]. eapply S; eauto.
          - eexists. split; [reflexivity|]. intros z [<-|[]]. cbn [fst snd]. rewrite E1, E2. replace (- Z.of_nat j + 1) with (- Z.of_nat (j - 1)) by lia. apply G; [auto|lia]. }
        destruct (mapM_total _ _ (fun t H => let '(ex_intro _ l (conj A _)) := Q t H in ex_intro _ l A)) as [ll E]. rewrite E. cbn [bind].
        eexists. split; [reflexivity|]. intros z Hz. apply in_concat in Hz as (l & Hl & Hz). apply mapM_Forall2 in E. destruct (Forall2_in_r _ _ _ l E Hl) as (t & Ht & Et).
        destruct (Q t Ht) as (l' & E' & Q'). rewrite Et in E'. injection E' as <-. auto. }
      destruct P as (l & -> & P). cbn [bind]. eexists. split; [reflexivity|]. cbn [fst snd]. split; [exact M1|]. auto. }
    destruct (mapM_total _ _ (fun t H => let '(ex_intro _ l (conj A _)) := F t H in ex_intro _ l A)) as [ll E]. exists ll. split; [exact E|].
    intros x Hx. apply mapM_Forall2 in E. destruct (Forall2_in_r _ _ _ x E Hx) as (t & Ht & Et). destruct (F t Ht) as (y & E' & F'). rewrite Et in E'. injection E' as <-. exact F'. }
  destruct T as (dets' & -> & T).
  match goal with |- exists c, match ?X with Ok a => _ | Err e => _ end = _ => assert (C : exists c, X = Ok c) end.
  { apply mapM_total. intros x Hx. destruct (T x Hx) as [M1 M2]. apply det_instr_total; [|apply Dk; exact M1]. intros Hm y Hy.
    apply M2; [|exact Hy]. apply (requested_ok _ _ _ Er) in Hm as [Hm _]. auto. }
  destruct C as [c ->]. eauto.
Qed.

Lemma activate_total d0 ancs : NoDup (labels d0) -> NoDup ancs -> incl ancs (labels d0) -> incl (labels d0) (dkeys (dcoords d0)) ->
  exists d1, activate ancs (det_new d0) = (d1, Ok tt) /\ dstI d0 ancs 0 d1.
Proof.
  intros N Na K C. unfold activate. rewrite not_superset; [|intros a Ha; cbn [det_new active]; unfold dkeys; rewrite map_map, map_id; apply dedup_In; auto].
  assert (X : forall l d, NoDup l -> (forall a, In a l -> dget a (active d) = Some false) ->
    exists d1, siter activate_one l d = (d1, Ok tt) /\ same d d1 /\ curr_gen d1 = curr_gen d).
  { induction l as [|a l IH]; intros d Hl H; [exists d; repeat split|]. inversion Hl; subst. cbn [siter]. unfold activate_one, sbind at 1.
    rewrite (H a (or_introl eq_refl)). cbv beta zeta iota. match goal with |- context [siter _ l ?x] => destruct (IH x) as (d1 & E & (S1 & S2 & S3) & G); [assumption| |exists d1; repeat split; assumption] end.
    intros b Hb. cbn [set_rounds set_active active]. rewrite dget_dset. destruct (eqb_spec a b); [congruence|]. apply H. now right. }
  destruct (X ancs (det_new d0)) as (d1 & E & S & G); auto.
  - intros a Ha. destruct (det_new_counters d0 a N (K a Ha)) as [E _]. exact E.
  - exists d1. split; [exact E|]. assert (A : activate ancs (det_new d0) = (d1, Ok tt)).
    { unfold activate. rewrite not_superset; [exact E|]. intros a Ha; cbn [det_new active]; unfold dkeys; rewrite map_map, map_id; apply dedup_In; auto. }
    destruct S as (S1 & S2 & S3). cbn [det_new labels dcoords curr_gen] in *. constructor; [eapply dst_start; eauto|congruence|rewrite S1, S3; exact C].
Qed.
Lemma deactivate_total d0 ancs n d : dst d0 ancs n d -> exists d', deactivate ancs d = (d', Ok tt).
Proof.
  intros D. unfold deactivate. rewrite not_superset by (rewrite (wf_active _ (ds_wf _ _ _ _ D)); apply (ds_known _ _ _ _ D)).
  assert (X : forall l d, NoDup l -> (forall a, In a l -> dget a (active d) = Some true) -> exists d1, siter deactivate_one l d = (d1, Ok tt)).
  { induction l as [|a l IH]; intros e Hl H; [exists e; reflexivity|]. inversion Hl; subst. cbn [siter]. unfold deactivate_one, sbind at 1.
    rewrite (H a (or_introl eq_refl)). cbv zeta. apply IH; [assumption|]. intros b Hb. cbn [set_gens set_active active]. rewrite dget_dset.
    destruct (eqb_spec a b); [congruence|]. apply H. now right. }
  apply X; [apply (ds_nodup _ _ _ _ D)|]. intros a Ha. now apply (ds_act _ _ _ _ D).
Qed.
Lemma made_ok d : made d -> NoDup (labels d) /\ incl (labels d) (dkeys (dcoords d)).
Proof.
  intros (ls & f & cs & d0 & H & -> & _ & ->). destruct (det_init_ok _ _ _ _ H) as (N & d1 & E & L). subst d0. cbn [det_new labels dcoords].
  split; [congruence|]. unfold det_init in H. apply bind_ok in H as (fr & _ & H). destruct (negb (nodupb ls)); [discriminate|].
  match type of H with (if negb ?b then _ else _) = _ => destruct b eqn:B; cbn [negb] in H; [|discriminate] end.
  destruct (negb _); [discriminate|]. assert (E := f_equal (fun r => match r with Ok d => dcoords d | _ => [] end) H). cbn in E. rewrite <- E, L.
  unfold set_eq in B. apply andb_prop in B as [_ B]. now apply subset_spec in B.
Qed.
