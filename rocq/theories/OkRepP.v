(** The detectors of an experiment whose logical gates only touch its own ancillas are
    built without an exception. *)
From Coq Require Import QArith Qcanon.
From Verif Require Import Base Lib StimM MatM MatP DetM SpecDet DetP DetCountP DetLinP DetDetP DetHistP DetPairP ExpDetP ExpP3 RepP3 SpecOk NoiseM LayoutM LayoutP BlockM TrackP OkP OkP2.
Open Scope Z_scope.

(** * Generators that do not leave the ancillas of the experiment *)
Definition inner (ls ancs : list string) (g : gen) : Prop := forall a j x, In a ls -> nth_error ls j = Some x ->
  (In a ancs -> gen_entry g a j = true -> In x ancs) /\ (~ In a ancs -> gen_entry g a j = eqb a x).

Lemma nth_mapseq {A} (f : nat -> A) n i d : (i < n)%nat -> nth i (map f (seq 0 n)) d = f i.
Proof. intros H. rewrite (nth_indep _ d (f 0%nat)) by (rewrite map_length, seq_length; lia). rewrite map_nth, seq_nth by lia. reflexivity. Qed.
Lemma unit_sum ls (r : list bool) k j : NoDup ls -> nth_error ls j = Some k ->
  qsum (map (fun i => q_of_bool (nth i r false) * q_of_bool (eqb (nth i ls ""%string) k))%Qc (seq 0 (length ls))) = q_of_bool (nth j r false).
Proof.
  intros N E. assert (L : (j < length ls)%nat) by (apply nth_error_Some; congruence).
  rewrite <- (qsum_single j (fun i => q_of_bool (nth i r false)) (seq 0 (length ls))); [|apply seq_NoDup|apply in_seq; lia].
  apply qsum_ext. intros i Hi. apply in_seq in Hi. destruct (nth_error ls i) as [b|] eqn:Eb; [|apply nth_error_None in Eb; lia].
  rewrite (nth_error_nth _ _ _ Eb). rewrite <- (index_label ls i b N Eb j k E). change (eqb i j) with (Nat.eqb i j). destruct (Nat.eqb i j); simpl; ring.
Qed.
Lemma col_out ls ancs basis col k j x : NoDup ls -> rows_ok ls basis -> invertible ls basis -> is_inv ls basis col -> inner ls ancs basis ->
  In k ls -> ~ In k ancs -> nth_error ls j = Some x -> nth j (col k) (Q2Qc 0) = q_of_bool (eqb x k).
Proof.
  intros N Rb Hi Hc In_ Hk Ho Ex. destruct (Hc k Hk) as [Lc Dc]. apply In_nth_error in Hk as [jk Ek].
  destruct (kernel_free_rows ls ls basis) as [KF SQ]; auto. destruct (nonsingular_rational _ SQ KF) as [X EX].
  set (y := map (fun i => (nth i (col k) (Q2Qc 0) - q_of_bool (eqb (nth i ls ""%string) k))%Qc) (seq 0 (length ls))).
  assert (Ly : length y = length ls) by (unfold y; now rewrite map_length, seq_length).
  assert (Y : y = repeat (Q2Qc 0) (length ls)).
  { pose proof (inverse_cols_kernel QF QF_laws _ _ (qmat_square _ SQ) EX y) as K. unfold qmat in K. rewrite !map_length in K. apply K; [exact Ly|].
    intros r Hr. rewrite map_map in Hr. apply in_map_iff in Hr as (a & <- & Ha). rewrite (dot_QF_sum _ _ (length ls)); auto.
    rewrite (qsum_ext _ (fun i => q_of_bool (nth i (rowg basis a) false) * nth i (col k) (Q2Qc 0) + (Q2Qc (-(1))) * (q_of_bool (nth i (rowg basis a) false) * q_of_bool (eqb (nth i ls ""%string) k)))%Qc).
    - rewrite qsum_add, qsum_mul. rewrite (unit_sum ls _ k jk N Ek), <- dot_QF_sum; auto. rewrite (Dc a Ha), <- gen_entry_rowg.
      assert (E : gen_entry basis a jk = eqb a k).
      { destruct (In_ a jk k Ha Ek) as [A B]. destruct (in_dec string_dec a ancs) as [I|I]; [|now apply B].
        destruct (gen_entry basis a jk); [exfalso; apply Ho; now apply A|]. destruct (eqb_spec a k) as [->|]; [contradiction|reflexivity]. }
      rewrite E. destruct (eqb a k); apply Qc_is_canon; reflexivity.
    - intros i Hi'. apply in_seq in Hi'. unfold y. rewrite nth_mapseq by lia. generalize (q_of_bool (nth i (rowg basis a) false)) (nth i (col k) (Q2Qc 0)) (q_of_bool (eqb (nth i ls ""%string) k)). clear. intros u v w.
      change (Q2Qc (-(1))) with (- (1))%Qc. ring. }
  assert (L : (j < length ls)%nat) by (apply nth_error_Some; congruence).
  apply (f_equal (fun l => nth j l (Q2Qc 0))) in Y. rewrite nth_repeat in Y. unfold y in Y.
  rewrite nth_mapseq in Y by lia. rewrite (nth_error_nth _ _ _ Ex) in Y. revert Y. generalize (nth j (col k) (Q2Qc 0)) (q_of_bool (eqb x k)). clear.
  intros u v H. replace u with ((u - v) + v)%Qc by ring. rewrite H. ring.
Qed.
(* an ancilla of the experiment never needs an outcome of another one *)
Lemma crow_inner ls ancs (curr : gen) basis col g a k t : NoDup ls -> Permutation (dkeys curr) ls -> rows_ok ls basis -> rows_ok ls g ->
  invertible ls basis -> is_inv ls basis col -> inner ls ancs basis -> inner ls ancs g -> In a ls -> In a ancs ->
  In t (select (dkeys curr) (nonzero (crow curr col g a)) k) -> In (fst t) ancs /\ snd t = k.
Proof.
  intros N Hp Rb Rg Hi Hc Ib Ig Ha Hin H. unfold crow in H. rewrite select_eq in H. apply in_map_iff in H as (b & <- & H). apply filter_In in H as [Hb H]. cbn [fst snd]. split; [|reflexivity].
  destruct (in_dec string_dec b ancs) as [I|I]; [exact I|exfalso]. apply (Permutation_in _ Hp) in Hb. pose proof (Hc b Hb) as [Lc _].
  destruct (In_nth_error _ _ Hb) as [jb Eb].
  assert (E : dot QF (map q_of_bool (rowg g a)) (col b) = q_of_bool (gen_entry g a jb)).
  { rewrite (dot_QF_sum _ _ (length ls)); auto. rewrite gen_entry_rowg, <- (unit_sum ls _ b jb N Eb). apply qsum_ext. intros i Hi'. apply in_seq in Hi'.
    destruct (nth_error ls i) as [x|] eqn:Ex; [|apply nth_error_None in Ex; lia]. rewrite (col_out ls ancs basis col b i x); auto. now rewrite (nth_error_nth _ _ _ Ex). }
  rewrite E in H. destruct (gen_entry g a jb) eqn:G; [apply I; now apply (Ig a jb b)|]. revert H. clear. vm_compute. discriminate.
Qed.
Lemma inner_targets ls ancs (curr prev basis : gen) col rc rp n a t : NoDup ls -> Permutation (dkeys curr) ls -> rows_ok ls basis -> rows_ok ls curr -> rows_ok ls prev ->
  invertible ls basis -> is_inv ls basis col -> inner ls ancs basis -> inner ls ancs curr -> inner ls ancs prev -> In a ls -> In a ancs ->
  In t (contributions curr prev col rc rp n a) -> In (fst t) ancs /\
  (snd t = -1 /\ In t (select (dkeys curr) (nonzero (crow curr col curr a)) (-1)) \/ 2 <= n /\ snd t = -2 \/ 3 <= n /\ snd t = -3).
Proof.
  intros Hn Hp Rb Rc Rp Hi Hc Ib Ic Ip Ha Hin H. unfold contributions in H. rewrite !in_app_iff in H.
  assert (Oc := fun k => crow_inner ls ancs curr basis col curr a k t Hn Hp Rb Rc Hi Hc Ib Ic Ha Hin).
  assert (Op := fun k => crow_inner ls ancs curr basis col prev a k t Hn Hp Rb Rp Hi Hc Ib Ip Ha Hin).
  destruct H as [H|[H|[H|H]]].
  - destruct (Oc _ H). split; [assumption|]. left. auto.
  - destruct (Z.leb_spec 2 n); [|destruct H]. destruct (Op _ H). split; [assumption|]. right. left. auto.
  - destruct (Z.leb_spec 2 n); [|rewrite andb_false_r in H; destruct H]. destruct rc; cbn in H; [destruct H|]. destruct (Oc _ H). split; [assumption|]. right. left. auto.
  - destruct (Z.leb_spec 3 n); [|rewrite andb_false_r in H; destruct H]. destruct rp; cbn in H; [destruct H|]. destruct (Op _ H). split; [assumption|]. right. right. auto.
Qed.

(** * States of the detectors *)
Record live (d0 : detectors) (ancs : list string) (n : nat) (d : detectors) : Prop := {
  lv_wf : wf_det d;
  lv_same : same d0 d;
  lv_inv : both_invertible d;
  lv_curr : inner (labels d) ancs (curr_gen d);
  lv_prev : inner (labels d) ancs (prev_gen d);
  lv_act : forall a, dget a (active d) = Some true <-> In a ancs;
  lv_num : forall a, In a ancs -> dget a (num_rounds d) = Some (Z.of_nat n);
  lv_nodup : NoDup ancs;
  lv_known : incl ancs (labels d);
  lv_coords : incl (labels d) (dkeys (dcoords d)) }.

Lemma inner_identity ls ancs : NoDup ls -> inner ls ancs (identity ls).
Proof.
  intros N a j x Ha Ex. pose proof (isgen_identity ls N a j x Ha Ex) as E. rewrite E. split; [|auto]. intros I H. destruct (eqb_spec a x) as [<-|]; [exact I|discriminate].
Qed.
Lemma live_start d0 ancs d1 : NoDup (labels d0) -> incl (labels d0) (dkeys (dcoords d0)) -> activate ancs (det_new d0) = (d1, Ok tt) -> live d0 ancs 0 d1.
Proof.
  intros N C H. pose proof H as H'. apply dst_start in H' as [W S G A Nu T Nd K]; [|exact N].
  unfold activate in H. destruct (strict_superset _ _); [discriminate|]. apply activate_iter in H as (_ & _ & _ & Hp & Hc & _).
  destruct S as (S1 & S2 & S3). assert (Ec : curr_gen d1 = identity (labels d1)) by (rewrite Hc, S1; reflexivity). assert (Ep : prev_gen d1 = identity (labels d1)) by (rewrite Hp, S1; reflexivity).
  pose proof (SpecDet.wf_nodup _ W). constructor; auto; rewrite ?Ec, ?Ep; auto using inner_identity.
  - unfold same. auto.
  - split; rewrite ?Ec, ?Ep; now apply identity_invertible.
  - rewrite S1, S3. exact C.
Qed.

Lemma live_gate d0 ancs n d nd : live d0 ancs n d -> (forall a l, In (a, l) nd -> In a ancs /\ incl l ancs) -> ~ singular_map (labels d) (DUpdD nd) ->
  exists d', update_from_dict nd d = (d', Ok tt) /\ live d0 ancs n d'.
Proof.
  intros [W S [I1 I2] C P A Nu Nd K Co] Hd Hs.
  assert (Kn : dict_known (labels d) nd) by (intros a l H; destruct (Hd a l H) as [X Y]; split; [auto|intros x Hx; auto]).
  destruct (proj2 (C11_iff_lemma nd d W Kn) Hs) as [d' E]. exists d'. split; [exact E|].
  pose proof (keeps_update_from_dict _ _ _ _ E W) as [W' S']. destruct (C11_ok_lemma _ _ _ W Kn E) as (Ep & Ea & En & Et & G).
  pose proof (proj1 S') as EL. constructor; auto.
  - eapply same_trans; eauto.
  - split; rewrite EL.
    + rewrite update_from_dict_known in E by exact Kn. eapply update_invertible; eauto.
    + now rewrite Ep.
  - intros a j x Ha Ex. rewrite EL in *. rewrite (G a j Ha). destruct (dget a nd) as [l|] eqn:Eg; [|now apply C].
    apply dget_In in Eg. destruct (Hd a l Eg) as [X Y]. split; [|contradiction]. intros _ H. apply xorl_true in H as (b & Hb & H).
    apply nodup_In in Hb. apply (C b j x); auto.
  - now rewrite Ep, EL.
  - now rewrite Ea.
  - now rewrite En.
  - now rewrite EL.
  - rewrite EL. destruct S' as (_ & _ & ->). exact Co.
Qed.

Lemma live_anc d0 ancs n d g reset ds : live d0 ancs n d -> incl ds ancs ->
  (forall a j, In a ancs -> (1 <= j <= S n)%nat -> exists t, g a (- Z.of_nat j) = Ok t) ->
  exists d' c, build_from_anc g reset (Some ds) d = (d', Ok c) /\ live d0 ancs (S n) d'.
Proof.
  intros D Hd G. pose proof (lv_wf _ _ _ _ D) as W. pose proof (SpecDet.wf_nodup _ W) as Hn.
  destruct (requested_total d ds W) as [ancs' Er]; [intros a Ha; apply (lv_known _ _ _ _ D); auto|].
  destruct (next_rounds_total d W) as (nr & En & Kn).
  enough (X : exists c, build_from_anc g reset (Some ds) d = (set_gens (curr_gen d) (curr_gen d) (set_rounds nr (total d + 1) d), Ok c)).
  { destruct X as (c & X). eexists _, c. split; [exact X|]. pose proof (keeps_build_from_anc _ _ _ _ _ _ X W) as [W' S'].
    destruct D as [_ S [I1 I2] C P A Nu Nd K Co]. constructor; auto.
    - split; exact I1.
    - intros a Ha. cbn [set_gens set_rounds num_rounds]. rewrite (DetDetP.next_rounds_get d nr a (Z.of_nat n) true W En); auto; [f_equal; lia|]. now apply A. }
  assert (Rq : forall a, In a ancs' -> In a ancs).
  { intros a Ha. apply (requested_ok _ _ _ Er) in Ha as [Ha _]. auto. }
  unfold build_from_anc. unfold sbind, sread, sret. rewrite Er, En. cbv beta iota zeta.
  set (d1 := set_rounds nr (total d + 1) d).
  match goal with |- exists c, match ?X with Ok a => _ | Err e => _ end = _ => assert (M : exists dets, X = Ok dets /\ forall x, In x dets -> In (fst x) (labels d) /\
    forall y, In (fst x) ancs -> In y (snd x) -> In (fst y) ancs /\ exists j, (1 <= j <= S n)%nat /\ snd y = - Z.of_nat j) end.
  { change (dfr d1) with (dfr d). change (curr_gen d1) with (curr_gen d). change (prev_gen d1) with (prev_gen d). change (labels d1) with (labels d).
    change (num_rounds d1) with nr.
    assert (Nr : forall a v, In a ancs -> dget a nr = Some v -> v = Z.of_nat (S n)).
    { intros a v Ha E. pose proof (DetDetP.next_rounds_get d nr a (Z.of_nat n) true W En (proj2 (lv_act _ _ _ _ D a) Ha) (lv_num _ _ _ _ D a Ha)) as E'. rewrite E in E'. injection E' as ->. lia. }
    assert (Gm : forall b, Permutation (dkeys b) (labels d) -> rows_ok (labels d) b -> invertible (labels d) b -> inner (labels d) ancs b ->
      exists dets, get_anc_meas (curr_gen d) (prev_gen d) b nr reset reset = Ok dets /\ forall x, In x dets -> In (fst x) (labels d) /\
      forall y, In (fst x) ancs -> In y (snd x) -> In (fst y) ancs /\ exists j, (1 <= j <= S n)%nat /\ snd y = - Z.of_nat j).
    { intros b Pb Rb Ib Nb. destruct (get_anc_meas_total (labels d) (curr_gen d) (prev_gen d) b nr reset reset) as [dets E]; auto using wf_curr, wf_prev.
      exists dets. split; [exact E|]. destruct (get_anc_meas_char (labels d) _ _ _ Hn (wf_curr _ W) Rb _ _ _ _ E) as (col & Hi & F).
      intros x Hx. destruct (Forall2_in_r _ _ _ x F Hx) as (a & Ha & v & Ev & ->). cbn [fst snd]. assert (Hl : In a (labels d)) by (eapply Permutation_in; [apply (wf_curr _ W)|exact Ha]). split; [exact Hl|].
      intros y Hy I. pose proof (Nr a v Hy Ev) as ->.
      apply (inner_targets (labels d) ancs _ _ b) in I; auto using wf_curr, rows_ok_curr, rows_ok_prev; try apply D.
      destruct I as [Iy I]. split; [exact Iy|]. destruct I as [[E1 _]|[[L E1]|[L E1]]]; [exists 1%nat|exists 2%nat|exists 3%nat]; (split; [lia|exact E1]). }
    destruct (dfr d); [apply Gm|apply Gm|]; try apply D; auto using wf_curr, wf_prev, rows_ok_curr, rows_ok_prev.
    destruct (mapM_total (fun a => do n0 <- dget_err a nr; Ok (a, (a, -1) :: (if 0 <=? (if reset then -2 else -3) + n0 then [(a, if reset then -2 else -3)] else []))) (labels d)) as [dets E].
    { intros a Ha. destruct (key_get a nr) as [v Ev]; [now rewrite Kn|]. unfold dget_err. rewrite Ev. cbn. eauto. }
    exists dets. split; [exact E|]. apply mapM_Forall2 in E. intros x Hx. destruct (Forall2_in_r _ _ _ x E Hx) as (a & Ha & Q).
    apply bind_ok in Q as (v & Ev & Q). injection Q as <-. cbn [fst snd]. split; [exact Ha|]. intros y Hy I.
    unfold dget_err in Ev. destruct (dget a nr) eqn:Eg; cbn in Ev; [|discriminate]. injection Ev as ->. pose proof (Nr a v Hy Eg) as ->.
    destruct I as [<-|I]; [split; [exact Hy|]; exists 1%nat; split; [lia|reflexivity]|].
    match type of I with In _ (if ?b then _ else _) => destruct b eqn:B end; [|destruct I]. destruct I as [<-|[]]. cbn [fst snd]. split; [exact Hy|].
    apply Z.leb_le in B. destruct reset; [exists 2%nat|exists 3%nat]; (split; [lia|reflexivity]). }
  destruct M as (dets & -> & M).
  match goal with |- exists c, match ?X with Ok a => _ | Err e => _ end = _ => assert (C : exists c, X = Ok c) end.
  { apply mapM_total. intros x Hx. destruct (M x Hx) as [M1 M2]. apply det_instr_total; [|apply (lv_coords _ _ _ _ D); exact M1]. intros Hm y Hy.
    destruct (M2 y (Rq _ Hm) Hy) as [Iy (j & Hj & ->)]. apply G; [exact Iy|exact Hj]. }
  destruct C as [c ->]. eauto.
Qed.

Lemma live_data d0 ancs n d g sup reset stabs ds : live d0 ancs n d -> incl ds ancs -> incl stabs ancs -> incl stabs (dkeys sup) ->
  (forall a j, In a ancs -> (1 <= j <= n)%nat -> exists t, g a (- Z.of_nat j) = Ok t) ->
  (forall a qs q, In a ancs -> dget a sup = Some qs -> In q qs -> exists t, g q (-1) = Ok t) ->
  exists c, build_from_data g sup reset stabs (Some ds) d = (set_gens (curr_gen d) (curr_gen d) d, Ok c).
Proof.
  intros D Hd Hs Hk G S. pose proof (lv_wf _ _ _ _ D) as W. pose proof (SpecDet.wf_nodup _ W) as Hn. pose proof (lv_coords _ _ _ _ D) as Dk.
  unfold build_from_data. rewrite not_superset by exact Hk.
  destruct (requested_total d ds W) as [ancs' Er]; [intros a Ha; apply (lv_known _ _ _ _ D); auto|].
  destruct (next_rounds_total d W) as (nr & En & Kn).
  unfold sbind, sread, sret, slift. rewrite Er, En. cbv beta iota zeta.
  assert (Nr : forall a v, In a ancs -> dget a nr = Some v -> v = Z.of_nat (Datatypes.S n)).
  { intros a v Ha E. pose proof (DetDetP.next_rounds_get d nr a (Z.of_nat n) true W En (proj2 (lv_act _ _ _ _ D a) Ha) (lv_num _ _ _ _ D a Ha)) as E'. rewrite E in E'. injection E' as ->. lia. }
  match goal with |- exists c, match ?X with Ok a => _ | Err e => _ end = _ => assert (M : exists dets, X = Ok dets /\ forall x, In x dets -> In (fst x) (labels d) /\
    forall y, In (fst x) ancs -> In y (snd x) -> In (fst y) ancs /\ (y = (fst x, -1) \/ exists j, (2 <= j <= Datatypes.S n)%nat /\ snd y = - Z.of_nat j)) end.
  { assert (Gm : exists dets, get_anc_meas (curr_gen d) (prev_gen d) (curr_gen d) nr true reset = Ok dets /\ forall x, In x dets -> In (fst x) (labels d) /\
      forall y, In (fst x) ancs -> In y (snd x) -> In (fst y) ancs /\ (y = (fst x, -1) \/ exists j, (2 <= j <= Datatypes.S n)%nat /\ snd y = - Z.of_nat j)).
    { destruct (get_anc_meas_total (labels d) (curr_gen d) (prev_gen d) (curr_gen d) nr true reset) as [dets E]; auto using wf_curr, wf_prev, rows_ok_curr; try apply D.
      exists dets. split; [exact E|]. destruct (get_anc_meas_char (labels d) _ _ _ Hn (wf_curr _ W) (rows_ok_curr d W) _ _ _ _ E) as (col & Hi & F).
      intros x Hx. destruct (Forall2_in_r _ _ _ x F Hx) as (a & Ha & v & Ev & ->). cbn [fst snd]. assert (Hl : In a (labels d)) by (eapply Permutation_in; [apply (wf_curr _ W)|exact Ha]). split; [exact Hl|].
      intros y Hy I. pose proof (Nr a v Hy Ev) as ->.
      apply (inner_targets (labels d) ancs _ _ (curr_gen d)) in I; auto using wf_curr, rows_ok_curr, rows_ok_prev; try apply D.
      destruct I as [Iy I]. split; [exact Iy|]. destruct I as [[_ E1]|[[L E1]|[L E1]]].
      - left. eapply crow_own; [exact Hn|apply (wf_curr _ W)|exact Hi|exact Hl|exact E1].
      - right. exists 2%nat. split; [lia|exact E1].
      - right. exists 3%nat. split; [lia|exact E1]. }
    destruct (dfr d); [exact Gm|exact Gm|]. clear Gm.
    match goal with |- exists dets, mapM ?f _ = _ /\ _ => destruct (mapM_total f (labels d)) as [dets E] end.
    { intros a Ha. destruct (key_get a nr) as [v Ev]; [now rewrite Kn|]. unfold dget_err. rewrite Ev. cbn. eauto. }
    exists dets. split; [exact E|]. apply mapM_Forall2 in E. intros x Hx. destruct (Forall2_in_r _ _ _ x E Hx) as (a & Ha & Q).
    apply bind_ok in Q as (v & Ev & Q). injection Q as <-. cbn [fst snd]. split; [exact Ha|]. intros y Hy I.
    unfold dget_err in Ev. destruct (dget a nr) eqn:Eg; cbn in Ev; [|discriminate]. injection Ev as ->. pose proof (Nr a v Hy Eg) as ->.
    destruct I as [<-|I]; [split; [exact Hy|]; now left|]. apply in_app_or in I as [I|I].
    - destruct (Z.ltb_spec 1 (Z.of_nat (Datatypes.S n))); [|destruct I]. destruct I as [<-|[]]. split; [exact Hy|]. right. exists 2%nat. split; [lia|reflexivity].
    - destruct (Z.ltb_spec 2 (Z.of_nat (Datatypes.S n))); [|rewrite andb_false_r in I; destruct I]. destruct reset; [destruct I|]. destruct I as [<-|[]].
      split; [exact Hy|]. right. exists 3%nat. split; [lia|reflexivity]. }
  destruct M as (dets & -> & M).
  match goal with |- exists c, match ?X with Ok a => _ | Err e => _ end = _ => assert (T : exists dets', X = Ok dets' /\
     forall x, In x dets' -> In (fst x) (labels d) /\ forall y, In (fst x) ancs -> In y (snd x) -> exists r, g (fst y) (snd y) = Ok r) end.
  { match goal with |- exists dets', mapM ?f ?l = _ /\ _ => assert (F : forall x, In x l -> exists y, f x = Ok y /\ In (fst y) (labels d) /\
        forall z, In (fst y) ancs -> In z (snd y) -> exists r, g (fst z) (snd z) = Ok r) end.
    { intros x Hx. apply filter_In in Hx as [Hx Hm]. apply mem_In in Hm. destruct (M x Hx) as [M1 M2].
      assert (P : exists l, to_data sup (snd x) = Ok l /\ forall z, In z l -> exists r, g (fst z) (snd z) = Ok r).
      { unfold to_data.
        match goal with |- exists l, (do _ <- mapM ?f _; _) = _ /\ _ => assert (Q : forall t, In t (snd x) -> exists l, f t = Ok l /\ forall z, In z l -> exists r, g (fst z) (snd z) = Ok r) end.
        { intros t Ht. destruct (M2 t (Hs _ Hm) Ht) as [E1 [->|(j & Hj & E2)]].
          - cbn [fst snd]. rewrite eqb_refl. destruct (key_get (fst x) sup) as [qs Eq]; [auto|]. unfold dget_err. rewrite Eq. cbn [of_opt bind]. eexists. split; [reflexivity|].
            intros z Hz. apply in_map_iff in Hz as (q & <- & Hq). cbn [fst snd]. eapply S; eauto.
          - destruct (eqb_spec (snd t) (-1)) as [E|E]; [lia|]. eexists. split; [reflexivity|]. intros z [<-|[]]. cbn [fst snd]. rewrite E2. replace (- Z.of_nat j + 1) with (- Z.of_nat (j - 1)) by lia. apply G; [auto|lia]. }
        destruct (mapM_total _ _ (fun t H => let '(ex_intro _ l (conj A _)) := Q t H in ex_intro _ l A)) as [ll E]. rewrite E. cbn [bind].
        eexists. split; [reflexivity|]. intros z Hz. apply in_concat in Hz as (l & Hl & Hz). apply mapM_Forall2 in E. destruct (Forall2_in_r _ _ _ l E Hl) as (t & Ht & Et).
        destruct (Q t Ht) as (l' & E' & Q'). rewrite Et in E'. injection E' as <-. auto. }
      destruct P as (l & -> & P). cbn [bind]. eexists. split; [reflexivity|]. cbn [fst snd]. split; [exact M1|]. auto. }
    destruct (mapM_total _ _ (fun t H => let '(ex_intro _ l (conj A _)) := F t H in ex_intro _ l A)) as [ll E]. exists ll. split; [exact E|].
    intros x Hx. apply mapM_Forall2 in E. destruct (Forall2_in_r _ _ _ x E Hx) as (t & Ht & Et). destruct (F t Ht) as (y & E' & F'). rewrite Et in E'. injection E' as <-. exact F'. }
  destruct T as (dets' & -> & T).
  match goal with |- exists c, match ?X with Ok a => _ | Err e => _ end = _ => assert (C : exists c, X = Ok c) end.
  { apply mapM_total. intros x Hx. destruct (T x Hx) as [M1 M2]. apply det_instr_total; [|apply Dk; exact M1]. intros Hm y Hy.
    apply M2; [|exact Hy]. apply (requested_ok _ _ _ Er) in Hm as [Hm _]. auto. }
  destruct C as [c ->]. eauto.
Qed.
Lemma live_after d0 ancs n d : live d0 ancs n d -> live d0 ancs n (set_gens (curr_gen d) (curr_gen d) d).
Proof. intros [W S [I1 I2] C P A Nu Nd K Co]. constructor; auto; [destruct W; constructor; auto|split; exact I1]. Qed.
Lemma live_deactivate d0 ancs n d : live d0 ancs n d -> exists d', deactivate ancs d = (d', Ok tt).
Proof.
  intros D. unfold deactivate. rewrite not_superset by (rewrite (wf_active _ (lv_wf _ _ _ _ D)); apply (lv_known _ _ _ _ D)).
  assert (X : forall l d, NoDup l -> (forall a, In a l -> dget a (active d) = Some true) -> exists d1, siter deactivate_one l d = (d1, Ok tt)).
  { induction l as [|a l IH]; intros e Hl H; [exists e; reflexivity|]. inversion Hl; subst. cbn [siter]. unfold deactivate_one, sbind at 1.
    rewrite (H a (or_introl eq_refl)). cbv zeta. apply IH; [assumption|]. intros b Hb. cbn [set_gens set_active active]. rewrite dget_dset.
    destruct (eqb_spec a b); [congruence|]. apply H. now right. }
  apply X; [apply (lv_nodup _ _ _ _ D)|]. intros a Ha. now apply (lv_act _ _ _ _ D).
Qed.
