(** Following the noise model and the detectors through a memory experiment. *)
From Coq Require Import QArith Qcanon.
From Verif Require Import Base Lib StimM SetupM NoiseM SpecNoise NoiseP LayoutM DetM SpecDet DetP DetCountP DetDetP
  BlockM ExpM SpecTrack SpecExp TrackP LiftP ExpDetP ExpP.
Open Scope Z_scope.

(** * The detectors *)
(* [d] differs from [d0] by n rounds with the ancillas [ancs] active since the first *)
Record dst (d0 : detectors) (ancs : list string) (n : nat) (d : detectors) : Prop := {
  ds_wf : wf_det d;
  ds_same : same d0 d;
  ds_gens : prev_gen d = curr_gen d;
  ds_act : forall a, dget a (active d) = Some true <-> In a ancs;
  ds_num : forall a, In a ancs -> dget a (num_rounds d) = Some (Z.of_nat n);
  ds_total : total d = Z.of_nat n;
  ds_nodup : NoDup ancs;
  ds_known : incl ancs (labels d) }.
Lemma det_of_same d0 d a t i : same d0 d -> det_of d a t i <-> det_of d0 a t i.
Proof. intros (_ & _ & E). unfold det_of. now rewrite E. Qed.
Lemma same_trans a b c : same a b -> same b c -> same a c.
Proof. unfold same. intuition congruence. Qed.

Lemma dst_start d0 ancs d1 u : NoDup (labels d0) -> activate ancs (det_new d0) = (d1, Ok u) -> dst d0 ancs 0 d1.
Proof.
  intros N H. pose proof (keeps_activate _ _ _ _ H (det_new_wf _ N)) as [W S].
  unfold activate in H. destruct (strict_superset _ _); [discriminate|]. destruct u. apply activate_iter in H as (Na & Hf & Ht & Hp & Hc & Ha).
  assert (K : incl ancs (labels d0)).
  { intros a Hi. specialize (Hf a Hi). unfold act in Hf. apply dget_Some_key in Hf. cbn [det_new active] in Hf.
    unfold dkeys in Hf. rewrite map_map in Hf. cbn in Hf. rewrite map_id in Hf. now rewrite dedup_In in Hf. }
  destruct S as (S1 & S2 & S3). cbn [det_new labels dfr dcoords] in *. constructor; auto.
  - unfold same. auto.
  - now rewrite Hp, Hc.
  - intros a. destruct (Ha a) as [A B]. destruct (in_dec string_dec a ancs) as [I|I].
    + destruct (A I) as [A1 _]. tauto.
    + destruct (B I) as [B1 _]. unfold act in B1. rewrite B1. split; [|tauto]. intros E. exfalso.
      destruct (in_dec string_dec a (labels d0)) as [L|L].
      * destruct (det_new_counters d0 a N L) as [E' _]. unfold act in E'. congruence.
      * apply L. apply dget_Some_key in E. cbn [det_new active] in E. unfold dkeys in E. rewrite map_map in E. cbn in E. rewrite map_id in E. now rewrite dedup_In in E.
  - intros a I. destruct (Ha a) as [A _]. now destruct (A I).
  - rewrite S1. exact K.
Qed.
Lemma dst_round d0 ancs n d d' g reset req c : dst d0 ancs n d -> build_from_anc g reset req d = (d', Ok c) ->
  dst d0 ancs (S n) d'.
Proof.
  intros [W S0 G A N T Nd K] H. pose proof (keeps_build_from_anc _ _ _ _ _ _ H W) as [W' S'].
  destruct (anc_content _ _ _ _ _ _ W G H) as [(nr & E & ->) _]. constructor; auto.
  - intros a Ha. cbn [set_gens set_rounds num_rounds]. rewrite (DetDetP.next_rounds_get d nr a (Z.of_nat n) true W E); auto; [f_equal; lia|]. now apply A.
  - cbn [set_gens set_rounds total]. lia.
Qed.

(** * The detectors after a round *)
Definition form_round (reset : bool) (n : nat) (a : string) : string -> nat -> bool := fun q j =>
  eqb a q && (Nat.eqb j 1 || (Nat.leb (if reset then 2 else 3) n && Nat.eqb j (if reset then 2 else 3)))%nat.
Definition form_data (reset : bool) (n : nat) (sup : list string) (a : string) : string -> nat -> bool := fun q j =>
  xorb (Nat.odd (count q sup) && Nat.eqb j 1)
    (eqb a q && ((Nat.leb 1 n && Nat.eqb j 1) || (negb reset && Nat.leb 2 n && Nat.eqb j 2)))%nat.
Definition form_obs (qs : list string) : string -> nat -> bool := fun q j => Nat.odd (count q qs) && Nat.eqb j 1%nat.

Section Forms.
  Context (qi : dict string Z) (m : model) (L : list (gate string)) (c : circuit).
  Hypothesis T : tracked qi m L c.
  Lemma refers_at q j k : (1 <= j)%nat -> (1 <= k)%nat -> refers m k q (- Z.of_nat j) = jth (mlab L) q j k.
  Proof.
    intros Hj Hk. destruct T as [W Q I K R M]. eapply refers_jth; eauto. now apply tracked_at with (m := m); constructor.
  Qed.
  Lemma round_form_sel reset n a k : (1 <= k)%nat ->
    round_form reset (Z.of_nat n) a (refers m k) = selT (mlab L) (form_round reset n a) k.
  Proof.
    intros Hk. unfold round_form. change (-1) with (- Z.of_nat 1). rewrite refers_at by lia.
    replace (if reset then -2 else -3) with (- Z.of_nat (if reset then 2 else 3)%nat) by (now destruct reset).
    rewrite refers_at by (destruct reset; lia).
    set (J := (if reset then 2 else 3)%nat). replace ((if reset then 2 else 3) <=? Z.of_nat n) with (Nat.leb J n).
    2:{ unfold J. destruct reset; [destruct (Nat.leb_spec 2 n), (Z.leb_spec 2 (Z.of_nat n)); lia|destruct (Nat.leb_spec 3 n), (Z.leb_spec 3 (Z.of_nat n)); lia]. }
    rewrite !jth_selT by (unfold J; destruct reset; lia).
    transitivity (xorb (selT (mlab L) (fun x j' => eqb a x && Nat.eqb j' 1) k)
                       (selT (mlab L) (fun x j' => Nat.leb J n && (eqb a x && Nat.eqb j' J)) k)).
    { f_equal. destruct (Nat.leb J n); [reflexivity|]. cbn [andb]. now rewrite selT_false. }
    rewrite selT_xor. apply selT_ext; [exact Hk|]. intros q j _ _. unfold form_round. fold J. destruct (eqb a q); [|cbn; now rewrite andb_false_r].
    cbn [andb]. destruct (Nat.eqb_spec j 1) as [->|]; [|cbn [orb]; now rewrite xorb_false_l].
    replace (Nat.eqb 1 J) with false by (unfold J; now destruct reset). now rewrite !andb_false_r.
  Qed.
  Lemma xorl_jth qs k : (1 <= k)%nat ->
    xorl (map (fun q => refers m k q (-1)) qs) = selT (mlab L) (form_obs qs) k.
  Proof.
    intros Hk. induction qs as [|x qs IH].
    - cbn [map]. rewrite (selT_ext _ _ (fun _ _ => false)) by auto. now rewrite selT_false.
    - cbn [map]. unfold xorl in *. cbn [fold_right]. rewrite IH. change (-1) with (- Z.of_nat 1). rewrite refers_at by lia.
      rewrite jth_selT by lia. rewrite selT_xor. apply selT_ext; [exact Hk|]. intros q j _ _. unfold form_obs. cbn [count].
      destruct (eqb_spec q x) as [->|Ne].
      + rewrite eqb_refl. cbn [andb]. replace (1 + count x qs)%nat with (S (count x qs)) by lia. rewrite Nat.odd_succ, <- Nat.negb_odd.
        destruct (Nat.odd (count x qs)), (Nat.eqb j 1); reflexivity.
      + rewrite (proj2 (eqb_neq x q)) by congruence. cbn [andb Nat.add]. now rewrite xorb_false_l.
  Qed.
  Lemma data_form_sel reset n sup a k : (1 <= k)%nat ->
    data_form reset (Z.of_nat n) sup a (refers m k) = selT (mlab L) (form_data reset n sup a) k.
  Proof.
    intros Hk. unfold data_form. rewrite xorl_jth by exact Hk. change (-1) with (- Z.of_nat 1). change (-2) with (- Z.of_nat 2).
    rewrite !refers_at by lia. rewrite !jth_selT by lia.
    replace (1 <=? Z.of_nat n) with (Nat.leb 1 n) by (destruct (Nat.leb_spec 1 n), (Z.leb_spec 1 (Z.of_nat n)); lia).
    replace (2 <=? Z.of_nat n) with (Nat.leb 2 n) by (destruct (Nat.leb_spec 2 n), (Z.leb_spec 2 (Z.of_nat n)); lia).
    transitivity (xorb (selT (mlab L) (form_obs sup) k) (xorb
      (selT (mlab L) (fun x j' => Nat.leb 1 n && (eqb a x && Nat.eqb j' 1)) k)
      (selT (mlab L) (fun x j' => (negb reset && Nat.leb 2 n) && (eqb a x && Nat.eqb j' 2)) k))).
    { f_equal. f_equal; [destruct (Nat.leb 1 n)|destruct (negb reset && Nat.leb 2 n)]; try reflexivity; cbn [andb]; now rewrite selT_false. }
    rewrite !selT_xor. apply selT_ext; [exact Hk|]. intros q j _ _. unfold form_data, form_obs. f_equal.
    destruct (eqb a q); [|now rewrite !andb_false_r]. cbn [andb].
    destruct (Nat.eqb_spec j 1) as [->|].
    - cbn [Nat.eqb]. now rewrite !andb_true_r, !andb_false_r, xorb_false_r, orb_false_r.
    - now rewrite !andb_false_r, xorb_false_l.
  Qed.
End Forms.

(* what a QEC round adds *)
Record round_out (d0 : detectors) (qi : dict string Z) (ancs : list string) (reset : bool) (n : nat) (ds : list string)
    (L : list (gate string)) (c0 c : circuit) (w' : world) : Prop := {
  rt_dst : dst d0 ancs (S n) (snd w');
  rt_split : exists cb cd ls, c = cb ++ cd /\ tracked qi (fst w') L (c0 ++ cb) /\ tracked qi (fst w') L (c0 ++ c) /\
    Forall (fun i => ~ is_check i) cb /\ annotations cd /\ Permutation ls (labels d0) /\
    Forall2 (fun a i => det_of d0 a (zq (Z.of_nat n)) i /\
      Forall (fun t => exists q z, meas_target (fst w') q z = Ok t) (tg i) /\
      (In a ds /\ In a ancs \/ tg i = []) /\
      (In a ds -> In a ancs -> forall k, (1 <= k)%nat -> lists i k = selT (mlab L) (form_round reset (S n) a) k)) ls cd }.
Lemma build_out d0 qi ancs n m d d' reset ds L c0 cb cd : tracked qi m L (c0 ++ cb) -> dst d0 ancs n d ->
  Forall (fun i => ~ is_check i) cb ->
  build_from_anc (meas_target m) reset (Some ds) d = (d', Ok cd) ->
  round_out d0 qi ancs reset n ds L c0 (cb ++ cd) (m, d').
Proof.
  intros T D N H. constructor; [eapply dst_round; eauto|]. pose proof (build_anc_ann _ _ _ _ _ _ H) as A.
  destruct D as [W Sm G Ac Nu To Nd K].
  destruct (anc_content _ _ _ _ _ _ W G H) as (_ & ls & P & F). exists cb, cd, ls. split; [reflexivity|]. split; [exact T|].
  split; [rewrite app_assoc; now apply tracked_ann|]. split; [exact N|]. split; [exact A|]. split; [rewrite <- (proj1 Sm); exact P|].
  eapply Forall2_impl'; [|exact F]. intros a i (F1 & F2 & F3 & F4). split; [|split; [exact F2|split]].
  - apply (det_of_same d0 d _ _ _ Sm). now rewrite <- To.
  - destruct F3 as [[F3 F5]|F3]; [left; split; [exact F3|now apply Ac]|now right].
  - intros Hd Ha k Hk. rewrite lists_parity.
    rewrite (F4 Hd (proj2 (Ac a) Ha) (Z.of_nat n) _ (refers m k) (Nu a Ha) (refers_reads m k)).
    replace (Z.of_nat n + 1) with (Z.of_nat (S n)) by lia. eapply round_form_sel; eauto.
Qed.

Lemma qec_round_out d0 qi ancs n it l reset ds w w' L c0 c :
  tracked qi (fst w) L c0 -> dst d0 ancs n (snd w) -> ok_blocks (it l reset) ->
  qec_round it l reset (Some ds) w = (w', Ok c) ->
  round_out d0 qi ancs reset n ds (L ++ lg_blocks (it l reset)) c0 c w'.
Proof.
  intros T D O H. unfold qec_round in H. apply sbind_ok in H as (w1 & cb & H1 & H). apply onm_ok in H1 as (m1 & H1 & ->).
  apply sbind_ok in H as (w2 & anc & H2 & H). unfold slift in H2. destruct (get_role l "anc"); [|discriminate]. injection H2 as <- ->.
  destruct (strict_superset _ _); [discriminate|]. apply sbind_ok in H as (w3 & cd & H3 & H). apply ond_ok in H3 as (d3 & H3 & ->).
  injection H as <- <-. cbn [odef fst snd] in *. destruct (tracked_blocks _ _ _ _ _ _ _ T H1 O) as [T1 N1].
  eapply build_out; eauto.
Qed.
Lemma google_round_out d0 qi ancs n ord l ds w w' L c0 c :
  tracked qi (fst w) L c0 -> dst d0 ancs n (snd w) -> ok_blocks (google_round ord l) ->
  google_qec_round ord l (Some ds) w = (w', Ok c) ->
  round_out d0 qi ancs true n ds (L ++ lg_blocks (google_round ord l)) c0 c w'.
Proof.
  intros T D O H. unfold google_qec_round in H. apply sbind_ok in H as (w1 & cb & H1 & H). apply onm_ok in H1 as (m1 & H1 & ->).
  apply sbind_ok in H as (w3 & cd & H3 & H). apply ond_ok in H3 as (d3 & H3 & ->).
  injection H as <- <-. destruct (tracked_blocks _ _ _ _ _ _ _ T H1 O) as [T1 N1]. eapply build_out; eauto.
Qed.

(* what the end of a logical measurement adds *)
Record meas_out (d0 : detectors) (qi : dict string Z) (ancs : list string) (l : layout) (rot reset : bool) (n : nat) (ds : list string)
    (L : list (gate string)) (m : model) (c0 c : circuit) : Prop := {
  mo_split : exists stabs sup lq qs cd o ls, c = cd ++ [o] /\ tracked qi m L (c0 ++ c) /\ annotations c /\
    get_stabs l (if rot then "x_type" else "z_type") = Ok stabs /\ support_from_adj l stabs = Ok sup /\
    nth_error (l_logs l) 0 = Some lq /\ dget lq (if rot then l_logx l else l_logz l) = Some qs /\
    nm o = OBSERVABLE_INCLUDE /\ ar o = [ANum (zq 0)] /\
    Forall (fun t => exists q z, meas_target m q z = Ok t) (tg o) /\
    (forall k, (1 <= k)%nat -> lists o k = selT (mlab L) (form_obs qs) k) /\
    Permutation ls (filter (fun a => mem a stabs) (labels d0)) /\
    Forall2 (fun a i => det_of d0 a (zq (Z.of_nat n) - Q2Qc (1#2))%Qc i /\
      Forall (fun t => exists q z, meas_target m q z = Ok t) (tg i) /\
      (In a ds /\ In a ancs \/ tg i = []) /\
      (In a ds -> In a ancs -> exists s, dget a sup = Some s /\
        forall k, (1 <= k)%nat -> lists i k = selT (mlab L) (form_data reset n s a) k)) ls cd }.
Lemma append_obs c o : Forall (fun i => nm i = DETECTOR) c -> nm o = OBSERVABLE_INCLUDE -> append c o = c ++ [o].
Proof.
  intros F E. induction F as [|i c Hi F IH]; [reflexivity|]. destruct c as [|j c].
  - cbn [append]. now rewrite Hi, E.
  - change (append (i :: j :: c) o) with (i :: append (j :: c) o). now rewrite IH.
Qed.
Lemma log_meas_out d0 qi ancs n l rot reset ds w w' L c0 c :
  tracked qi (fst w) L c0 -> dst d0 ancs n (snd w) ->
  log_meas_end l rot reset ds w = (w', Ok c) ->
  meas_out d0 qi ancs l rot reset n ds L (fst w) c0 c.
Proof.
  intros T [W Sm G Ac Nu To Nd K] H. unfold log_meas_end in H.
  apply sbind_ok in H as (w1 & stabs & H1 & H). unfold slift in H1. injection H1 as <- H1.
  apply sbind_ok in H as (w2 & sup & H2 & H). unfold slift in H2. injection H2 as <- H2.
  apply sbind_ok in H as (w3 & cd & H3 & H). apply ond_ok in H3 as (d3 & H3 & ->).
  apply sbind_ok in H as (w4 & o & H4 & H). apply onm_ok in H4 as (m4 & H4 & ->). cbn [fst snd] in *. unfold sread in H4. injection H4 as <- H4.
  apply sbind_ok in H as (w5 & anc & H5 & H). apply sbind_ok in H as (w6 & u & H6 & H). injection H as <- <-. clear H5 H6.
  destruct (data_content _ _ _ _ _ _ _ _ W G H3) as (_ & ls & P & F).
  assert (FD : Forall (fun i => nm i = DETECTOR) cd).
  { clear -F. induction F as [|a i ls cd ((xs & _ & E & _) & _) _ IH]; constructor; auto. }
  assert (An : annotations cd) by (eapply Forall_impl; [|exact FD]; intros i ->; reflexivity).
  unfold observable in H4. apply bind_ok in H4 as (lq & E1 & H4). apply bind_ok in H4 as (qs & E2 & H4). apply bind_ok in H4 as (ts & E3 & H4).
  unfold StimM.mk in H4. match type of H4 with (if ?b then _ else _) = _ => destruct b end; [|discriminate]. injection H4 as <-.
  constructor. exists stabs, sup, lq, qs, cd, (Instr OBSERVABLE_INCLUDE ts [ANum (zq 0)]), ls.
  rewrite append_obs by auto. split; [reflexivity|].
  assert (An' : annotations (cd ++ [Instr OBSERVABLE_INCLUDE ts [ANum (zq 0)]])) by (apply Forall_app; split; [exact An|repeat constructor]).
  split; [now apply tracked_ann|]. split; [exact An'|]. split; [exact H1|]. split; [exact H2|].
  unfold first_log in E1. split; [destruct (nth_error (l_logs l) 0); simpl in E1; congruence|].
  unfold dget_err in E2. split; [destruct (dget lq _); simpl in E2; congruence|]. split; [reflexivity|]. split; [reflexivity|].
  apply mapM_Forall2 in E3. split.
  { cbn [tg]. clear -E3. induction E3; constructor; eauto. }
  split.
  { intros k Hk. rewrite lists_parity, <- (xorl_jth _ _ _ _ T) by exact Hk. unfold parity. cbn [tg]. clear -E3.
    induction E3 as [|q t qs ts E _ IH]; [reflexivity|]. unfold xorl in *. cbn [map fold_right]. rewrite IH. f_equal. unfold refers. now rewrite E. }
  split; [rewrite <- (proj1 Sm); exact P|].
  eapply Forall2_impl'; [|exact F]. intros a i (F1 & F2 & F3 & F4). split; [|split; [exact F2|split]].
  - apply (det_of_same d0 (snd w) _ _ _ Sm). now rewrite <- To.
  - destruct F3 as [[F3 F5]|F3]; [left; split; [exact F3|now apply Ac]|now right].
  - intros Hd Ha. destruct (F4 Hd (proj2 (Ac a) Ha)) as (s & Es & F5). exists s. split; [exact Es|]. intros k Hk. rewrite lists_parity.
    rewrite (F5 (Z.of_nat n) _ (refers (fst w) k) (Nu a Ha) (refers_reads (fst w) k)). eapply data_form_sel; eauto.
Qed.
