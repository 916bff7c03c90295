(** Repeated CNOT experiments on any layouts: order of the parts, number of checks. *)
From Coq Require Import QArith Qcanon.
From Verif Require Import Base Lib StimM SetupM NoiseM SpecNoise NoiseP LayoutM LayoutP DetM SpecDet DetP DetCountP
  BlockM LogM ExpM MergeM SpecLog SpecTrack SpecExp SpecMerge TrackP LiftP MergeP MergeP3 MergeP4 MergeP6 GeomP ExpP ExpP3 ExpP4 ExpP6 RepP6 LogP13 CnotP2 CnotP3 CnotP5 CnotP7.
Open Scope Z_scope.

Lemma nochecks_none c : Forall (fun i => ~ is_check i) c -> number DETECTOR c = 0%nat /\ number OBSERVABLE_INCLUDE c = 0%nat.
Proof. intros H. apply checkless_none. eapply Forall_impl; [|exact H]. auto. Qed.
(** * A merged round and a merged measurement, any number of layouts *)
Lemma merged_round_counts fuse it ls reset dets w w' c : wf_det (snd w) -> merge_qec_rounds fuse it ls reset dets w = (w', Ok c) ->
  number DETECTOR c = length (labels (snd w)) /\ number OBSERVABLE_INCLUDE c = 0%nat /\ wf_det (snd w') /\ same (snd w) (snd w').
Proof.
  intros W H. unfold merge_qec_rounds in H. apply sbind_ok in H as (w1 & ok & H1 & H). unfold slift in H1. injection H1 as <- _. destruct (negb ok); [discriminate|].
  apply sbind_ok in H as (w2 & c1 & H1 & H). apply onm_ok in H1 as (m1 & H1 & ->). apply sbind_ok in H as (w3 & d & H2 & H). apply ond_ok in H2 as (d3 & H2 & ->).
  apply sret_ok in H as [-> <-]. cbn [fst snd] in *. apply merged_okc, okc_nocheck, nochecks_none in H1 as [N1 N2].
  destruct (C04_anc_lemma _ _ _ _ _ _ W H2) as (ls' & P & F). rewrite (cat_dets fuse _ _ (names_of_dets _ _ _ _ _ _ F)).
  apply dets_count in F as [F1 F2]; [|intros a i ((xs & _ & E & _) & _); exact E].
  rewrite !number_app, N1, N2, F1, F2, (Permutation_length P). pose proof (keeps_build_from_anc _ _ _ _ _ _ H2 W) as [W' S']. auto.
Qed.
Lemma obs_number m lrs : forall n oss, Forall2 (fun klr os => layout_observables m (fst klr) (snd klr) = Ok os) (enumerate_from n lrs) oss ->
  length (concat oss) = length (flat_map (fun lr => l_logs (fst lr)) lrs).
Proof.
  induction lrs as [|[l r] lrs IH]; intros n oss H; cbn in H; inversion H as [|? os ? oss' H1 H2]; subst; [reflexivity|]. cbn [fst snd] in H1.
  cbn [concat flat_map fst]. rewrite !app_length, (IH _ _ H2). apply layout_obs in H1 as (_ & H1 & _). apply (f_equal (@length _)) in H1.
  rewrite !map_length, seq_length in H1. now rewrite H1.
Qed.
Lemma merged_meas_counts fuse it ls rots reset dets w w' c : wf_det (snd w) -> merge_log_meas fuse it ls rots reset dets w = (w', Ok c) ->
  exists stabs sup, all_stabs (combine ls rots) = Ok (stabs, sup) /\
    number DETECTOR c = length (filter (fun a => mem a stabs) (labels (snd w))) /\ number OBSERVABLE_INCLUDE c = length (flat_map l_logs ls).
Proof.
  intros W H. unfold merge_log_meas in H. destruct (Nat.eqb_spec (length rots) (length ls)) as [L|]; [|discriminate]. cbn [negb] in H.
  apply sbind_ok in H as (w1 & ok & H1 & H). unfold slift in H1. injection H1 as <- _.
  destruct (negb ok); [discriminate|]. apply sbind_ok in H as (w2 & c1 & H1 & H). apply onm_ok in H1 as (m1 & H1 & ->).
  apply sbind_ok in H as (w4 & [st su] & H3 & H). unfold slift in H3. injection H3 as <- H3.
  apply sbind_ok in H as (w3 & d & H2 & H). apply ond_ok in H2 as (d3 & H2 & ->).
  apply sbind_ok in H as (w5 & os & H4 & H). apply onm_ok in H4 as (m5 & H4 & ->). apply sread_ok in H4 as [-> H4].
  apply sret_ok in H as [-> <-]. cbn [fst snd] in *. exists st, su. split; [exact H3|].
  unfold all_observables in H4. apply bind_ok in H4 as (oss & H4 & E). assert (os = concat oss) as -> by congruence. apply mapM_Forall2 in H4.
  assert (F : Forall (fun i => nm i = OBSERVABLE_INCLUDE) (concat oss)).
  { clear - H4. induction H4 as [|[k [l r]] o lrs oss H _ IH]; [constructor|]. cbn. apply Forall_app. split; [|exact IH]. cbn [fst snd] in H. now apply layout_obs in H. }
  rewrite (appends_obs _ _ F). apply obs_number in H4.
  assert (Ef : flat_map (fun lr => l_logs (fst lr)) (combine ls rots) = flat_map l_logs ls).
  { clear -L. revert rots L. induction ls as [|l ls IH]; intros [|r rots] L; try discriminate; [reflexivity|]. cbn. rewrite IH; [reflexivity|]. now injection L. }
  rewrite Ef in H4. apply merged_okc, okc_nocheck, nochecks_none in H1 as [N1 N2].
  destruct (C04_data_lemma _ _ _ _ _ _ _ _ W H2) as (ls' & P & F'). rewrite (cat_dets fuse _ _ (names_of_dets _ _ _ _ _ _ F')).
  apply dets_count in F' as [F1 F2]; [|intros a i ((xs & _ & E' & _) & _); exact E'].
  rewrite !number_app, N1, N2, F1, F2, (Permutation_length P), (number_all OBSERVABLE_INCLUDE _ F), H4.
  rewrite (number_zero DETECTOR (concat oss)); [split; lia|]. eapply Forall_impl; [|exact F]. intros i ->. discriminate.
Qed.

Section Any.
  Context (fuse : bool) (show : arg -> arg).
  Context (ordt : nat -> nat -> list string -> list string) (ordp : nat -> nat -> list (string * string) -> list (string * string)).
  Context (it : (nat -> list string -> list string) -> layout -> bool -> blocks).
  (** * The order *)
  Definition merged_round (ds : list string) (reset : bool) (ls : list layout) (r : circuit) : Prop := exists o w1 w2,
    merge_qec_rounds fuse (fun p => it (ordt (o + p)%nat)) ls reset (Some ds) w1 = (w2, Ok r).
  Lemma cnot_loop_parts ds reset alt n : forall count k lc lt acc w w' c lc' lt',
    cnot_loop ordt ordp (fun j lc lt => merge_qec_rounds fuse (fun p => it (ordt (3 + 2 * j + p)%nat)) [lc; lt] reset (Some ds)) alt n count k lc lt acc w = (w', Ok (c, lc', lt')) ->
    exists parts : list (circuit * list circuit),
      length parts = count /\ c = acc ++ concat (map (fun p => fst p ++ concat (snd p)) parts) /\
      (forall i g rs, nth_error parts i = Some (g, rs) ->
        let (x, y) := swap (alt && odds k (S i)) (lc, lt) in
        (exists o w1 w2, log_trans_cnot (ordt o) (ordp o) x y w1 = (w2, Ok g)) /\ length rs = n /\ forall r, In r rs -> merged_round ds reset [x; y] r) /\
      (lc', lt') = swap (alt && odds k count) (lc, lt).
  Proof.
    induction count as [|count IH]; intros k lc lt acc w w' c lc' lt' H; cbn [cnot_loop] in H.
    - injection H as _ <- <- <-. exists []. cbn [length map concat odds]. rewrite andb_false_r, app_nil_r. split; [reflexivity|]. split; [reflexivity|].
      split; [|reflexivity]. intros [|i] g r E; discriminate.
    - destruct (if alt && Nat.odd k then (lt, lc) else (lc, lt)) as [x y] eqn:Exy.
      assert (Es : (x, y) = swap (alt && Nat.odd k) (lc, lt)) by (rewrite <- Exy; reflexivity).
      apply sbind_ok in H as (w1 & g & Hg & H). apply sbind_ok in H as (w2 & r & Hr & H).
      apply IH in H as (parts & Ln & Ec & Hp & El). clear IH.
      assert (Q : exists rs, r = concat rs /\ length rs = n /\ forall c, In c rs -> merged_round ds reset [x; y] c).
      { refine (sfold_seq _ (fun k z v => exists rs, z = concat rs /\ length rs = k /\ forall c, In c rs -> merged_round ds reset [x; y] c) n 0 _ [] w1 w2 r _ Hr); [|now exists []].
        intros i b v v' b' _ (rs & -> & Lr & Gr) Hk. apply sbind_ok in Hk as (v1 & cr & H1 & Hk). injection Hk as <- <-. exists (rs ++ [cr]).
        split; [now rewrite concat_app; cbn [concat]; rewrite app_nil_r|]. split; [rewrite app_length, Lr; cbn; lia|].
        intros c0 Hc. apply in_app_or in Hc as [Hc|[<-|[]]]; [now apply Gr|]. eexists _, v, v1. exact H1. }
      destruct Q as (rs & -> & Lr & Gr). exists ((g, rs) :: parts). split; [cbn; congruence|]. split; [cbn [map concat fst snd]; rewrite Ec, <- !app_assoc; reflexivity|]. split.
      + intros [|i] g' r' E.
        * injection E as <- <-. cbn [odds]. rewrite Nat.add_0_r, xorb_false_l, <- Es. split; [|auto]. eexists _, w, w1. exact Hg.
        * cbn [nth_error] in E. pose proof (Hp i g' r' E) as K. revert K. rewrite Es, swap_swap, (odds_first k (S i)).
          replace (xorb (alt && odds (S k) (S i)) (alt && Nat.odd k)) with (alt && xorb (Nat.odd k) (odds (S k) (S i))); [tauto|].
          destruct alt; [cbn [andb]; apply xorb_comm|reflexivity].
      + rewrite El, Es, swap_swap, (odds_first k count). f_equal. destruct alt; [cbn [andb]; apply xorb_comm|reflexivity].
  Qed.
  Lemma odds_count i : odds 0 i = Nat.leb 2 (i mod 4).
  Proof.
    destruct i as [|i]; [reflexivity|]. rewrite odds_mod. pose proof (Nat.div_mod i 4 ltac:(lia)) as D. pose proof (Nat.mod_upper_bound i 4 ltac:(lia)) as U.
    destruct (i mod 4)%nat as [|[|[|[|r]]]] eqn:Er; [| | | |lia].
    - rewrite <- (Nat.mod_unique (S i) 4 (i / 4) 1); [reflexivity|lia|lia].
    - rewrite <- (Nat.mod_unique (S i) 4 (i / 4) 2); [reflexivity|lia|lia].
    - rewrite <- (Nat.mod_unique (S i) 4 (i / 4) 3); [reflexivity|lia|lia].
    - rewrite <- (Nat.mod_unique (S i) 4 (S (i / 4)) 0); [reflexivity|lia|lia].
  Qed.
  Context (lc lt : layout) (n R : Z) (di : dict string Z) (ori : string) (rot reset : bool) (dets : option (list string)) (gauge : bool) (w w' : world) (c : circuit).
  Hypothesis Hp : forall t n s, Permutation (ordt t n s) s.
  Hypothesis H : repeated_cnot_with fuse show ordt ordp it lc lt n R di ori rot reset dets gauge w = (w', Ok c).
  Definition turned (alt : bool) (k : nat) : layout * layout := exchanged_if (alt && (Nat.eqb (k mod 4) 1 || Nat.eqb (k mod 4) 2)) lc lt.
  Lemma cnot_sequence : exists dd coords ic it_ init first parts last,
    c = coords ++ init ++ first ++ concat (map (fun p => fst p ++ concat (snd p)) parts) ++ last /\
    (match dets with Some d => dd = d | None => exists a b, get_role lc "anc" = Ok a /\ get_role lt "anc" = Ok b /\ dd = a ++ b end) /\
    (ori = "constant" \/ ori = "alternating") /\ Z.of_nat (length parts) = n /\
    (exists dc dt w1 w2 w3 o o', init_part lc di = Ok dc /\ init_part lt di = Ok dt /\ exp_start [lc; lt] w = (w1, Ok coords) /\
      init_qubits (ordt o) lc dc rot w1 = (w2, Ok ic) /\ init_qubits (ordt o') lt dt rot w2 = (w3, Ok it_) /\ merge_circuits show true [ic; it_] = Ok init /\
      exists ds o w4, (if gauge then ds = dd else exists s s', get_stabs lc (basis_type rot) = Ok s /\ get_stabs lt (basis_type rot) = Ok s' /\ forall a, In a ds <-> In a dd /\ (In a s \/ In a s')) /\
        merge_qec_rounds fuse (fun p => it (ordt (o + p)%nat)) [lc; lt] reset (Some ds) w3 = (w4, Ok first)) /\
    (forall k g rs, nth_error parts k = Some (g, rs) ->
      let (x, y) := turned (eqb ori "alternating") k in
      (exists o w1 w2, log_trans_cnot (ordt o) (ordp o) x y w1 = (w2, Ok g)) /\ Z.of_nat (length rs) = R /\ forall r, In r rs -> merged_round dd reset [x; y] r) /\
    (let (x, y) := exchanged_if (eqb ori "alternating" && Nat.leb 2 (Z.to_nat n mod 4)) lc lt in
      exists w1, merge_log_meas fuse (fun _ => log_meas_blocks) [x; y] [rot; rot] reset (Some dd) w1 = (w', Ok last)).
  Proof.
    pose proof H as E. unfold repeated_cnot_with in E. destruct (Z.ltb_spec R 0) as [|HR]; [discriminate|]. destruct (Z.ltb_spec n 0) as [|HN]; [discriminate|].
    apply sbind_ok in E as (w0 & dd & E0 & E). unfold slift in E0. injection E0 as <- Ed. destruct (negb _) eqn:Eo; [discriminate|].
    apply sbind_ok in E as (w0' & dic & Hx0 & E). unfold slift in Hx0. apply (f_equal fst) in Hx0 as Hw0; apply (f_equal snd) in Hx0 as Hic; cbn [fst snd] in Hw0, Hic; subst w0'.
    apply sbind_ok in E as (w0'' & dit & Hx1 & E). unfold slift in Hx1. apply (f_equal fst) in Hx1 as Hw1; apply (f_equal snd) in Hx1 as Hit; cbn [fst snd] in Hw1, Hit; subst w0''.
    apply sbind_ok in E as (w1 & c0 & H1 & E). apply sbind_ok in E as (w2 & ic & H2 & E). apply sbind_ok in E as (w3 & it_ & H3 & E).
    apply sbind_ok in E as (w4 & c1 & H4 & E). unfold slift in H4. injection H4 as <- H4.
    apply sbind_ok in E as (w4' & ds0 & H5 & E). unfold slift in H5. injection H5 as <- H5.
    apply sbind_ok in E as (w5 & c2 & H6 & E). apply sbind_ok in E as (w6 & [[c3 l1'] l2'] & H7 & E). apply sbind_ok in E as (w7 & c4 & H8 & E). injection E as <- <-.
    apply cnot_loop_parts in H7 as (parts & Lp & -> & Hparts & El). cbn [app] in *. exists dd, c0, ic, it_, c1, c2, parts, c4.
    split; [reflexivity|]. split.
    { destruct dets as [d|]; [now injection Ed|]. apply bind_ok in Ed as (a & Ea & Ed). apply bind_ok in Ed as (b & Eb & Ed). injection Ed as <-. eauto. }
    split. { apply negb_false_iff, mem_In in Eo as [<-|[<-|[]]]; auto. }
    split; [refine (eq_trans (f_equal Z.of_nat Lp) _); now apply Z2Nat.id|]. split; [|split].
    - exists dic, dit, w1, w2, w3, 1%nat, 2%nat. repeat (split; [assumption|]). exists ds0, 3%nat, w5. split; [|exact H6].
      destruct gauge; [congruence|]. apply bind_ok in H5 as (s & Es & H5). apply bind_ok in H5 as (s' & Es' & H5). injection H5 as <-. exists s, s'. split; [exact Es|]. split; [exact Es'|].
      intros a. split.
      + intros Hi. eapply Permutation_in in Hi; [|apply Hp]. unfold inter in Hi. apply filter_In in Hi as [I1 I2]. apply mem_In, in_app_or in I2. split; [now apply dedup_In|exact I2].
      + intros [I1 I2]. eapply Permutation_in; [symmetry; apply Hp|]. unfold inter. apply filter_In. split; [now apply dedup_In|]. apply mem_In, in_or_app. exact I2.
    - intros k g rs Hk. pose proof (Hparts k g rs Hk) as K. unfold turned. rewrite odds_mod in K. unfold swap in K. cbn [fst snd] in K. destruct (exchanged_if _ lc lt) as [x y].
      destruct K as (K1 & K2 & K3). split; [exact K1|]. split; [refine (eq_trans (f_equal Z.of_nat K2) _); now apply Z2Nat.id|exact K3].
    - rewrite odds_count in El. unfold swap in El. cbn [fst snd] in El. destruct (exchanged_if _ lc lt) as [x y]. injection El as -> ->. eauto.
  Qed.
  (** * Counting *)
  Record tally (d : detectors) (k : nat) (x : circuit) (v : world) : Prop := {
    ta_wf : wf_det (snd v); ta_same : same d (snd v); ta_dets : number DETECTOR x = (k * length (labels d))%nat; ta_obs : number OBSERVABLE_INCLUDE x = 0%nat }.
  Lemma tally_round d k x v jt ls ds v' y : tally d k x v -> merge_qec_rounds fuse jt ls reset ds v = (v', Ok y) -> tally d (S k) (x ++ y) v'.
  Proof using.
    clear. intros [W S D O] E. destruct (merged_round_counts _ _ _ _ _ _ _ _ W E) as (E1 & E2 & E3 & E4). constructor; auto.
    - eapply ExpP3.same_trans; eauto.
    - rewrite number_app, D, E1, <- (proj1 S). cbn. lia.
    - now rewrite number_app, O, E2.
  Qed.
  Lemma tally_gate d k x v o op a b v' y : tally d k x v -> log_trans_cnot o op a b v = (v', Ok y) -> tally d k (x ++ y) v'.
  Proof using.
    clear. intros [W S D O] E. unfold log_trans_cnot in E. do 3 (apply sbind_ok in E as (? & ? & E0 & E); unfold slift in E0; injection E0 as <- _).
    apply sbind_ok in E as (v1 & u & E1 & E). apply ond_ok in E1 as (d1 & E1 & ->). apply onm_ok in E as (m & E & ->). cbn [fst snd] in *.
    pose proof (keeps_update_from_dict _ _ _ _ E1 W) as [W' S']. apply blocks_okc in E as (E & _). apply okc_nocheck, nochecks_none in E as [N1 N2]. constructor; cbn [snd]; auto.
    - eapply ExpP3.same_trans; eauto.
    - rewrite number_app, D, N1. lia.
    - now rewrite number_app, O, N2.
  Qed.
  Lemma init_tally d o l x rot0 v v' y : wf_det (snd v) -> same d (snd v) -> init_qubits o l x rot0 v = (v', Ok y) -> wf_det (snd v') /\ same d (snd v') /\ same_model (fst v) (fst v') /\
    okc (fun g => g <> DETECTOR /\ g <> OBSERVABLE_INCLUDE) (qubit_target (inds (fst v))) y /\ even_targets y.
  Proof using.
    clear. intros W S E. unfold init_qubits, init_with in E. apply sbind_ok in E as (v1 & a & E1 & E). unfold slift in E1. injection E1 as <- _.
    apply sbind_ok in E as (v2 & u & E1 & E). apply ond_ok in E1 as (d1 & E1 & ->). apply onm_ok in E as (m & E & ->). cbn [fst snd] in *.
    pose proof (keeps_activate _ _ _ _ E1 W) as [W' S']. apply blocks_okc in E as (O & Ev & Sm). split; [exact W'|]. split; [eapply ExpP3.same_trans; eauto|]. auto.
  Qed.
  Lemma cnot_counts a b : SpecNoise.wf_inds (inds (fst w)) -> NoDup (labels (snd w)) -> get_role lc "anc" = Ok a -> get_role lt "anc" = Ok b -> Permutation (labels (snd w)) (a ++ b) ->
    exists s s', get_stabs lc (basis_type rot) = Ok s /\ get_stabs lt (basis_type rot) = Ok s' /\
      number DETECTOR c = (S (Z.to_nat n * Z.to_nat R) * length (a ++ b) + length s + length s')%nat /\
      number OBSERVABLE_INCLUDE c = (length (l_logs lc) + length (l_logs lt))%nat.
  Proof.
    intros Wi N Ea Eb P. pose proof H as E. unfold repeated_cnot_with in E. destruct (Z.ltb_spec R 0) as [|HR]; [discriminate|]. destruct (Z.ltb_spec n 0) as [|HN]; [discriminate|].
    apply sbind_ok in E as (w0 & dd & E0 & E). unfold slift in E0. injection E0 as <- Ed. destruct (negb _) eqn:Eo; [discriminate|].
    apply sbind_ok in E as (w0' & dic & Hx0 & E). unfold slift in Hx0. apply (f_equal fst) in Hx0 as Hw0; apply (f_equal snd) in Hx0 as Hic; cbn [fst snd] in Hw0, Hic; subst w0'.
    apply sbind_ok in E as (w0'' & dit & Hx1 & E). unfold slift in Hx1. apply (f_equal fst) in Hx1 as Hw1; apply (f_equal snd) in Hx1 as Hit; cbn [fst snd] in Hw1, Hit; subst w0''.
    apply sbind_ok in E as (w1 & c0 & H1 & E). apply start_ok in H1 as (-> & _ & B0 & _); [|exact Wi].
    apply sbind_ok in E as (w2 & ic & H2 & E). apply sbind_ok in E as (w3 & it_ & H3 & E).
    apply sbind_ok in E as (w4 & c1 & H4 & E). unfold slift in H4. injection H4 as <- H4.
    apply sbind_ok in E as (w4' & ds0 & H5 & E). unfold slift in H5. injection H5 as <- H5.
    apply sbind_ok in E as (w5 & c2 & H6 & E). apply sbind_ok in E as (w6 & [[c3 l1'] l2'] & H7 & E). apply sbind_ok in E as (w7 & c4 & H8 & E). injection E as _ <-.
    set (d := snd w). assert (S0 : same d (det_new (snd w))) by (unfold same; auto).
    destruct (init_tally d _ _ _ _ (new_circuit (fst w), det_new (snd w)) _ _ (det_new_wf _ N) S0 H2) as (W2 & S2 & Sm2 & O2 & V2). destruct (init_tally d _ _ _ _ _ _ _ W2 S2 H3) as (W3 & S3 & Sm3 & O3 & V3).
    assert (T1 : tally d 0 (c0 ++ c1) w3).
    { assert (NT : TICK <> DETECTOR /\ TICK <> OBSERVABLE_INCLUDE) by (split; discriminate). destruct Sm2 as (_ & _ & Ei). rewrite <- Ei in O3.
      pose proof (merge_okc show _ _ ic it_ c1 NT O2 O3 V2 V3 H4) as K. apply okc_nocheck, nochecks_none in K as [K1 K2]. apply checkless_none in B0 as [B1 B2].
      constructor; auto; rewrite number_app; lia. }
    pose proof (tally_round _ _ _ _ _ _ _ _ _ T1 H6) as T2.
    assert (L : forall count k x y acc v v' r x' y' j, tally d j (c0 ++ c1 ++ c2 ++ acc) v ->
      cnot_loop ordt ordp (fun j lc lt => merge_qec_rounds fuse (fun p => it (ordt (3 + 2 * j + p)%nat)) [lc; lt] reset (Some dd)) (eqb ori "alternating") (Z.to_nat R) count k x y acc v = (v', Ok (r, x', y')) ->
      tally d (j + count * Z.to_nat R) (c0 ++ c1 ++ c2 ++ r) v' /\ ((x', y') = (x, y) \/ (x', y') = (y, x))).
    { induction count as [|count IH]; intros k x y acc v v' r x' y' j T E; cbn [cnot_loop] in E.
      - injection E as <- <- <- <-. rewrite Nat.mul_0_l, Nat.add_0_r. auto.
      - assert (Ex : exists p, (if eqb ori "alternating" && Nat.odd k then (y, x) else (x, y)) = p /\ (p = (x, y) \/ p = (y, x))) by (eexists; split; [reflexivity|]; destruct (_ && _); auto).
        destruct Ex as ([x1 y1] & Ex & Dx). rewrite Ex in E. apply sbind_ok in E as (v1 & g & Hg & E). apply sbind_ok in E as (v2 & cr & Hr & E).
        pose proof (tally_gate _ _ _ _ _ _ _ _ _ _ T Hg) as Tg.
        assert (Tr : tally d (j + Z.to_nat R) ((c0 ++ c1 ++ c2 ++ acc ++ g) ++ cr) v2).
        { refine (sfold_seq _ (fun k z u => tally d (j + k) ((c0 ++ c1 ++ c2 ++ acc ++ g) ++ z) u) (Z.to_nat R) 0 _ [] v1 v2 cr _ Hr).
          - intros i z u u' z' _ Tz Hk. apply sbind_ok in Hk as (u1 & cz & Hz & Hk). injection Hk as <- <-. rewrite app_assoc, Nat.add_succ_r. eapply tally_round; eauto.
          - rewrite app_nil_r, Nat.add_0_r. rewrite <- !app_assoc in Tg. exact Tg. }
        rewrite <- !app_assoc in Tr. destruct (IH _ _ _ _ _ _ _ _ _ _ Tr E) as [IT ID]. split.
        + replace (j + S count * Z.to_nat R)%nat with (j + Z.to_nat R + count * Z.to_nat R)%nat by lia. exact IT.
        + destruct ID as [->| ->], Dx as [Dx|Dx]; injection Dx as -> ->; auto. }
    assert (T2' : tally d 1 (c0 ++ c1 ++ c2 ++ []) w5) by (rewrite app_nil_r; rewrite <- app_assoc in T2; exact T2).
    destruct (L _ _ _ _ _ _ _ _ _ _ _ T2' H7) as [[W6 S6 D6 O6] Dl]. destruct (merged_meas_counts _ _ _ _ _ _ _ _ _ W6 H8) as (st & sup & Es & C1 & C2).
    assert (Q : exists s s', get_stabs lc (basis_type rot) = Ok s /\ get_stabs lt (basis_type rot) = Ok s' /\ (forall q, In q st <-> In q s \/ In q s')).
    { cbn [combine] in Es. destruct (all_stabs_two _ _ _ _ _ Es) as (s1 & s2 & _ & _ & G1 & G2 & _ & _ & -> & _).
      destruct Dl as [Dl|Dl]; injection Dl as -> ->; [exists s1, s2|exists s2, s1]; (split; [assumption|]; split; [assumption|]); intros q; rewrite in_app_iff; tauto. }
    destruct Q as (s & s' & G1 & G2 & Hq). exists s, s'. split; [exact G1|]. split; [exact G2|].
    assert (Nab : NoDup (a ++ b)) by (eapply Permutation_NoDup; [exact P|exact N]). apply NoDup_app_inv in Nab as (Na & Nb & Dab).
    destruct (stabs_anc _ _ _ _ G1 Ea) as [I1 N1]. destruct (stabs_anc _ _ _ _ G2 Eb) as [I2 N2].
    replace (c0 ++ c1 ++ c2 ++ c3 ++ c4) with ((c0 ++ c1 ++ c2 ++ c3) ++ c4) by now rewrite <- !app_assoc.
    rewrite !(number_app _ (c0 ++ c1 ++ c2 ++ c3) c4), D6, O6, C1, C2.
    assert (El : length (filter (fun x => mem x st) (labels (snd w6))) = (length s + length s')%nat).
    { rewrite (proj1 S6). rewrite <- app_length. apply Permutation_length. apply NoDup_Permutation.
      - now apply NoDup_filter.
      - apply NoDup_app_intro; [now apply N1|now apply N2|]. intros q Q1 Q2. apply (Dab q); [now apply I1|now apply I2].
      - intros q. rewrite filter_In, mem_In, in_app_iff, Hq. split; [tauto|]. intros Q. split; [|exact Q]. eapply Permutation_in; [symmetry; exact P|]. apply in_or_app.
        destruct Q; [left; auto|right; auto]. }
    rewrite El. pose proof (Permutation_length P) as Lp. fold d in Lp. split; [rewrite Lp; lia|].
    destruct Dl as [Dl|Dl]; injection Dl as -> ->; cbn [flat_map]; rewrite ?app_nil_r, app_length; lia.
  Qed.
End Any.
