(** Following the noise model and the detectors through an experiment with transversal gates. *)
From Coq Require Import QArith Qcanon.
From Verif Require Import Base Lib StimM SetupM NoiseM SpecNoise NoiseP LayoutM MatM MatP DetM SpecDet DetP DetCountP DetLinP DetDetP
  BlockM LogM ExpM SpecTrack SpecExp TrackP LiftP ExpDetP ExpP ExpP2 ExpP3 ExpP4 ActP RepP RepP2 LogP4.
Open Scope Z_scope.

(** * Generators *)
Definition isgen (ls : list string) (g : gen) (M : string -> string -> bool) : Prop :=
  forall a j x, In a ls -> nth_error ls j = Some x -> gen_entry g a j = M a x.
Lemma isgen_ext ls g M N : (forall a x, In a ls -> In x ls -> M a x = N a x) -> isgen ls g M -> isgen ls g N.
Proof. intros E H a j x Ha Hx. rewrite <- E by (auto; eapply nth_error_In; eauto). eauto. Qed.
Lemma isgen_identity ls : NoDup ls -> isgen ls (identity ls) eqb.
Proof.
  intros N a j x Ha Hx. apply In_nth_error in Ha as [i Hi]. unfold gen_entry. rewrite (dget_identity ls a i N Hi).
  assert ((j < length ls)%nat) by (apply nth_error_Some; congruence). rewrite unitv_nth by lia.
  rewrite Nat.eqb_sym, (index_label ls i a N Hi j x Hx). now destruct (eqb a x).
Qed.
(* what an update does, as a matrix *)
Definition dmat (nd : dict string (list string)) (a b : string) : bool :=
  match dget a nd with Some l => mem b l | None => eqb a b end.
Lemma isgen_update nd d d' M : wf_det d -> update_from_dict nd d = (d', Ok tt) -> isgen (labels d) (curr_gen d) M ->
  isgen (labels d) (curr_gen d') (fun a x => xorl (map (fun b => dmat nd a b && M b x) (labels d))).
Proof.
  intros W H G a j x Ha Hx. pose proof (update_from_dict_ok _ _ _ H) as K.
  destruct (C11_ok_lemma _ _ _ W K H) as (_ & _ & _ & _ & E). rewrite E by exact Ha. unfold dmat. destruct (dget a nd) as [l|] eqn:El.
  - apply dget_In in El. destruct (K _ _ El) as [_ Hi].
    rewrite (xorl_mem (fun b => M b x) (labels d) l (wf_nodup _ W) Hi). apply xorl_ext. intros b Hb. apply nodup_In in Hb. eapply G; eauto.
  - rewrite (xorl_ext _ (fun b => eqb b a && M b x)) by (intros b _; now rewrite eqb_sym).
    rewrite (xorl_single a (fun b => M b x) _ (wf_nodup _ W) Ha). eauto.
Qed.
Lemma isgen_basis ls b g B G N : isgen ls b B -> isgen ls g G ->
  (forall a x, In a ls -> In x ls -> qsum (map (fun k => N a k * q_of_bool (B k x))%Qc ls) = q_of_bool (G a x)) ->
  change_of_basis ls b g N.
Proof.
  intros Hb Hg H a j Ha Hj. destruct (nth_error ls j) as [x|] eqn:E; [|apply nth_error_None in E; lia].
  rewrite (Hg a j x Ha E), <- H by (auto; eapply nth_error_In; eauto). apply qsum_ext. intros k Hk. now rewrite (Hb k j x Hk E).
Qed.

(** * Gates that act as an involution of the generators *)
Record invol (ls : list string) (D : string -> string -> bool) : Prop := {
  iv_two : forall a x, In a ls -> In x ls -> xorl (map (fun b => D a b && D b x) ls) = eqb a x;
  iv_rat : exists Di : string -> string -> Qc, (forall a x, In a ls -> In x ls -> qsum (map (fun k => Di a k * q_of_bool (D k x))%Qc ls) = q_of_bool (eqb a x)) /\
    forall a x, In a ls -> In x ls -> nz (Di a x) = D a x }.
Lemma nz_bool b : nz (q_of_bool b) = b.
Proof. destruct b; reflexivity. Qed.
Lemma qsum_eye ls a (f : string -> Qc) : NoDup ls -> In a ls -> qsum (map (fun k => q_of_bool (eqb a k) * f k)%Qc ls) = f a.
Proof.
  intros N Ha. rewrite <- (qsum_single a f ls N Ha). apply qsum_ext. intros k _. rewrite (eqb_sym k a). destruct (eqb a k); cbn; ring.
Qed.
Lemma mpow_S D k : mpow D (S (S k)) = mpow D k.
Proof. reflexivity. Qed.
Lemma invol_linked ls D prev curr k n : NoDup ls -> invol ls D -> isgen ls prev (mpow D k) -> isgen ls curr (mpow D (k + n)) ->
  linked ls prev curr (mpow D n).
Proof.
  intros N [_ (Di & I1 & I2)] Hp Hc.
  assert (EI : forall B a x, In a ls -> In x ls -> qsum (map (fun k => q_of_bool (eqb a k) * q_of_bool (B k x))%Qc ls) = q_of_bool (B a x)).
  { intros B a x Ha _. now apply (qsum_eye ls a (fun k => q_of_bool (B k x))). }
  assert (ED : forall B a x, In a ls -> In x ls -> qsum (map (fun k => q_of_bool (B a k) * q_of_bool (eqb k x))%Qc ls) = q_of_bool (B a x)).
  { intros B a x _ Hx. rewrite (qsum_ext _ (fun k => q_of_bool (eqb x k) * q_of_bool (B a k))%Qc).
    - now apply (qsum_eye ls x (fun k => q_of_bool (B a k))).
    - intros y _. rewrite (eqb_sym y x). ring. }
  unfold mpow in *. rewrite Nat.odd_add in Hc. destruct (Nat.odd n), (Nat.odd k); cbn [xorb] in Hc.
  - split.
    + exists (fun a x => q_of_bool (D a x)). split; [|intros; apply nz_bool]. eapply isgen_basis; [exact Hc|exact Hp|]. apply ED.
    + exists Di. split; [|exact I2]. eapply isgen_basis; [exact Hp|exact Hc|]. exact I1.
  - split.
    + exists Di. split; [|exact I2]. eapply isgen_basis; [exact Hc|exact Hp|]. exact I1.
    + exists (fun a x => q_of_bool (D a x)). split; [|intros; apply nz_bool]. eapply isgen_basis; [exact Hp|exact Hc|]. apply ED.
  - split; (exists (fun a x => q_of_bool (eqb a x)); split; [|intros; apply nz_bool]; eapply isgen_basis; [eassumption|eassumption|]; apply EI).
  - split; (exists (fun a x => q_of_bool (eqb a x)); split; [|intros; apply nz_bool]; eapply isgen_basis; [eassumption|eassumption|]; apply EI).
Qed.

(** * The detectors *)
(* [d] differs from [d0] by n rounds with the ancillas [ancs] active since the first, and k gates since the last round *)
Record dst2 (d0 : detectors) (ancs : list string) (D : string -> string -> bool) (n k : nat) (d : detectors) : Prop := {
  d2_wf : wf_det d;
  d2_same : same d0 d;
  d2_gens : exists j, isgen (labels d) (prev_gen d) (mpow D j) /\ isgen (labels d) (curr_gen d) (mpow D (j + k));
  d2_act : forall a, dget a (active d) = Some true <-> In a ancs;
  d2_num : forall a, In a ancs -> dget a (num_rounds d) = Some (Z.of_nat n);
  d2_total : total d = Z.of_nat n;
  d2_nodup : NoDup ancs;
  d2_known : incl ancs (labels d) }.
Lemma dst2_start d0 ancs D d1 u : NoDup (labels d0) -> activate ancs (det_new d0) = (d1, Ok u) -> dst2 d0 ancs D 0 0 d1.
Proof.
  intros N H. pose proof H as H'. apply dst_start in H' as [W S G A Nu T Nd K]; [|exact N]. constructor; auto.
  unfold activate in H. destruct (strict_superset _ _); [discriminate|]. destruct u. apply activate_iter in H as (_ & _ & _ & Hp & Hc & _).
  exists 0%nat. rewrite Hp, Hc, (proj1 S). cbn [det_new prev_gen curr_gen mpow Nat.odd]. split; now apply isgen_identity.
Qed.
Lemma dst2_linked d0 ancs D n k d : invol (labels d0) D -> dst2 d0 ancs D n k d -> linked (labels d) (prev_gen d) (curr_gen d) (mpow D k).
Proof.
  intros V [W S (j & G1 & G2) _ _ _ _ _]. eapply invol_linked; [apply W| |exact G1|exact G2]. now rewrite (proj1 S).
Qed.
Lemma dst2_gate d0 ancs D n k d d' nd : invol (labels d0) D -> (forall a x, In a (labels d0) -> In x (labels d0) -> dmat nd a x = D a x) ->
  dst2 d0 ancs D n k d -> update_from_dict nd d = (d', Ok tt) -> dst2 d0 ancs D n (S k) d'.
Proof.
  intros V HD [W S (j & G1 & G2) A Nu T Nd K] H. pose proof (keeps_update_from_dict _ _ _ _ H W) as [W' S'].
  pose proof (update_from_dict_ok _ _ _ H) as Kn. destruct (C11_ok_lemma _ _ _ W Kn H) as (Ep & Ea & En & Et & _).
  pose proof (proj1 S) as EL. pose proof (proj1 S') as EL'.
  constructor; auto.
  - eapply same_trans; eauto.
  - exists j. rewrite Ep, EL'. split; [exact G1|]. eapply isgen_ext; [|eapply isgen_update; [exact W|exact H|exact G2]].
    intros a x Ha Hx. rewrite EL in *. rewrite <- plus_n_Sm. unfold mpow. rewrite Nat.odd_succ, <- Nat.negb_odd. destruct (Nat.odd (j + k)); cbn [negb].
    + rewrite <- (iv_two _ _ V a x Ha Hx). apply xorl_ext. intros b Hb. now rewrite HD.
    + rewrite (xorl_ext _ (fun b => eqb b x && dmat nd a b)) by (intros b _; apply andb_comm). rewrite (xorl_single x (dmat nd a)); auto. rewrite <- EL. apply W.
  - now rewrite Ea.
  - now rewrite En.
  - now rewrite Et.
  - now rewrite EL'.
Qed.
Lemma dst2_round d0 ancs D n k d d' g reset req c : invol (labels d0) D -> dfr d0 <> GateIndep ->
  dst2 d0 ancs D n k d -> build_from_anc g reset req d = (d', Ok c) -> dst2 d0 ancs D (S n) 0 d'.
Proof.
  intros V Fr X H. pose proof (dst2_linked _ _ _ _ _ _ V X) as Lk. destruct X as [W S0 (j & G1 & G2) A N T Nd K].
  pose proof (keeps_build_from_anc _ _ _ _ _ _ H W) as [W' S'].
  destruct (anc_content2 _ _ _ _ _ _ _ W Lk ltac:(rewrite (proj1 (proj2 S0)); exact Fr) H) as [(nr & E & ->) _]. constructor; auto.
  - exists (j + k)%nat. cbn [set_gens set_rounds prev_gen curr_gen labels]. rewrite Nat.add_0_r. auto.
  - intros a Ha. cbn [set_gens set_rounds num_rounds]. rewrite (DetDetP.next_rounds_get d nr a (Z.of_nat n) true W E); auto; [f_equal; lia|]. now apply A.
  - cbn [set_gens set_rounds total]. lia.
Qed.

(** * A round *)
Record round_out2 (d0 : detectors) (qi : dict string Z) (ancs : list string) (D : string -> string -> bool) (reset : bool) (n k : nat) (ds : list string)
    (L : list (gate string)) (c0 c : circuit) (w' : world) : Prop := {
  r2_dst : dst2 d0 ancs D (S n) 0 (snd w');
  r2_split : exists cb cd ls, c = cb ++ cd /\ tracked qi (fst w') L (c0 ++ cb) /\ tracked qi (fst w') L (c0 ++ c) /\
    Forall (fun i => ~ is_check i) cb /\ annotations cd /\ Permutation ls (labels d0) /\
    Forall2 (fun a i => det_of d0 a (zq (Z.of_nat n)) i /\
      Forall (fun t => exists q z, meas_target (fst w') q z = Ok t) (tg i) /\
      (In a ds /\ In a ancs \/ tg i = []) /\
      (In a ds -> In a ancs -> forall j, (1 <= j)%nat -> lists i j =
        selT (mlab L) (form_round2 reset (S n) (labels d0) (near (dfr d0) (mpow D k) a) (far (dfr d0) (mpow D k) a)) j)) ls cd }.
Lemma qec_round_out2 d0 qi ancs D n k it l reset ds w w' L c0 c : invol (labels d0) D -> dfr d0 <> GateIndep ->
  tracked qi (fst w) L c0 -> dst2 d0 ancs D n k (snd w) -> ok_blocks (it l reset) ->
  qec_round it l reset (Some ds) w = (w', Ok c) ->
  round_out2 d0 qi ancs D reset n k ds (L ++ lg_blocks (it l reset)) c0 c w'.
Proof.
  intros V Fr T X O H. unfold qec_round in H. apply sbind_ok in H as (w1 & cb & H1 & H). apply onm_ok in H1 as (m1 & H1 & ->).
  apply sbind_ok in H as (w2 & anc & H2 & H). unfold slift in H2. destruct (get_role l "anc"); [|discriminate]. injection H2 as <- ->.
  destruct (strict_superset _ _); [discriminate|]. apply sbind_ok in H as (w3 & cd & H3 & H). apply ond_ok in H3 as (d3 & H3 & ->).
  injection H as <- <-. cbn [odef fst snd] in *. destruct (tracked_blocks _ _ _ _ _ _ _ T H1 O) as [T1 N1].
  constructor; [eapply dst2_round; eauto|]. pose proof (build_anc_ann _ _ _ _ _ _ H3) as A.
  pose proof (dst2_linked _ _ _ _ _ _ V X) as Lk. destruct X as [W Sm _ Ac Nu To Nd K].
  destruct (anc_content2 _ _ _ _ _ _ _ W Lk ltac:(rewrite (proj1 (proj2 Sm)); exact Fr) H3) as (_ & ls & P & F). exists cb, cd, ls. split; [reflexivity|]. split; [exact T1|].
  split; [rewrite app_assoc; now apply tracked_ann|]. split; [exact N1|]. split; [exact A|]. split; [rewrite <- (proj1 Sm); exact P|].
  eapply Forall2_impl'; [|exact F]. intros a i (F1 & F2 & F3 & F4). split; [|split; [exact F2|split]].
  - apply (det_of_same d0 (snd w) _ _ _ Sm). now rewrite <- To.
  - destruct F3 as [[F3 F5]|F3]; [left; split; [exact F3|now apply Ac]|now right].
  - intros Hd Ha j Hj. rewrite lists_parity.
    rewrite (F4 Hd (proj2 (Ac a) Ha) (Z.of_nat n) _ (refers m1 j) (Nu a Ha) (refers_reads m1 j)).
    replace (Z.of_nat n + 1) with (Z.of_nat (S n)) by lia. rewrite (proj1 (proj2 Sm)), (proj1 Sm).
    eapply round_form2_sel; eauto. rewrite <- (proj1 Sm). apply W.
Qed.

(** * A gate *)
Lemma gate_out d0 qi ancs D n k prefix it l lq nd w w' L c0 c : invol (labels d0) D ->
  first_log l = Ok lq -> new_stab_dict l (prefix ++ lq) = Ok nd -> (forall a x, In a (labels d0) -> In x (labels d0) -> dmat nd a x = D a x) ->
  tracked qi (fst w) L c0 -> dst2 d0 ancs D n k (snd w) -> ok_blocks (it l) -> log_trans prefix it l w = (w', Ok c) ->
  dst2 d0 ancs D n (S k) (snd w') /\ checkless c /\ tracked qi (fst w') (L ++ lg_blocks (it l)) (c0 ++ c).
Proof.
  intros V El En HD T X O H. apply log_trans_ok in H as (lq' & nd' & El' & En' & R & U). rewrite El in El'. injection El' as <-.
  rewrite En in En'. injection En' as <-. split; [eapply dst2_gate; eauto|]. destruct (tracked_blocks _ _ _ _ _ _ _ T R O) as [T1 N1]. auto.
Qed.

(** * The final measurement *)
Record meas_out2 (d0 : detectors) (qi : dict string Z) (ancs : list string) (D : string -> string -> bool) (l : layout) (rot reset : bool) (n k : nat) (ds : list string)
    (L : list (gate string)) (m : model) (c0 c : circuit) : Prop := {
  m2_split : exists stabs sup lq qs cd o ls, c = cd ++ [o] /\ tracked qi m L (c0 ++ c) /\ annotations c /\
    get_stabs l (if rot then "x_type" else "z_type") = Ok stabs /\ support_from_adj l stabs = Ok sup /\
    nth_error (l_logs l) 0 = Some lq /\ dget lq (if rot then l_logx l else l_logz l) = Some qs /\
    nm o = OBSERVABLE_INCLUDE /\ ar o = [ANum (zq 0)] /\
    Forall (fun t => exists q z, meas_target m q z = Ok t) (tg o) /\
    (forall j, (1 <= j)%nat -> lists o j = selT (mlab L) (form_obs qs) j) /\
    Permutation ls (filter (fun a => mem a stabs) (labels d0)) /\
    Forall2 (fun a i => det_of d0 a (zq (Z.of_nat n) - Q2Qc (1#2))%Qc i /\
      Forall (fun t => exists q z, meas_target m q z = Ok t) (tg i) /\
      (In a ds /\ In a ancs \/ tg i = []) /\
      (In a ds -> In a ancs -> exists s, dget a sup = Some s /\
        forall j, (1 <= j)%nat -> lists i j = selT (mlab L) (form_data2 reset n (labels d0) s (mpow D k a)) j)) ls cd }.
Lemma log_meas_out2 d0 qi ancs D n k l rot reset ds w w' L c0 c : invol (labels d0) D -> dfr d0 <> GateIndep ->
  tracked qi (fst w) L c0 -> dst2 d0 ancs D n k (snd w) ->
  log_meas_end l rot reset ds w = (w', Ok c) ->
  meas_out2 d0 qi ancs D l rot reset n k ds L (fst w) c0 c.
Proof.
  intros V Fr T X H. pose proof (dst2_linked _ _ _ _ _ _ V X) as Lk. destruct X as [W Sm _ Ac Nu To Nd K]. unfold log_meas_end in H.
  apply sbind_ok in H as (w1 & stabs & H1 & H). unfold slift in H1. injection H1 as <- H1.
  apply sbind_ok in H as (w2 & sup & H2 & H). unfold slift in H2. injection H2 as <- H2.
  apply sbind_ok in H as (w3 & cd & H3 & H). apply ond_ok in H3 as (d3 & H3 & ->).
  apply sbind_ok in H as (w4 & o & H4 & H). apply onm_ok in H4 as (m4 & H4 & ->). cbn [fst snd] in *. unfold sread in H4. injection H4 as <- H4.
  apply sbind_ok in H as (w5 & anc & H5 & H). apply sbind_ok in H as (w6 & u & H6 & H). injection H as <- <-. clear H5 H6.
  destruct (data_content2 _ _ _ _ _ _ _ _ _ W Lk ltac:(rewrite (proj1 (proj2 Sm)); exact Fr) H3) as (ls & P & F).
  assert (FD : Forall (fun i => nm i = DETECTOR) cd).
  { clear -F. induction F as [|a i ls cd ((xs & _ & E & _) & _) _ IH]; constructor; auto. }
  assert (An : annotations cd) by (eapply Forall_impl; [|exact FD]; intros i ->; reflexivity).
  unfold observable in H4. apply bind_ok in H4 as (lq & E1 & H4). apply bind_ok in H4 as (qs & E2 & H4). apply bind_ok in H4 as (ts & E3 & H4).
  unfold StimM.mk in H4. match type of H4 with (if ?b then _ else _) = _ => destruct b end; [|discriminate]. injection H4 as <-.
  constructor. exists stabs, sup, lq, qs, cd, (Instr OBSERVABLE_INCLUDE ts [ANum (zq 0)]), ls.
  rewrite append_obs by auto. split; [reflexivity|].
  assert (An' : annotations (cd ++ [Instr OBSERVABLE_INCLUDE ts [ANum (zq 0)]])) by (apply Forall_app; split; [exact An|repeat constructor]).
  split; [now apply tracked_ann|]. split; [exact An'|]. split; [exact H1|]. split; [exact H2|].
  unfold first_log in E1. split; [destruct (nth_error (l_logs l) 0); simpl in E1; congruence|].
  unfold dget_err in E2. split; [destruct (dget lq _); simpl in E2; congruence|]. split; [reflexivity|]. split; [reflexivity|].
  apply mapM_Forall2 in E3. split.
  { cbn [tg]. clear -E3. induction E3; constructor; eauto. }
  split.
  { intros j Hj. rewrite lists_parity, <- (xorl_jth _ _ _ _ T) by exact Hj. unfold parity. cbn [tg]. clear -E3.
    induction E3 as [|q t qs ts E _ IH]; [reflexivity|]. unfold xorl in *. cbn [map fold_right]. rewrite IH. f_equal. unfold refers. now rewrite E. }
  split; [rewrite <- (proj1 Sm); exact P|].
  eapply Forall2_impl'; [|exact F]. intros a i (F1 & F2 & F3 & F4). split; [|split; [exact F2|split]].
  - apply (det_of_same d0 (snd w) _ _ _ Sm). now rewrite <- To.
  - destruct F3 as [[F3 F5]|F3]; [left; split; [exact F3|now apply Ac]|now right].
  - intros Hd Ha. destruct (F4 Hd (proj2 (Ac a) Ha)) as (s & Es & F5). exists s. split; [exact Es|]. intros j Hj. rewrite lists_parity.
    rewrite (F5 (Z.of_nat n) _ (refers (fst w) j) (Nu a Ha) (refers_reads (fst w) j)). rewrite (proj1 Sm). eapply data_form2_sel; eauto.
    rewrite <- (proj1 Sm). apply W.
Qed.
