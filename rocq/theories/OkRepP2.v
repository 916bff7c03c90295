(** Experiments with repeated transversal gates are built without an exception. *)
From Coq Require Import QArith Qcanon.
From Verif Require Import Base Lib StimM SetupM NoiseM SpecNoise NoiseP LayoutM SpecLayout LayoutP LayoutP2 MatM DetM SpecDet DetP DetCountP
  GenM GenP SpecGen GeomP RotP RotP2 UnrotP BlockM LogM SpecLog ExpM SpecTrack TrackP ActP RoundP OneP LiftP ExpP ExpP2 ExpP3 ExpP4 ExpP5 RepP5 RepP6 RepP8
  LogP LogP2 LogP4 SpecOk OkP OkP2 OkP3 OkP4 OkRepP.
Open Scope Z_scope.

(** * The detectors of a gate *)
Lemma shape_regular nd (ls : list string) : shape nd -> (forall a, dmem a nd = true -> In a ls) -> ~ singular_map ls (DUpdD nd).
Proof.
  intros S K (v & a & Ha & Va & H). cbn [gate_map] in H.
  assert (One : forall b c, dget b nd = Some [c] -> v c = false).
  { intros b c E. specialize (H b). rewrite E in H. cbn in H. rewrite xorb_false_r in H. apply H, K. unfold dmem. now rewrite E. }
  destruct (dget a nd) as [l|] eqn:E.
  - destruct (S a l E) as [->|[(b & Ne & -> & Eb)|(b & -> & Eb)]].
    + apply One in E. congruence.
    + pose proof (One b b Eb) as Vb. specialize (H a Ha). rewrite E in H. cbn [nodup] in H. destruct (in_dec string_dec a [b]) as [[I|[]]|_]; [congruence|].
      destruct (in_dec string_dec b []) as [[]|_]. cbn in H. rewrite Va, Vb in H. discriminate.
    + pose proof (One b a Eb). congruence.
  - specialize (H a Ha). rewrite E in H. congruence.
Qed.
Lemma shape_inside nd ancs : shape nd -> NoDup (dkeys nd) -> (forall a, In a ancs <-> dmem a nd = true) -> forall a l, In (a, l) nd -> In a ancs /\ incl l ancs.
Proof.
  intros S N K a l H. apply In_dget in H; [|exact N]. assert (M : forall b v, dget b nd = Some v -> In b ancs) by (intros b v E; apply K; unfold dmem; now rewrite E).
  split; [eauto|]. destruct (S a l H) as [->|[(b & Ne & -> & Eb)|(b & -> & Eb)]]; intros x Hx; cbn in Hx; intuition (subst; eauto).
Qed.

Section Seq2.
  Context (qi : dict string Z) (W : SpecNoise.wf_inds qi) (d0 : detectors) (l : layout) (ancs data : list string).
  Context (Ha : get_role l "anc" = Ok ancs) (Hd : get_role l "data" = Ok data).
  Context (Ka : incl ancs (dkeys qi)) (Kd : incl data (dkeys qi)) (Na : NoDup ancs).
  Definition st2 (n : nat) (w : world) : Prop := exists L c0, tracked qi (fst w) L c0 /\ ready (fst w) /\ live d0 ancs n (snd w) /\
    forall a, In a ancs -> (n <= count a (mlab L))%nat.

  Lemma round2 it reset ds n w : st2 n w -> incl ds ancs -> allfine qi (it l reset) -> only (it l reset) ancs ->
    exists w' c, qec_round it l reset (Some ds) w = (w', Ok c) /\ st2 (S n) w'.
  Proof.
    intros (L & c0 & T & R & D & C) Hs F [O M]. destruct w as [m dd]. cbn [fst snd] in *.
    destruct (blocks_step qi W _ m L c0 T R F O) as (m' & c & E & T' & R' & Rn). specialize (M Rn).
    assert (C' : forall a, In a ancs -> (S n <= count a (mlab (L ++ lg_blocks (it l reset))))%nat).
    { intros a H. rewrite mlab_app, count_app', M. specialize (C a H). pose proof (count_own a ancs H). lia. }
    destruct (live_anc d0 ancs n dd (meas_target m') reset ds D Hs) as (d' & x & B & D').
    { intros a j H Hj. eapply target_total; [exact W|eassumption|auto|]. specialize (C' a H). lia. }
    exists (m', d'), (c ++ x). split.
    - unfold qec_round, sbind at 1, onm. cbn [fst snd]. rewrite E. unfold slift, sbind at 1. rewrite Ha. cbn [odef].
      rewrite not_superset by exact Hs. unfold sbind, ond. cbn [fst snd]. now rewrite B.
    - exists (L ++ lg_blocks (it l reset)), (c0 ++ c). auto.
  Qed.
  Lemma gate2 prefix it lq nd n w : first_log l = Ok lq -> new_stab_dict l (prefix ++ lq) = Ok nd ->
    (forall a l, In (a, l) nd -> In a ancs /\ incl l ancs) -> ~ singular_map (labels d0) (DUpdD nd) ->
    allfine qi (it l) -> Forall quiet (it l) -> st2 n w -> exists w' c, log_trans prefix it l w = (w', Ok c) /\ st2 n w'.
  Proof.
    intros El En Hi Hr F Q (L & c0 & T & R & D & C). destruct w as [m dd]. cbn [fst snd] in *.
    destruct (live_gate d0 ancs n dd nd D Hi) as (d' & Eu & D'); [rewrite (proj1 (lv_same _ _ _ _ D)); exact Hr|].
    destruct (quiet_blocks _ Q) as [O M]. destruct (blocks_step qi W _ m L c0 T R F O) as (m' & c & E & T' & R' & Rn).
    exists (m', d'), c. split.
    - unfold log_trans, slift. unfold sbind at 1. rewrite El. unfold sbind at 1. rewrite En. unfold sbind, ond, onm. cbn [fst snd]. rewrite Eu. cbn [fst snd]. now rewrite E.
    - exists (L ++ lg_blocks (it l)), (c0 ++ c). split; [exact T'|]. split; [exact R'|]. split; [exact D'|]. intros a H. rewrite mlab_app, count_app'. specialize (C a H). cbn [fst snd]. lia.
  Qed.

  Context (Stab : forall rot : bool, exists stabs, get_stabs l (basis_type rot) = Ok stabs /\ incl stabs ancs /\
     exists sup, support_from_adj l stabs = Ok sup /\ incl stabs (dkeys sup) /\ forall a qs, dget a sup = Some qs -> incl qs data).
  Context (Logs : forall rot : bool, exists lq qs, first_log l = Ok lq /\ dget lq (if rot then l_logx l else l_logz l) = Some qs /\ incl qs data).
  Lemma end2 rot reset ds n m d L c0 : tracked qi m L c0 -> live d0 ancs n d -> (forall a, In a ancs -> (n <= count a (mlab L))%nat) ->
    (forall q, In q data -> (1 <= count q (mlab L))%nat) -> incl ds ancs ->
    exists w' c, log_meas_end l rot reset ds (m, d) = (w', Ok c).
  Proof.
    intros T D C Cd Hs. destruct (Stab rot) as (stabs & Es & Hi & sup & Eu & Hk & Hq). destruct (Logs rot) as (lq & qs & El & Eq & Hl).
    change (if rot then "x_type" else "z_type")%string with (basis_type rot) in *.
    unfold log_meas_end. change (if rot then "x_type" else "z_type")%string with (basis_type rot). unfold slift at 1, sbind at 1. rewrite Es. cbv beta iota.
    unfold slift at 1, sbind at 1. rewrite Eu. cbv beta iota.
    destruct (live_data d0 ancs n d (meas_target m) sup reset stabs ds D Hs Hi Hk) as [c B].
    { intros a j H Hj. eapply target_total; [exact W|eassumption|auto|]. specialize (C a H). lia. }
    { intros a q' q H E Hin. pose proof (Hq a q' E q Hin) as Hdat. change (-1) with (- Z.of_nat 1). eapply target_total; [exact W|eassumption|auto|]. specialize (Cd q Hdat). lia. }
    unfold sbind at 1, ond at 1. cbn [fst snd]. rewrite B. cbv beta iota.
    assert (Ob : exists o, observable l rot m = Ok o).
    { unfold observable. rewrite El. cbn [bind]. unfold dget_err. rewrite Eq. cbn [of_opt bind].
      destruct (mapM_total (fun q => meas_target m q (-1)) qs) as [ts ->]; [|cbn; eauto].
      intros q H. change (-1) with (- Z.of_nat 1). eapply target_total; [exact W|eassumption|auto|]. specialize (Cd q (Hl q H)). lia. }
    destruct Ob as [o Eo]. unfold sbind at 1, onm at 1, sread. cbn [fst snd]. rewrite Eo. cbv beta iota. unfold slift, sbind at 1. rewrite Ha. cbv beta iota.
    destruct (live_deactivate d0 ancs n (set_gens (curr_gen d) (curr_gen d) d)) as [d' E']; [now apply live_after|].
    unfold sbind, ond. cbn [fst snd]. rewrite E'. unfold sret. eauto.
  Qed.
  Lemma meas2 rot reset ds n w : st2 n w -> incl ds ancs -> allfine qi (log_meas_blocks l rot) -> exists w' c, log_meas l rot reset (Some ds) w = (w', Ok c).
  Proof.
    intros (L & c0 & T & R & D & C) Hs F. destruct (only_ok _ _ (log_measures l rot data Hd)) as [O M]. destruct w as [m dd]. cbn [fst snd] in *.
    destruct (blocks_step qi W _ m L c0 T R F O) as (m' & c & E & T' & R' & Rn). specialize (M Rn).
    destruct (end2 rot reset ds n m' dd _ _ T' D) as (w' & x & E'); auto.
    - intros a H. rewrite mlab_app, count_app'. specialize (C a H). lia.
    - intros q H. rewrite mlab_app, count_app', M. pose proof (count_own q data H). lia.
    - exists w', (c ++ x). unfold log_meas, log_meas_with, slift, sbind at 1. rewrite Ha. cbn [odef]. rewrite not_superset by exact Hs.
      unfold sbind at 1, onm. cbn [fst snd]. rewrite E. unfold sbind. now rewrite E'.
  Qed.

  Context (Nl : NoDup (labels d0)) (Kl : incl ancs (labels d0)) (Cl : incl (labels d0) (dkeys (dcoords d0))).
  Lemma init2 it di rot m c0 : tracked qi m [] c0 -> ready m -> allfine qi (it l di rot) -> ok_blocks (it l di rot) ->
    exists w' c, init_with it l di rot (m, det_new d0) = (w', Ok c) /\ st2 0 w'.
  Proof.
    intros T R F O. destruct (activate_total d0 ancs Nl Na Kl Cl) as (d1 & E1 & _). pose proof (live_start _ _ _ Nl Cl E1) as D1.
    destruct (blocks_step qi W _ m [] c0 T R F O) as (m' & c & E & T' & R' & _).
    exists (m', d1), c. split.
    - unfold init_with, slift, sbind at 1. rewrite Ha. cbv beta iota. unfold sbind, ond, onm. cbn [fst snd]. rewrite E1. cbn [fst snd]. now rewrite E.
    - exists ([] ++ lg_blocks (it l di rot)), (c0 ++ c). split; [exact T'|]. split; [exact R'|]. split; [exact D1|]. lia.
  Qed.

  Context (Coords : exists cs, LayoutM.qubit_coords l = Ok cs /\ incl (dkeys cs) (dkeys qi)).
  Context (m : model) (Em : inds m = qi) (Rm : ready m).
  Context (ordt : nat -> nat -> list string -> list string) (Hord : forall t k s, Permutation (ordt t k s) s).
  Context (it : (nat -> list string -> list string) -> layout -> bool -> blocks) (gate : nat -> layout -> ST world circuit) (swaps : bool).
  Context (n R : Z) (di : dict string Z) (rot reset : bool) (dets : option (list string)) (gauge : bool).
  Lemma repeated_total : 0 <= R -> 0 <= n -> (swaps = true \/ Z.even n = true) -> (forall ds, dets = Some ds -> incl ds ancs) ->
    allfine qi (init_blocks (ordt 1%nat) l di rot) -> (forall t, allfine qi (it (ordt t) l reset) /\ measures_only (it (ordt t) l reset) ancs) ->
    (forall rot, allfine qi (log_meas_blocks l rot)) ->
    (forall t n w, st2 n w -> exists w' c, gate t l w = (w', Ok c) /\ st2 n w') ->
    returns (repeated_with ordt it gate swaps l n R di rot reset dets gauge (m, d0)).
  Proof.
    intros HR Hn Hsw Hs Fi Fr Fm Hg. unfold repeated_with. replace (R <? 0) with false by lia.
    assert (G : ((n <? 0) || (negb swaps && (n mod 2 =? 1)))%bool = false).
    { replace (n <? 0) with false by lia. cbn [orb]. destruct Hsw as [->|E]; [reflexivity|]. apply Zeven_bool_iff, Zeven_ex in E as [k ->].
      replace (2 * k mod 2 =? 1) with false by lia. apply andb_false_r. }
    rewrite G. unfold slift at 1, sbind at 1.
    assert (X : exists ds, default_dets l dets = Ok ds /\ incl ds ancs).
    { unfold default_dets. destruct dets; [eauto|]. exists ancs. split; [exact Ha|apply incl_refl]. }
    destruct X as (ds & -> & Hds). cbv beta iota. destruct (start_total qi l Coords (m, d0) Em) as [c0 E0].
    assert (W0 : SpecNoise.wf_inds (inds (fst (m, d0)))) by (cbn [fst]; rewrite Em; exact W).
    destruct (start_ok _ _ _ _ W0 E0) as (_ & _ & _ & T0). cbn [fst snd] in T0. rewrite Em in T0.
    unfold sbind at 1. rewrite E0. cbn [fst snd].
    destruct (init2 (init_blocks (ordt 1%nat)) di rot (new_circuit m) c0 T0 Rm Fi) as (w1 & c1 & E1 & S1); [apply quiet_blocks, init_measures|].
    unfold init_qubits. unfold sbind at 1. rewrite E1.
    assert (A : exists ds1, (if negb gauge then first_dets ordt l rot ds else Ok ds) = Ok ds1 /\ incl ds1 ancs).
    { destruct (negb gauge); [|eauto]. unfold first_dets. destruct (Stab rot) as (stabs & -> & Hi & _). cbn [bind]. eexists. split; [reflexivity|].
      intros a H. apply (Permutation_in _ (Hord _ _ _)) in H. apply Hi. unfold inter in H. apply filter_In in H as [_ H]. now apply mem_In. }
    destruct A as (ds1 & Ed1 & Hd1). unfold slift at 1, sbind at 1. rewrite Ed1. cbv beta iota.
    assert (Rd : forall t ds n w, st2 n w -> incl ds ancs -> exists w' c, qec_round (it (ordt t)) l reset (Some ds) w = (w', Ok c) /\ st2 (Datatypes.S n) w').
    { intros t ds' k w S I. destruct (Fr t) as [F M]. apply round2; auto. split; apply (only_ok _ _ M). }
    destruct (Rd 3%nat ds1 0%nat w1 S1 Hd1) as (w2 & c2 & E2 & S2). unfold sbind at 1. rewrite E2. cbv zeta.
    match goal with |- context [sfold ?f (seq 0 (Z.to_nat n)) _] => set (F := f) end.
    assert (O : forall k i acc r w, st2 r w -> exists w' c r', sfold F (seq i k) acc w = (w', Ok c) /\ st2 r' w').
    { induction k as [|k IH]; intros i acc r w S; cbn [seq sfold]; [exists w, acc, r; split; [reflexivity|exact S]|].
      assert (B : exists w' c r', F acc i w = (w', Ok c) /\ st2 r' w').
      { unfold F. destruct (Hg (4 + i * Datatypes.S (Z.to_nat R))%nat r w S) as (w3 & c3 & E3 & S3). unfold sbind at 1. rewrite E3.
        match goal with |- context [sfold ?f (seq 0 (Z.to_nat R)) _] => set (I := f) end.
        assert (Inn : forall k i acc r w, st2 r w -> exists w' c r', sfold I (seq i k) acc w = (w', Ok c) /\ st2 r' w').
        { clear S3 S E3. induction k0 as [|k0 IHk]; intros i0 acc0 r0 w0 S; cbn [seq sfold]; [exists w0, acc0, r0; split; [reflexivity|exact S]|].
          unfold I at 1. unfold sbind at 1 2. edestruct Rd as (w4 & c4 & E4 & S4); [exact S|exact Hds|]. rewrite E4. unfold sret at 1. now apply (IHk (Datatypes.S i0) (acc0 ++ c4) (Datatypes.S r0)). }
        destruct (Inn (Z.to_nat R) 0%nat [] r w3 S3) as (w4 & c4 & r4 & E4 & S4). unfold sbind at 1. rewrite E4. unfold sret. exists w4, (acc ++ c3 ++ c4), r4. split; [reflexivity|exact S4]. }
      destruct B as (w3 & c3 & r3 & E3 & S3). unfold sbind at 1. rewrite E3. now apply (IH (Datatypes.S i) c3 r3). }
    destruct (O (Z.to_nat n) 0%nat [] 1%nat w2 S2) as (w3 & c3 & r3 & E3 & S3). unfold sbind at 1. rewrite E3.
    destruct (meas2 (if swaps && negb (n mod 2 =? 0) then negb rot else rot) reset ds r3 w3 S3 Hds (Fm _)) as (w4 & c4 & E4).
    unfold sbind. rewrite E4. unfold returns, sret. cbn. eauto.
  Qed.
End Seq2.

(** * The blocks of the gates *)
Section Gates.
  Context (qi : dict string Z) (l : layout) (data : list string) (lq : string).
  Context (ord : nat -> list string -> list string) (ordp : nat -> list (string * string) -> list (string * string)).
  Hypothesis Hord : forall n s, Permutation (ord n s) s.
  Hypothesis Hordp : forall n s, Permutation (ordp n s) s.
  Hypothesis Hd : get_role l "data" = Ok data.
  Hypothesis Hl : first_log l = Ok lq.
  Hypothesis Hq : incl (dkeys (l_nodes l)) (dkeys qi).
  Hypothesis Hdq : incl data (dkeys qi).
  Context (pf : string -> option string) (loc : string -> string).
  Hypothesis Hp : LogP4.pairing data pf.
  Lemma pairs_fine n : spairs (flat_pairs (ordp n (LogP2.pairs_of data pf))) /\ incl (flat_pairs (ordp n (LogP2.pairs_of data pf))) (dkeys qi).
  Proof.
    set (ps := ordp n (LogP2.pairs_of data pf)). assert (Hps : Permutation ps (LogP2.pairs_of data pf)) by apply Hordp. split.
    - pose proof (ps_neq data pf Hp ps Hps) as F. clearbody ps. clear Hps. induction F as [|[x y] ps N F IH]; [exact I|]. cbn. split; auto.
    - intros q H. change (flat_pairs ps) with (flatp ps) in H. apply (ps_in data pf Hp ps Hps) in H. destruct (pf q) eqn:E; [|congruence]. apply Hdq. now apply Hp in E.
  Qed.
  Lemma locs_in s : incl (dedup (filter (fun q => eqb (loc q) s) data)) (dkeys qi).
  Proof. intros q H. apply (proj1 (dedup_In _ q)) in H. apply filter_In in H as [H _]. auto. Qed.
  Lemma ord_in n s : incl s (dkeys qi) -> incl (ord n s) (dkeys qi).
  Proof. intros H q Hi. apply H. eapply Permutation_in; [apply Hord|exact Hi]. Qed.
  Lemma nodes_in : incl (dedup (dkeys (l_nodes l))) (dkeys qi).
  Proof. intros q H. apply Hq. now apply dedup_In. Qed.
  Lemma diff_in (a b : list string) : incl a (dkeys qi) -> incl (diff a b) (dkeys qi).
  Proof. intros H q Hi. apply H. unfold diff in Hi. now apply filter_In in Hi. Qed.
  Ltac one := cbn [fine_call]; first [exact I|split; [exact I|split; [auto using ord_in, diff_in, nodes_in, locs_in|first [discriminate|intros _]]]].
  Ltac many := repeat (first [apply Forall_nil | apply Forall_cons]).
  Lemma s_fine : trans_code_ok l = true -> s_attrs l ("trans-s_" ++ lq) data pf loc -> allfine qi (trans_s_blocks ord ordp l).
  Proof.
    intros Hc Ha. unfold trans_s_blocks. rewrite Hc, Hd, Hl. cbn [negb bind]. rewrite (trans_attrs_ok _ _ _ _ pf loc Ha eq_refl). cbn [bind generator]. rewrite !with_local_eq.
    destruct (pairs_fine 0) as [A B]. unfold tick_block. many; (eexists; split; [reflexivity|]; many; one). exact A.
  Qed.
  Lemma h_fine : l_code l = "unrotated_surface_code"%string ->
    (forall q, In q data -> lparam l ("trans-h_" ++ lq) q = Ok (PDict [("swap", label_or_none (pf q)); ("local", PStr (loc q))])) -> allfine qi (trans_h_blocks ord ordp l).
  Proof.
    intros Hc Ha. unfold trans_h_blocks. rewrite Hc, eqb_refl, Hd, Hl. cbn [negb bind]. rewrite (trans_attrs_ok _ _ _ _ pf loc Ha eq_refl). cbn [bind generator]. rewrite !with_local_eq.
    destruct (pairs_fine 0) as [A B]. unfold tick_block. many; (eexists; split; [reflexivity|]; many; one). exact A.
  Qed.
End Gates.
