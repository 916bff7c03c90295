(** The repeated CNOT experiment on two layouts is built without an exception. *)
From Coq Require Import QArith Qcanon.
From Verif Require Import Base Lib StimM SetupM MatM MatP DetM SpecDet DetP DetCountP NoiseM SpecNoise NoiseP LayoutM LayoutP BlockM ExpM MergeM SpecMerge MergeP SpecTrack SpecExp TrackP LiftP ExpP ExpP2 ExpP3 ExpP4 ExpP5
  CnotP7 CnotP8 SpecOk OkP OkP2 OkP3 OkRepP OkRepP2 OkMergeP OkMergeP3.
Open Scope Z_scope.

(** * TICKs of circuit blocks *)
Definition call_ticks (c : call) : nat := match c with CTick => 1%nat | _ => 0%nat end.
Definition block_ticks (b : list call) : nat := list_sum (map call_ticks b).
Definition nticks (bl : blocks) : nat := list_sum (map (fun b => match b with Ok b => block_ticks b | Err _ => 0%nat end) bl).
Lemma ticks_app a b : ticks (a ++ b) = (ticks a + ticks b)%nat.
Proof. unfold ticks. now rewrite filter_app, app_length. Qed.
Definition unshifted (c : circuit) : Prop := Forall (fun i => nm i <> SHIFT_COORDS) c.
Definition unread (c : circuit) : Prop := Forall (fun i => is_meas (nm i) = false) c.
Lemma list_sum_app' a b : list_sum (a ++ b) = (list_sum a + list_sum b)%nat.
Proof. apply list_sum_app. Qed.
Lemma call_shape c m m' r : run_call c m = (m', Ok r) -> ticks r = call_ticks c /\ unshifted r.
Proof.
  destruct c as [o qs|]; cbn [run_call].
  - intros H. apply apply_char in H as [_ [js [(_ & G & _) _]]]. cbn [call_ticks]. split.
    + unfold ticks. induction G as [|i r [_ A] G IH]; [reflexivity|]. cbn [filter]. destruct (eqb_spec (nm i) TICK) as [E|]; [rewrite E in A; discriminate|exact IH].
    + eapply Forall_impl; [|exact G]. intros i [_ A] E. rewrite E in A. discriminate.
  - intros H. apply sret_ok in H as [_ <-]. split; [reflexivity|]. repeat constructor. discriminate.
Qed.
Lemma block_shape b : forall m m' r, run_block b m = (m', Ok r) -> ticks r = block_ticks b /\ unshifted r.
Proof.
  induction b as [|x b IH]; intros m m' r E; cbn [run_block] in E; [injection E as _ <-; split; [reflexivity|constructor]|].
  apply sbind_ok in E as (m1 & c1 & E1 & E). apply sbind_ok in E as (m2 & c2 & E2 & E). injection E as _ <-. apply call_shape in E1 as [A1 B1]. apply IH in E2 as [A2 B2].
  split; [rewrite ticks_app, A1, A2; reflexivity|]. apply Forall_app. auto.
Qed.
Lemma blocks_shape bl : forall m m' r, run_blocks bl m = (m', Ok r) -> ticks r = nticks bl /\ unshifted r.
Proof.
  induction bl as [|b bl IH]; intros m m' r E; cbn [run_blocks] in E; [injection E as _ <-; split; [reflexivity|constructor]|].
  apply sbind_ok in E as (m0 & b' & E0 & E). injection E0 as <- ->. apply sbind_ok in E as (m1 & c1 & E1 & E). apply sbind_ok in E as (m2 & c2 & E2 & E). injection E as _ <-.
  apply block_shape in E1 as [A1 B1]. apply IH in E2 as [A2 B2]. split; [rewrite ticks_app, A1, A2; reflexivity|]. apply Forall_app. auto.
Qed.
Lemma init_ticks ord l di rot a d : get_role l "anc" = Ok a -> get_role l "data" = Ok d -> nticks (init_blocks ord l di rot) = if rot then 3%nat else 2%nat.
Proof.
  intros Ha Hd. unfold init_blocks. rewrite Ha, Hd. cbn [bind generator]. unfold nticks. rewrite map_app, list_sum_app'. unfold init_start, tick_block.
  destruct (excited di), rot; reflexivity.
Qed.

Section Blocks.
  Context (k : mkind) (sp : setup).
  Hypothesis U1 : forall p q q', param sp p [q] = param sp p [q'].
  Hypothesis U2 : forall p q q' r r', param sp p [q; q'] = param sp p [r; r'].
  Hypothesis Hk : match k with Exper | Decoh _ => False | _ => True end.
  Lemma prof_unread c : Forall nomeas (prof c) -> unread c.
  Proof. unfold prof, unread. rewrite !Forall_forall. intros F i Hi. exact (F (sig i) (in_map sig _ _ Hi)). Qed.
  Lemma block_unread b : Forall of_block b -> Forall quietcall b -> forall m m' r, kind m = k -> stp m = sp -> run_block b m = (m', Ok r) -> unread r.
  Proof.
    intros Fo Fq. induction Fo as [|x b O Fo IH]; intros m m' r Km Sm E; cbn [run_block] in E; [injection E as _ <-; constructor|].
    pose proof (Forall_inv Fq) as Q. specialize (IH (Forall_inv_tail Fq)). apply sbind_ok in E as (m1 & c1 & E1 & E). apply sbind_ok in E as (m2 & c2 & E2 & E). injection E as _ <-.
    apply Forall_app. split.
    - destruct x as [o qs|]; [|cbn in E1; injection E1 as _ <-; repeat constructor].
      destruct (apply_prof k sp U1 U2 o O Hk) as (p0 & p1 & N & P). cbn [run_call] in E1. specialize (P _ _ _ _ Km Sm E1). apply prof_unread. rewrite P.
      destruct N as [N0 N1]; [destruct o; try reflexivity; contradiction|]. now destruct qs.
    - apply run_call_static in E1 as (A1 & A2 & _). eapply IH; [| |exact E2]; congruence.
  Qed.
  Lemma blocks_unread bl : Forall (fun b => forall l, b = Ok l -> Forall of_block l) bl -> Forall quiet bl -> forall m m' r, kind m = k -> stp m = sp -> run_blocks bl m = (m', Ok r) -> unread r.
  Proof.
    intros Fo Fq. induction Fo as [|b bl O Fo IH]; intros m m' r Km Sm E; cbn [run_blocks] in E; [injection E as _ <-; constructor|].
    pose proof (Forall_inv Fq) as Q. specialize (IH (Forall_inv_tail Fq)). apply sbind_ok in E as (m0 & b' & E0 & E). injection E0 as <- ->.
    apply sbind_ok in E as (m1 & c1 & E1 & E). apply sbind_ok in E as (m2 & c2 & E2 & E). injection E as _ <-. apply Forall_app. split.
    - eapply block_unread; [now apply O|exact Q|..|exact E1]; auto.
    - apply run_block_static in E1 as (A1 & A2 & _). eapply IH; [| |exact E2]; congruence.
  Qed.
End Blocks.
Lemma at_tick_incl c : forall k i, In i (at_tick k c) -> In i c.
Proof.
  induction c as [|j c IH]; intros k i H; cbn [at_tick] in H; [destruct H|].
  destruct (eqb (nm j) TICK); destruct k; cbn [In] in *; try contradiction; try (right; eapply IH; eassumption); destruct H as [H|H]; try (now left); right; eapply IH; eassumption.
Qed.
Lemma merge_two show a b : ticks a = ticks b -> unshifted a -> unshifted b -> unread a -> unread b -> exists c, merge_circuits show true [a; b] = Ok c.
Proof.
  intros T Sa Sb Ua Ub. destruct (merge_circuits show true [a; b]) as [c|e] eqn:E; [eauto|]. exfalso.
  apply C42_raises_lemma in E; [|repeat constructor; assumption]. destruct E as (_ & [E|[(c & c' & Hc & Hc' & N)|(_ & c & c' & i & j & Hc & _ & (x & Hx & Mx) & _)]]).
  - discriminate.
  - apply N. change (ticks c = ticks c'). destruct Hc as [<-|[<-|[]]], Hc' as [<-|[<-|[]]]; congruence.
  - assert (U : unread c) by (destruct Hc as [<-|[<-|[]]]; assumption). unfold unread in U. rewrite Forall_forall in U. apply at_tick_incl in Hx. rewrite (U x Hx) in Mx. discriminate.
Qed.

Lemma siter_split {S A} (f : A -> ST S unit) a b : forall s s'', siter f (a ++ b) s = (s'', Ok tt) -> exists s', siter f a s = (s', Ok tt) /\ siter f b s' = (s'', Ok tt).
Proof.
  induction a as [|x a IH]; intros s s'' H; [exists s; split; [reflexivity|exact H]|]. cbn [siter app] in *.
  apply sbind_ok in H as (s1 & [] & H0 & H). destruct (IH _ _ H) as (s' & H1 & H2). exists s'. split; [unfold sbind; now rewrite H0|exact H2].
Qed.
Lemma activate_pair a b d0 : NoDup (labels d0) -> NoDup (a ++ b) -> incl (a ++ b) (labels d0) -> incl (labels d0) (dkeys (dcoords d0)) ->
  exists d1 d2, activate a (det_new d0) = (d1, Ok tt) /\ activate b d1 = (d2, Ok tt) /\ live d0 (a ++ b) 0 d2.
Proof.
  intros N Na K C. destruct (activate_total d0 (a ++ b) N Na K C) as (d2 & E & _). pose proof (live_start _ _ _ N C E) as L.
  unfold activate in E. destruct (strict_superset (a ++ b) _); [discriminate|]. apply siter_split in E as (d1 & E1 & E2). exists d1, d2.
  assert (A1 : activate a (det_new d0) = (d1, Ok tt)).
  { unfold activate. rewrite not_superset; [exact E1|]. intros x Hx. cbn [det_new active]. unfold dkeys. rewrite map_map, map_id. apply dedup_In. apply K, in_or_app. now left. }
  split; [exact A1|]. split; [|exact L]. unfold activate. rewrite not_superset; [exact E2|].
  pose proof (keeps_activate _ _ _ _ A1 (det_new_wf _ N)) as [Wd (S1 & _)]. rewrite (wf_active _ Wd), S1. intros x Hx. apply K, in_or_app. now right.
Qed.

Section Two.
  Context (qi : dict string Z) (W : SpecNoise.wf_inds qi) (d0 : detectors).
  Context (k : mkind) (sp : setup).
  Hypothesis U1 : forall p q q', param sp p [q] = param sp p [q'].
  Hypothesis U2 : forall p q q' r r', param sp p [q; q'] = param sp p [r; r'].
  Context (fuse : bool) (show : arg -> arg).
  Notation st3 ancs := (st3 qi d0 ancs k sp).

  Lemma blocks3 bl m L c0 : tracked qi m L c0 -> ready m -> kind m = k -> stp m = sp -> allfine qi bl -> ok_blocks bl ->
    exists m' c, run_blocks bl m = (m', Ok c) /\ tracked qi m' (L ++ lg_blocks bl) (c0 ++ c) /\ ready m' /\ kind m' = k /\ stp m' = sp.
  Proof.
    intros T R Km Sm F O. destruct (run_blocks_total qi W bl m (measured c0) (tk_qi _ _ _ _ T) (tk_inv _ _ _ _ T) R F) as (m' & c & E & Ss & _).
    exists m', c. split; [exact E|]. split; [eapply tracked_blocks; eauto|]. split; [eapply ready_static; eauto|]. destruct Ss as (A & B & _). split; congruence.
  Qed.
  Lemma gate3 ancs ord ordp l1 l2 gate nc nt n w : cnot_label l1 l2 = Ok gate -> new_stab_dict l1 gate = Ok nc -> new_stab_dict l2 gate = Ok nt ->
    (forall a l, In (a, l) (dupdate nc nt) -> In a ancs /\ incl l ancs) -> ~ singular_map (labels d0) (DUpdD (dupdate nc nt)) ->
    allfine qi (trans_cnot_blocks ord ordp l1 l2) -> ok_blocks (trans_cnot_blocks ord ordp l1 l2) -> st3 ancs n w ->
    exists w' c, log_trans_cnot ord ordp l1 l2 w = (w', Ok c) /\ st3 ancs n w'.
  Proof.
    intros El En Et Hi Hr F O ((L & c0 & T & R & D & C) & Hk & Hs). destruct w as [m dd]. cbn [fst snd] in *.
    destruct (live_gate d0 ancs n dd (dupdate nc nt) D Hi) as (d' & Eu & D'); [rewrite (proj1 (lv_same _ _ _ _ D)); exact Hr|].
    destruct (blocks3 _ m L c0 T R Hk Hs F O) as (m' & c & E & T' & R' & Hk' & Hs').
    exists (m', d'), c. split.
    - unfold log_trans_cnot, slift. unfold sbind at 1. rewrite El. unfold sbind at 1. rewrite En. unfold sbind at 1. rewrite Et. unfold sbind, ond, onm. cbn [fst snd]. rewrite Eu. cbn [fst snd]. now rewrite E.
    - split; [|cbn [fst]; auto]. eexists _, _. split; [exact T'|]. split; [exact R'|]. split; [exact D'|]. intros a H. rewrite mlab_app, count_app'. specialize (C a H). lia.
  Qed.

  Context (Nl : NoDup (labels d0)) (Cl : incl (labels d0) (dkeys (dcoords d0))).
  Lemma init3 ord1 ord2 l1 l2 a1 a2 data1 data2 di1 di2 rot m c0 : get_role l1 "anc" = Ok a1 -> get_role l2 "anc" = Ok a2 -> get_role l1 "data" = Ok data1 -> get_role l2 "data" = Ok data2 ->
    NoDup (a1 ++ a2) -> incl (a1 ++ a2) (labels d0) -> tracked qi m [] c0 -> ready m -> kind m = k -> stp m = sp ->
    allfine qi (init_blocks ord1 l1 di1 rot) -> allfine qi (init_blocks ord2 l2 di2 rot) ->
    exists w1 ic w2 it c1, init_qubits ord1 l1 di1 rot (m, det_new d0) = (w1, Ok ic) /\ init_qubits ord2 l2 di2 rot w1 = (w2, Ok it) /\
      merge_circuits show true [ic; it] = Ok c1 /\ st3 (a1 ++ a2) 0 w2.
  Proof.
    intros E1 E2 D1 D2 Na K T R Hk Hs F1 F2. destruct (activate_pair a1 a2 d0 Nl Na K Cl) as (e1 & e2 & A1 & A2 & Lv).
    pose proof (init_measures ord1 l1 di1 rot) as Q1. pose proof (init_measures ord2 l2 di2 rot) as Q2.
    destruct (blocks3 _ m [] c0 T R Hk Hs F1 (proj1 (quiet_blocks _ Q1))) as (m1 & ic & B1 & T1 & R1 & Hk1 & Hs1).
    destruct (blocks3 _ m1 _ _ T1 R1 Hk1 Hs1 F2 (proj1 (quiet_blocks _ Q2))) as (m2 & it & B2 & T2 & R2 & Hk2 & Hs2).
    pose proof (ready_kind _ R) as Rk. rewrite Hk in Rk.
    assert (O1 : Forall (fun b => forall l, b = Ok l -> Forall of_block l) (init_blocks ord1 l1 di1 rot)) by (eapply Forall_impl; [|exact F1]; intros b; apply fine_of).
    assert (O2 : Forall (fun b => forall l, b = Ok l -> Forall of_block l) (init_blocks ord2 l2 di2 rot)) by (eapply Forall_impl; [|exact F2]; intros b; apply fine_of).
    pose proof (blocks_unread k sp U1 U2 Rk _ O1 Q1 _ _ _ Hk Hs B1) as N1. pose proof (blocks_unread k sp U1 U2 Rk _ O2 Q2 _ _ _ Hk1 Hs1 B2) as N2.
    destruct (blocks_shape _ _ _ _ B1) as [K1 V1]. destruct (blocks_shape _ _ _ _ B2) as [K2 V2].
    destruct (merge_two show ic it) as [c1 Ec]; auto.
    { rewrite K1, K2, (init_ticks _ _ _ _ _ _ E1 D1), (init_ticks _ _ _ _ _ _ E2 D2). reflexivity. }
    exists (m1, e1), ic, (m2, e2), it, c1. split; [|split; [|split; [exact Ec|]]].
    - unfold init_qubits, init_with, slift, sbind at 1. rewrite E1. cbv beta iota. unfold sbind, ond, onm. cbn [fst snd]. rewrite A1. cbn [fst snd]. now rewrite B1.
    - unfold init_qubits, init_with, slift, sbind at 1. rewrite E2. cbv beta iota. unfold sbind, ond, onm. cbn [fst snd]. rewrite A2. cbn [fst snd]. now rewrite B2.
    - split; [|cbn [fst]; auto]. eexists _, _. split; [exact T2|]. split; [exact R2|]. split; [exact Lv|]. lia.
  Qed.
  Lemma start3 ls w : inds (fst w) = qi -> (forall l, In l ls -> exists cs, LayoutM.qubit_coords l = Ok cs /\ incl (dkeys cs) (dkeys qi)) ->
    exists c, exp_start ls w = ((new_circuit (fst w), det_new (snd w)), Ok c).
  Proof.
    intros E Hc. unfold exp_start, sbind, onm, ond, sread. cbn [fst snd]. unfold block_coords.
    match goal with |- context [mapM ?f ls] => destruct (mapM_total f ls) as [cs ->]; [|cbn; eauto] end.
    intros l Hl. destruct (Hc l Hl) as (cs & Ec & Hi). rewrite Ec. cbn [bind].
    unfold NoiseM.qubit_coords. change (inds (new_circuit (fst w))) with (inds (fst w)). rewrite E, not_superset by exact Hi.
    match goal with |- exists y, foldM ?f cs [] = _ => apply (foldM_total f cs) end.
    intros c kv H. destruct (key_get (fst kv) qi) as [i Ei]; [apply Hi, in_map_iff; eauto|]. unfold dget_err. rewrite Ei. cbn. eauto.
  Qed.

  (** * The experiment *)
  Context (lc lt : layout) (ac at_ dc dt : list string).
  Hypothesis Hac : get_role lc "anc" = Ok ac.
  Hypothesis Hat : get_role lt "anc" = Ok at_.
  Hypothesis Hdc : get_role lc "data" = Ok dc.
  Hypothesis Hdt : get_role lt "data" = Ok dt.
  Let ancs := ac ++ at_.
  Hypothesis Na : NoDup ancs.
  Hypothesis Ka : incl ancs (dkeys qi).
  Hypothesis Kc : incl dc (dkeys qi).
  Hypothesis Kt : incl dt (dkeys qi).
  Hypothesis Kl : incl ancs (labels d0).
  Context (ordt : nat -> nat -> list string -> list string) (ordp : nat -> nat -> list (string * string) -> list (string * string)).
  Hypothesis Hord : forall t i s, Permutation (ordt t i s) s.
  Context (code : string) (reset rot : bool).
  Notation it := (fun ord => css_round ord code).
  Hypothesis Fc : forall t, allfine qi (css_round (ordt t) code lc reset).
  Hypothesis Ft : forall t, allfine qi (css_round (ordt t) code lt reset).
  Hypothesis Al : forall t t', Forall2 alike (css_round (ordt t) code lc reset) (css_round (ordt t') code lt reset).
  Hypothesis Al' : forall t t', Forall2 alike (css_round (ordt t) code lt reset) (css_round (ordt t') code lc reset).
  Hypothesis Gc : allfine qi (log_meas_blocks lc rot).
  Hypothesis Gt : allfine qi (log_meas_blocks lt rot).
  Hypothesis Am : Forall2 alike (log_meas_blocks lc rot) (log_meas_blocks lt rot).
  Hypothesis Am' : Forall2 alike (log_meas_blocks lt rot) (log_meas_blocks lc rot).
  Hypothesis Mc : measurable ancs lc dc rot.
  Hypothesis Mt : measurable ancs lt dt rot.
  Context (alt : bool).
  Hypothesis Hg : forall t n w, st3 ancs n w -> exists w' c, log_trans_cnot (ordt t) (ordp t) lc lt w = (w', Ok c) /\ st3 ancs n w'.
  Hypothesis Hg' : alt = true -> forall t n w, st3 ancs n w -> exists w' c, log_trans_cnot (ordt t) (ordp t) lt lc w = (w', Ok c) /\ st3 ancs n w'.

  Definition pair_of (l1 l2 : layout) : Prop := (l1 = lc /\ l2 = lt) \/ (alt = true /\ l1 = lt /\ l2 = lc).
  Definition round_at (ds : list string) (j : nat) (l1 l2 : layout) : ST world circuit :=
    merge_qec_rounds fuse (fun p => it (ordt (3 + 2 * j + p)%nat)) [l1; l2] reset (Some ds).
  Lemma pair_round ds j l1 l2 n w : pair_of l1 l2 -> incl ds ancs -> st3 ancs n w -> exists w' c, round_at ds j l1 l2 w = (w', Ok c) /\ st3 ancs (S n) w'.
  Proof.
    intros [[-> ->]|(_ & -> & ->)] Hd S; unfold round_at.
    - eapply round3; eauto; try exact Ka; try (apply only_ok, css_measures; assumption).
    - eapply round3; eauto; try exact Ka; try (apply only_ok, css_measures; assumption). intros a Ha. apply in_app_or in Ha. apply in_or_app. tauto.
  Qed.
  Lemma rounds_loop ds j l1 l2 R : pair_of l1 l2 -> incl ds ancs -> forall i acc n w, st3 ancs n w ->
    exists w' c n', sfold (fun acc r => sdo c <- round_at ds (j + 1 + r)%nat l1 l2; sret (acc ++ c)) (seq i R) acc w = (w', Ok c) /\ st3 ancs n' w'.
  Proof.
    intros P Hd. induction R as [|R IH]; intros i acc n w S; cbn [seq sfold]; [exists w, acc, n; split; [reflexivity|exact S]|].
    destruct (pair_round ds (j + 1 + i)%nat l1 l2 n w P Hd S) as (w1 & c1 & E1 & S1). unfold sbind at 1 2. rewrite E1. unfold sret at 1. now apply (IH (Datatypes.S i) (acc ++ c1) (Datatypes.S n)).
  Qed.
  Lemma loop3 ds R N : incl ds ancs -> forall i l1 l2 acc n w, pair_of l1 l2 -> st3 ancs n w ->
    exists w' c l1' l2' n', cnot_loop ordt ordp (round_at ds) alt R N i l1 l2 acc w = (w', Ok (c, l1', l2')) /\ pair_of l1' l2' /\ st3 ancs n' w'.
  Proof.
    intros Hd. induction N as [|N IH]; intros i l1 l2 acc n w P S; cbn [cnot_loop]; [exists w, acc, l1, l2, n; split; [reflexivity|auto]|].
    destruct (if alt && Nat.odd i then (l2, l1) else (l1, l2)) as [x y] eqn:Exy.
    assert (P' : pair_of x y).
    { destruct alt eqn:Ea; cbn [andb] in Exy; [|injection Exy as <- <-; exact P]. destruct (Nat.odd i); injection Exy as <- <-; [|exact P].
      destruct P as [[-> ->]|(_ & -> & ->)]; [right|left]; auto. }
    cbv zeta. set (t := (3 + 2 * (1 + i * Datatypes.S R))%nat).
    assert (G : exists w1 c1, log_trans_cnot (ordt t) (ordp t) x y w = (w1, Ok c1) /\ st3 ancs n w1) by (destruct P' as [[-> ->]|(Ea & -> & ->)]; eauto).
    destruct G as (w1 & c1 & E1 & S1). unfold sbind at 1. rewrite E1.
    destruct (rounds_loop ds (1 + i * Datatypes.S R)%nat x y R P' Hd 0%nat [] n w1 S1) as (w2 & c2 & n2 & E2 & S2). unfold sbind at 1. rewrite E2. eapply IH; eauto.
  Qed.

  Context (m : model) (di : dict string Z) (dets : option (list string)) (gauge : bool) (n R : Z) (ori : string).
  Hypothesis Em : inds m = qi.
  Hypothesis Rm : ready m.
  Hypothesis Km : kind m = k.
  Hypothesis Sm : stp m = sp.
  Hypothesis Cs : forall l, In l [lc; lt] -> exists cs, LayoutM.qubit_coords l = Ok cs /\ incl (dkeys cs) (dkeys qi).
  Hypothesis Hds : forall ds, dets = Some ds -> incl ds ancs.
  Hypothesis Hr : 0 <= R.
  Hypothesis Hn : 0 <= n.
  Hypothesis Ho : ori = "constant"%string /\ alt = false \/ ori = "alternating"%string /\ alt = true.
  Hypothesis Ic : forall di', (forall q b, In (q, b) di' -> In q (dkeys (l_nodes lc))) -> allfine qi (init_blocks (ordt 1%nat) lc di' rot).
  Hypothesis It : forall di', (forall q b, In (q, b) di' -> In q (dkeys (l_nodes lt))) -> allfine qi (init_blocks (ordt 2%nat) lt di' rot).
  Lemma cnot_total : returns (repeated_cnot_with fuse show ordt ordp it lc lt n R di ori rot reset dets gauge (m, d0)).
  Proof.
    unfold repeated_cnot_with. replace (R <? 0) with false by lia. replace (n <? 0) with false by lia.
    assert (X : exists ds, match dets with Some d => Ok d | None => do c <- get_role lc "anc"; do t <- get_role lt "anc"; Ok (c ++ t) end = Ok ds /\ incl ds ancs).
    { destruct dets as [ds|]; [eauto|]. rewrite Hac, Hat. cbn [bind]. exists (ac ++ at_). split; [reflexivity|apply incl_refl]. }
    destruct X as (ds & Eds & Hd). unfold slift at 1, sbind at 1. rewrite Eds. cbv beta iota.
    assert (Hm : mem ori ["constant"; "alternating"]%string = true) by (destruct Ho as [[-> _]|[-> _]]; reflexivity). rewrite Hm. cbn [negb].
    assert (Ea : eqb ori "alternating"%string = alt) by (destruct Ho as [[-> ->]|[-> ->]]; reflexivity). rewrite Ea.
    unfold slift at 1, sbind at 1. unfold init_part, get_qubits. cbn [bind]. unfold slift at 1, sbind at 1.
    set (d1 := filter _ di). set (d2 := filter _ di).
    assert (I1 : forall q b, In (q, b) d1 -> In q (dkeys (l_nodes lc))) by (intros q b Hx; apply filter_In in Hx as [_ Hx]; now apply mem_In in Hx).
    assert (I2 : forall q b, In (q, b) d2 -> In q (dkeys (l_nodes lt))) by (intros q b Hx; apply filter_In in Hx as [_ Hx]; now apply mem_In in Hx). clearbody d1 d2.
    destruct (start3 [lc; lt] (m, d0) Em Cs) as [c0 E0].
    assert (W0 : SpecNoise.wf_inds (inds (fst (m, d0)))) by (cbn [fst]; rewrite Em; exact W).
    destruct (start_ok _ _ _ _ W0 E0) as (_ & _ & _ & T0). cbn [fst snd] in T0. rewrite Em in T0. unfold sbind at 1. rewrite E0. cbn [fst snd].
    destruct (init3 (ordt 1%nat) (ordt 2%nat) lc lt ac at_ dc dt d1 d2 rot (new_circuit m) c0) as (w1 & ic & w2 & i2 & c1 & E1 & E2 & E3 & S2); auto.
    unfold sbind at 1. rewrite E1. unfold sbind at 1. rewrite E2. unfold slift at 1, sbind at 1. rewrite E3. cbv beta iota.
    assert (A : exists ds1, (if gauge then Ok ds else do sc <- get_stabs lc (basis_type rot); do st <- get_stabs lt (basis_type rot); Ok (ordt 0%nat 0%nat (inter (dedup ds) (sc ++ st)))) = Ok ds1 /\ incl ds1 ancs).
    { destruct gauge; [eauto|]. destruct Mc as [(s1 & -> & _) _], Mt as [(s2 & -> & _) _]. cbn [bind]. eexists. split; [reflexivity|].
      intros a H. apply (Permutation_in _ (Hord _ _ _)) in H. unfold inter in H. apply filter_In in H as [H _]. apply (proj1 (dedup_In _ a)) in H. auto. }
    destruct A as (ds1 & Ed1 & Hd1). unfold slift at 1, sbind at 1. rewrite Ed1. cbv beta iota zeta.
    assert (P0 : pair_of lc lt) by now left.
    destruct (pair_round ds1 0%nat lc lt 0%nat w2 P0 Hd1 S2) as (w3 & c2 & E4 & S3). unfold sbind at 1. change (merge_qec_rounds fuse _ [lc; lt] reset (Some ds1)) with (round_at ds1 0%nat lc lt). rewrite E4.
    destruct (loop3 ds (Z.to_nat R) (Z.to_nat n) Hd 0%nat lc lt [] 1%nat w3 P0 S3) as (w4 & c3 & x & y & n' & E5 & P' & S4).
    unfold sbind at 1. change (fun (j : nat) (l0 l1 : layout) => merge_qec_rounds fuse _ [l0; l1] reset (Some ds)) with (round_at ds). rewrite E5. cbv beta iota.
    assert (Q : exists w' c, merge_log_meas fuse (fun _ => log_meas_blocks) [x; y] [rot; rot] reset (Some ds) w4 = (w', Ok c)).
    { destruct P' as [[-> ->]|(_ & -> & ->)]; (eapply meas3; [exact W|exact U1|exact U2|exact Ka|exact S4|exact Hd|eauto..]); auto. intros a Ha. apply in_app_or in Ha. apply in_or_app. tauto. }
    destruct Q as (w5 & c4 & E6). unfold sbind. rewrite E6. unfold returns, sret. cbn. eauto.
  Qed.
End Two.
