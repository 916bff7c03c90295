(** Proofs for Props_Time.v (C83): the experiments. *)
From Coq Require Import QArith Qcanon.
From Verif Require Import Base StimM SetupM MatM NoiseM LayoutM DetM BlockM ExpM Lib SpecTime NoiseP FreshP TimeP TimeP2 TimeP3.
Open Scope Z_scope.

Lemma sfold_ext {S A B} (f f' : B -> A -> ST S B) l : (forall b a s, In a l -> f b a s = f' b a s) -> forall b s, sfold f l b s = sfold f' l b s.
Proof.
  induction l as [|a l IH]; intros H b s; [reflexivity|]. cbn [sfold]. unfold sbind. rewrite H by now left.
  destruct (f' b a s) as [s1 [b1|]]; [|reflexivity]. apply IH. intros. apply H. now right.
Qed.
Lemma sfold_app {S A B} (f : B -> A -> ST S B) l l' : forall b s, sfold f (l ++ l') b s = sbind (sfold f l b) (sfold f l') s.
Proof.
  induction l as [|a l IH]; intros b s; [reflexivity|]. cbn [app sfold]. unfold sbind in *. destruct (f b a s) as [s1 [b1|]]; [|reflexivity]. rewrite IH. reflexivity.
Qed.

Section Loop.
  Context (s0 : world) (bl : blocks) (rd : list string -> ST world circuit) (first : res (list string)) (dets : list string) (reset : bool).
  Context (H1 : forall ds w w2 c, rd ds w = (w2, Ok c) -> exists w1 c1 req d,
            onm (run_blocks bl) w = (w1, Ok c1) /\ ond (fun m => build_from_anc (meas_target m) reset req) w1 = (w2, Ok d))
          (H2 : forall ds k, wsim k (rd ds)).
  Notation St := (St s0 (blocks_labs bl)).
  Definition body (acc : circuit) (r : nat) : ST world circuit :=
    sdo ds <- slift (if Nat.eqb r 0 then first else Ok dets);
    sdo c <- rd ds;
    sret (acc ++ c).
  Lemma rd_St t ds w w2 c : St t w -> rd ds w = (w2, Ok c) -> St (S t) w2.
  Proof. intros H E. destruct (H1 _ _ _ _ E) as (w1 & c1 & req & d & E1 & E2). eapply St_round; eauto. Qed.
  Lemma body_St n : forall i acc w w' c, St i w -> sfold body (seq i n) acc w = (w', Ok c) -> St (i + n) w'.
  Proof.
    induction n as [|n IH]; intros i acc w w' c H E; cbn [seq sfold] in E.
    - apply sret_ok in E as [-> _]. now rewrite Nat.add_0_r.
    - apply sbind_ok in E as (w1 & a1 & E1 & E). rewrite Nat.add_succ_r. change (Datatypes.S (i + n))%nat with (Datatypes.S i + n)%nat. eapply IH; [|exact E].
      unfold body in E1. apply sbind_ok in E1 as (wx & ds & Ex & E1). injection Ex as <- _. apply sbind_ok in E1 as (w2 & c2 & E2 & E1). apply sret_ok in E1 as [-> _].
      eapply rd_St; eauto.
  Qed.
  Lemma body_tail s3 b : St 3 s3 -> snd (rd dets s3) = Ok b -> forall n k acc w, St (3 + k) w ->
    exists w', sfold body (seq (3 + k) n) acc w = (w', Ok (acc ++ concat (map (fun j => map (later (Z.of_nat (k + j))) b) (seq 0 n)))) /\ St (3 + k + n) w'.
  Proof.
    intros H3 Eb. induction n as [|n IH]; intros k acc w H.
    - exists w. cbn. rewrite app_nil_r, Nat.add_0_r. split; [reflexivity|exact H].
    - assert (W := St_near s0 (blocks_labs bl) 3 k s3 w (le_n _) H3 H). assert (E := H2 dets (Z.of_nat k) s3 w W). rewrite Eb in E. cbn [rmap] in E.
      destruct (rd dets w) as [w1 r] eqn:E1. cbn in E. subst r. assert (G := rd_St _ _ _ _ _ H E1).
      replace (Datatypes.S (3 + k)) with (3 + Datatypes.S k)%nat in G by lia. destruct (IH (Datatypes.S k) (acc ++ map (later (Z.of_nat k)) b) w1 G) as (w' & E2 & G2).
      exists w'. split; [|replace (3 + k + Datatypes.S n)%nat with (3 + Datatypes.S k + n)%nat by lia; exact G2].
      cbn [seq sfold]. unfold body at 1, sbind, slift. cbn [Nat.add Nat.eqb]. rewrite E1. cbn [sret]. unfold sret.
      change (Datatypes.S (Datatypes.S (Datatypes.S (Datatypes.S k)))) with (3 + Datatypes.S k)%nat. rewrite E2. f_equal. f_equal. rewrite <- app_assoc. f_equal.
      cbn [map concat]. rewrite Nat.add_0_r. f_equal. rewrite <- seq_shift, map_map. f_equal. apply map_ext. intros j. now rewrite Nat.add_succ_r.
  Qed.

  Context (meas : ST world circuit) (Hm : forall k, wsim k meas) (c0 c1 : circuit) (Hs : St 0 s0).
  Definition tailprog (n : nat) : ST world circuit :=
    sdo c2 <- sfold body (seq 0 n) []; sdo c3 <- meas; sret (c0 ++ c1 ++ c2 ++ c3).
  Lemma tail_tiles w c : tailprog 4 s0 = (w, Ok c) ->
    exists a b m, forall n, snd (tailprog (3 + n) s0) = Ok (a ++ tiles n b ++ map (later (Z.of_nat n)) m).
  Proof.
    intros E. unfold tailprog in E. apply sbind_ok in E as (s4 & acc4 & E & E'). apply sbind_ok in E' as (s5 & c3 & E3 & _).
    change (seq 0 4) with (seq 0 3 ++ [3%nat]) in E. rewrite sfold_app in E. apply sbind_ok in E as (s3 & acc3 & Ea & E).
    assert (H3 : St 3 s3) by exact (body_St 3 0 [] s0 s3 acc3 Hs Ea).
    cbn [sfold] in E. apply sbind_ok in E as (s4' & x & Ex & E). apply sret_ok in E as [-> _].
    unfold body in Ex. cbn [Nat.eqb] in Ex. apply sbind_ok in Ex as (wx & ds & Ed & Ex). injection Ed as <- <-. apply sbind_ok in Ex as (w2 & b & Eb & Ex). apply sret_ok in Ex as [-> _].
    assert (H4 : St (3 + 1) w2) by exact (rd_St _ _ _ _ _ H3 Eb).
    assert (Em := Hm 1 s3 w2 (St_near s0 _ 3 1 s3 w2 (le_n _) H3 H4)). rewrite E3 in Em. cbn [snd] in Em.
    destruct (snd (meas s3)) as [m|] eqn:Es; [|discriminate]. clear Em.
    exists (c0 ++ c1 ++ acc3), b, m. intros n. unfold tailprog. unfold sbind at 1. rewrite seq_app, sfold_app. unfold sbind at 1. rewrite Ea.
    assert (Eb' : snd (rd dets s3) = Ok b) by now rewrite Eb.
    destruct (body_tail s3 b H3 Eb' n 0 acc3 s3 H3) as (w' & Et & Hn). cbn [Nat.add] in Et |- *. rewrite Et.
    assert (En := Hm (Z.of_nat n) s3 w' (St_near s0 _ 3 n s3 w' (le_n _) H3 Hn)). rewrite Es in En. unfold sbind. destruct (meas w') as [w'' r]; cbn in En; subst r.
    cbn. unfold tiles. now rewrite <- !app_assoc.
  Qed.
End Loop.

(** * The state after the initialization *)
Lemma det_start_counts d : let d1 := det_new d in
  prev_gen d1 = curr_gen d1 /\ total d1 = 0 /\ forall a, dget a (num_rounds d1) = option_map (fun _ : bool => 0) (dget a (active d1)).
Proof.
  cbn. split; [reflexivity|]. split; [reflexivity|]. intros a. induction (dedup (labels d)) as [|x l IH]; [reflexivity|]. cbn. destruct (eqb a x); auto.
Qed.
Lemma activate_counts l : forall d d' , siter activate_one l d = (d', Ok tt) ->
  prev_gen d = curr_gen d /\ total d = 0 /\ (forall a, dget a (num_rounds d) = option_map (fun _ : bool => 0) (dget a (active d))) ->
  prev_gen d' = curr_gen d' /\ total d' = 0 /\ (forall a, dget a (num_rounds d') = option_map (fun _ : bool => 0) (dget a (active d'))).
Proof.
  induction l as [|x l IH]; intros d d' E H; cbn [siter] in E; [apply sret_ok in E as [-> _]; exact H|].
  apply sbind_ok in E as (d1 & [] & E1 & E). apply (IH _ _ E). unfold activate_one in E1. destruct (dget x (active d)) as [[]|]; try discriminate. injection E1 as <-.
  cbn. destruct H as (A & B & C). split; [exact A|]. split; [exact B|]. intros a. rewrite !dget_dset. destruct (eqb x a); [reflexivity|apply C].
Qed.
Lemma init_state (it : layout -> dict string Z -> bool -> blocks) ls l di rot w s0 c0 c1 wx M :
  blocks_labs (it l di rot) = [] -> exp_start ls w = (wx, Ok c0) -> init_with it l di rot wx = (s0, Ok c1) -> St s0 M 0 s0.
Proof.
  intros Hl E1 E2. unfold exp_start in E1. apply sbind_ok in E1 as (w1 & u1 & A1 & E1). injection A1 as <- _.
  apply sbind_ok in E1 as (w2 & u2 & A2 & E1). injection A2 as <- _. unfold onm, sread in E1. injection E1 as <- _.
  unfold init_with in E2. apply sbind_ok in E2 as (w3 & anc & A3 & E2). injection A3 as <- _.
  apply sbind_ok in E2 as (w4 & [] & A4 & E2). unfold ond in A4. cbn [fst snd] in A4. destruct (activate anc (det_new (snd w))) as [d1 r] eqn:Ea. injection A4 as <- ->.
  unfold onm in E2. cbn [fst snd] in E2. destruct (run_blocks _ (new_circuit (fst w))) as [m1 r] eqn:Eb. injection E2 as <- ->.
  apply blocks_adds in Eb. rewrite Hl in Eb. apply sret_ok in Eb as [-> _].
  unfold activate in Ea. destruct (strict_superset _ _); [discriminate|]. destruct (activate_counts _ _ _ Ea (det_start_counts (snd w))) as (P & T & C).
  split; [apply same_static_refl|]. split; cbn [fst snd].
  - intros q. unfold past. cbn [new_circuit order num]. 
    assert (X : forall (qi : dict string Z), dget q (map (fun kv => (fst kv, @nil Z)) qi) = option_map (fun _ => []) (dget q qi)).
    { induction qi as [|[x v] qi IH]; [reflexivity|]. cbn. destruct (eqb q x); auto. }
    rewrite X. destruct (dget q (inds (fst w))); reflexivity.
  - constructor; auto. intros a. rewrite C. destruct (dget a (active d1)) as [[]|]; reflexivity.
Qed.
Lemma init_labs ord l di rot : blocks_labs (init_blocks ord l di rot) = [].
Proof.
  unfold init_blocks, generator. destruct (get_role l "anc"); [|reflexivity]. cbn [bind]. destruct (get_role l "data"); [|reflexivity]. cbn [bind].
  unfold init_start. cbv zeta. destruct (excited di); destruct rot; reflexivity.
Qed.
Lemma init_labs_xzzx ord l di rot : blocks_labs (init_xzzx_blocks ord l di rot) = [].
Proof.
  unfold init_xzzx_blocks, generator. destruct (negb _); [reflexivity|]. destruct (get_role l "anc"); [|reflexivity]. cbn [bind]. destruct (get_role l "data"); [|reflexivity]. cbn [bind].
  unfold init_start. cbv zeta. destruct (get_stabs l _); destruct (excited di); reflexivity.
Qed.

Lemma round_parts it l reset dets w w2 c : qec_round it l reset dets w = (w2, Ok c) -> exists w1 c1 req d,
  onm (run_blocks (it l reset)) w = (w1, Ok c1) /\ ond (fun m => build_from_anc (meas_target m) reset req) w1 = (w2, Ok d).
Proof.
  unfold qec_round. intros E. apply sbind_ok in E as (w1 & c1 & E1 & E). apply sbind_ok in E as (wx & anc & Ex & E). injection Ex as <- _.
  cbv zeta in E. destruct (strict_superset _ _); [discriminate|]. apply sbind_ok in E as (w3 & d & E3 & E). apply sret_ok in E as [-> _]. eauto 10.
Qed.
Lemma ground_parts ord l dets w w2 c : google_qec_round ord l dets w = (w2, Ok c) -> exists w1 c1 req d,
  onm (run_blocks (google_round ord l)) w = (w1, Ok c1) /\ ond (fun m => build_from_anc (meas_target m) true req) w1 = (w2, Ok d).
Proof.
  unfold google_qec_round. intros E. apply sbind_ok in E as (w1 & c1 & E1 & E). apply sbind_ok in E as (w3 & d & E3 & E). apply sret_ok in E as [-> _]. eauto 10.
Qed.

Section Memory.
  Context (ordt : nat -> nat -> list string -> list string) (Ho : forall r, ordt (3 + r)%nat = ordt 3%nat).
  (* the loop over the rounds with the same order in every round *)
  Lemma rounds_body (round : nat -> list string -> ST world circuit) rd l rot gauge dets n s : (forall r ds w, round r ds w = rd ds w) ->
    exp_rounds ordt round l rot gauge dets n s = sfold (body rd (if negb gauge then first_dets ordt l rot dets else Ok dets) dets) (seq 0 n) [] s.
  Proof.
    intros H. unfold exp_rounds. apply sfold_ext. intros b r w _. unfold body, sbind, slift.
    destruct (Nat.eqb r 0), (negb gauge); cbn [andb]; try (destruct (first_dets ordt l rot dets) as [ds|]; [|reflexivity]); now rewrite H.
  Qed.
  Lemma memory_tiles (it : (nat -> list string -> list string) -> layout -> bool -> blocks) (bi : layout -> dict string Z -> bool -> blocks) meas l di rot reset dets gauge w w1 c :
    (forall l di rot, blocks_labs (bi l di rot) = []) -> (forall l rot reset dets k, wsim k (meas l rot reset dets)) ->
    memory_with ordt (init_with bi) (fun r => qec_round (it (ordt (3 + r)%nat))) meas l 4 di rot reset dets gauge w = (w1, Ok c) ->
    exists a b m, forall n, snd (memory_with ordt (init_with bi) (fun r => qec_round (it (ordt (3 + r)%nat))) meas l (3 + Z.of_nat n) di rot reset dets gauge w) =
      Ok (a ++ tiles n b ++ map (later (Z.of_nat n)) m).
  Proof.
    intros Hi Hm E. unfold memory_with in *. cbn [Z.ltb Z.compare] in E.
    apply sbind_ok in E as (wx & ds & Ex & E). injection Ex as <- Ed. apply sbind_ok in E as (wx & c0 & E0 & E). apply sbind_ok in E as (s0 & c1 & E1 & E).
    set (rd := fun ds => qec_round (it (ordt 3%nat)) l reset (Some ds)).
    set (first := if negb gauge then first_dets ordt l rot ds else Ok ds).
    assert (Hr : forall r ds w, qec_round (it (ordt (3 + r)%nat)) l reset (Some ds) w = rd ds w) by (intros; unfold rd; now rewrite Ho).
    assert (Et : tailprog rd first ds (meas l rot reset (Some ds)) c0 c1 4 s0 = (w1, Ok c)).
    { rewrite <- E. unfold tailprog, first. unfold sbind at 1 3. rewrite <- (rounds_body (fun r ds => qec_round (it (ordt (3 + r)%nat)) l reset (Some ds)) rd l rot gauge ds 4 s0 Hr). reflexivity. }
    destruct (tail_tiles s0 (it (ordt 3%nat) l reset) rd first ds reset (fun ds w w2 c => round_parts _ _ _ _ _ _ _) (fun ds k => sim_round _ _ _ _ _)
      (meas l rot reset (Some ds)) (fun k => Hm _ _ _ _ _) c0 c1 (init_state _ _ _ _ _ _ _ _ _ _ _ (Hi l di rot) E0 E1) w1 c Et) as (a & b & m & H).
    exists a, b, m. intros n. rewrite <- H. replace (3 + Z.of_nat n <? 0) with false by (symmetry; apply Z.ltb_ge; lia).
    unfold sbind at 1, slift. rewrite Ed. unfold sbind at 1. rewrite E0. unfold sbind at 1. rewrite E1. replace (Z.to_nat (3 + Z.of_nat n)) with (3 + n)%nat by lia.
    unfold tailprog, first. unfold sbind at 1 3. rewrite (rounds_body (fun r ds => qec_round (it (ordt (3 + r)%nat)) l reset (Some ds)) rd l rot gauge ds (3 + n) s0 Hr). reflexivity.
  Qed.
  Lemma C83_lemma k l di rot reset dets gauge w w1 c : memory ordt k l 4 di rot reset dets gauge w = (w1, Ok c) ->
    exists a b m, forall n, snd (memory ordt k l (3 + Z.of_nat n) di rot reset dets gauge w) = Ok (a ++ tiles n b ++ map (later (Z.of_nat n)) m).
  Proof.
    destruct k; apply memory_tiles; intros; try apply init_labs; try apply init_labs_xzzx; try apply sim_meas_with; apply sim_meas_xzzx.
  Qed.
  Lemma C83_google_lemma l di rot dets gauge w w1 c : memory_google ordt l 5 di rot dets gauge w = (w1, Ok c) ->
    exists a b m, forall n, snd (memory_google ordt l (4 + Z.of_nat n) di rot dets gauge w) = Ok (a ++ tiles n b ++ map (later (Z.of_nat n)) m).
  Proof.
    intros E. unfold memory_google in *. cbn [Z.leb Z.compare Z.eqb Pos.eqb] in E.
    apply sbind_ok in E as (wx & ds & Ex & E). injection Ex as <- Ed. apply sbind_ok in E as (wx & c0 & E0 & E). apply sbind_ok in E as (s0 & c1 & E1 & E).
    change (Z.to_nat (5 - 1)) with 4%nat in E.
    set (rd := fun ds => google_qec_round (ordt 3%nat) l (Some ds)).
    set (first := if negb gauge then first_dets ordt l rot ds else Ok ds).
    assert (Hr : forall r ds w, google_qec_round (ordt (3 + r)%nat) l (Some ds) w = rd ds w) by (intros; unfold rd; now rewrite Ho).
    assert (Et : tailprog rd first ds (google_log_meas (ordt 2) l rot (Some ds)) c0 c1 4 s0 = (w1, Ok c)).
    { rewrite <- E. unfold tailprog, first. unfold sbind at 1 3. rewrite <- (rounds_body (fun r ds => google_qec_round (ordt (3 + r)%nat) l (Some ds)) rd l rot gauge ds 4 s0 Hr). reflexivity. }
    destruct (tail_tiles s0 (google_round (ordt 3%nat) l) rd first ds true (fun ds w w2 c => ground_parts _ _ _ _ _ _) (fun ds k => sim_ground _ _ _ _)
      (google_log_meas (ordt 2) l rot (Some ds)) (fun k => sim_gmeas _ _ _ _ _) c0 c1 (init_state _ _ _ _ _ _ _ _ _ _ _ (init_labs_xzzx (ordt 1) l di rot) E0 E1) w1 c Et) as (a & b & m & H).
    exists a, b, m. intros n. rewrite <- H. replace (4 + Z.of_nat n <=? 0) with false by (symmetry; apply Z.leb_gt; lia).
    unfold sbind at 1, slift. rewrite Ed. unfold sbind at 1. rewrite E0. unfold sbind at 1. unfold init_qubits_xzzx. unfold init_qubits_xzzx in E1. rewrite E1.
    replace (4 + Z.of_nat n =? 1) with false by (symmetry; apply Z.eqb_neq; lia). replace (Z.to_nat (4 + Z.of_nat n - 1)) with (3 + n)%nat by lia.
    unfold tailprog, first. unfold sbind at 1 3. rewrite (rounds_body (fun r ds => google_qec_round (ordt (3 + r)%nat) l (Some ds)) rd l rot gauge ds (3 + n) s0 Hr). reflexivity.
  Qed.
End Memory.
