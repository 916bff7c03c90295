(** What the detectors list when gates separate the rounds. *)
From Coq Require Import QArith Qcanon.
From Verif Require Import Base Lib StimM SetupM NoiseM SpecNoise NoiseP LayoutM MatM MatP DetM SpecDet DetP DetCountP DetLinP DetDetP DetHistP
  BlockM ExpM SpecTrack SpecExp TrackP LiftP ExpDetP ExpP ExpP3.
Open Scope Z_scope.

(* the generators before and after the gates differ by M, also over the rationals *)
Definition linked (ls : list string) (prev curr : gen) (M : string -> string -> bool) : Prop :=
  (exists N, change_of_basis ls curr prev N /\ forall a k, In a ls -> In k ls -> nz (N a k) = M a k) /\
  (exists N, change_of_basis ls prev curr N /\ forall a k, In a ls -> In k ls -> nz (N a k) = M a k).
Definition near (fr : dframe) (M : string -> string -> bool) (a k : string) : bool := match fr with PreGate => M a k | _ => eqb a k end.
Definition far (fr : dframe) (M : string -> string -> bool) (a k : string) : bool := match fr with PreGate => eqb a k | _ => M a k end.
Definition rowx (ls : list string) (u f : string -> bool) : bool := xorl (map (fun k => u k && f k) ls).
Definition round_form2 (reset : bool) (n : Z) (ls : list string) (u v : string -> bool) (o : string -> Z -> bool) : bool :=
  xorb (rowx ls u (fun q => o q (-1)))
    (xorb (if 2 <=? n then rowx ls v (fun q => o q (-2)) else false)
    (xorb (if negb reset && (2 <=? n) then rowx ls u (fun q => o q (-2)) else false)
          (if negb reset && (3 <=? n) then rowx ls v (fun q => o q (-3)) else false))).
Definition data_form2 (reset : bool) (n : Z) (ls : list string) (qs : list string) (v : string -> bool) (o : string -> Z -> bool) : bool :=
  xorb (xorl (map (fun q => o q (-1)) qs))
    (xorb (if 1 <=? n then rowx ls v (fun q => o q (-1)) else false) (if negb reset && (2 <=? n) then rowx ls v (fun q => o q (-2)) else false)).

Lemma rowx_ext ls u u' f : (forall k, In k ls -> u k = u' k) -> rowx ls u f = rowx ls u' f.
Proof. intros E. apply xorl_ext. intros k Hk. now rewrite E. Qed.
Lemma rowx_one ls a f : NoDup ls -> In a ls -> rowx ls (eqb a) f = f a.
Proof. intros N Ha. unfold rowx. rewrite <- (xorl_single a f ls N Ha). apply xorl_ext. intros k _. now rewrite eqb_sym. Qed.
Lemma pr_rowx ls basis g col N M a f : is_inv ls basis col -> rows_ok ls basis -> rows_ok ls g -> NoDup ls ->
  change_of_basis ls basis g N -> (forall a k, In a ls -> In k ls -> nz (N a k) = M a k) -> In a ls -> pr ls col g a f = rowx ls (M a) f.
Proof.
  intros Hi Rb Rg Hn Hc HM Ha. unfold pr, rowx. apply xorl_ext. intros k Hk. rewrite (clean_entry ls basis Hn Rb col g N) by auto. now rewrite HM by auto.
Qed.
Lemma pr_self ls basis col a f : is_inv ls basis col -> NoDup ls -> In a ls -> pr ls col basis a f = rowx ls (eqb a) f.
Proof. intros Hi Hn Ha. rewrite (pr_basis ls basis Hn col a f Hi Ha). symmetry. now apply rowx_one. Qed.

Lemma anc_content2 d g reset req d' c M : wf_det d -> linked (labels d) (prev_gen d) (curr_gen d) M -> dfr d <> GateIndep ->
  build_from_anc g reset req d = (d', Ok c) ->
  (exists nr, next_rounds d = Ok nr /\ d' = set_gens (curr_gen d) (curr_gen d) (set_rounds nr (total d + 1) d)) /\
  exists ls, Permutation ls (labels d) /\
    Forall2 (fun a i => det_of d a (zq (total d)) i /\ from g i /\
      (wanted req a /\ dget a (active d) = Some true \/ tg i = []) /\
      (wanted req a -> dget a (active d) = Some true -> forall n outcome o,
        dget a (num_rounds d) = Some n -> reads g outcome o ->
        parity outcome i = round_form2 reset (n + 1) (labels d) (near (dfr d) M a) (far (dfr d) M a) o)) ls c.
Proof.
  intros Hw [(N1 & C1 & M1) (N2 & C2 & M2)] Hf H. assert (Hn := wf_nodup _ Hw). assert (Hp := wf_curr _ Hw).
  pose proof (rows_ok_curr d Hw) as Rc. pose proof (rows_ok_prev d Hw) as Rp.
  apply build_from_anc_inv in H as [[_ [e H]]|(ancs & nr & E1 & E2 & H)]; [discriminate|].
  destruct H as [[_ [e H]]|(dets & c' & H1 & H2 & -> & H3)]; [discriminate|]. injection H3 as ->.
  apply DetCountP.det_instrs in H2 as [-> F]. split; [eauto|]. set (ls := labels d) in *.
  assert (D : exists ks, Permutation ks ls /\ Forall2 (fun a x => exists n, dget a nr = Some n /\ fst x = a /\
     (forall o : string -> Z -> bool, In a ls -> xorl (map (fun t => o (fst t) (snd t)) (snd x)) = round_form2 reset n ls (near (dfr d) M a) (far (dfr d) M a) o)) ks dets).
  { exists (dkeys (curr_gen d)). split; [exact Hp|]. destruct (dfr d) eqn:Ef; [| |congruence].
    - destruct (get_anc_meas_char ls _ _ _ Hn Hp Rp _ _ _ _ H1) as (col & Hi & Hd).
      eapply Forall2_impl'; [|exact Hd]. intros a x (n & En & ->). exists n. split; [exact En|]. split; [reflexivity|].
      intros o Ha. cbn [snd]. rewrite (contributions_parity ls) by auto. unfold round_form2.
      pose proof (fun f => pr_rowx ls _ _ col N2 M a f Hi Rp Rc Hn C2 M2 Ha) as X. pose proof (fun f => pr_self ls _ col a f Hi Hn Ha) as Y.
      cbn [near far]. rewrite !X, !Y. reflexivity.
    - destruct (get_anc_meas_char ls _ _ _ Hn Hp Rc _ _ _ _ H1) as (col & Hi & Hd).
      eapply Forall2_impl'; [|exact Hd]. intros a x (n & En & ->). exists n. split; [exact En|]. split; [reflexivity|].
      intros o Ha. cbn [snd]. rewrite (contributions_parity ls) by auto. unfold round_form2.
      pose proof (fun f => pr_rowx ls _ _ col N1 M a f Hi Rc Rp Hn C1 M1 Ha) as X. pose proof (fun f => pr_self ls _ col a f Hi Hn Ha) as Y.
      cbn [near far]. rewrite !X, !Y. reflexivity. }
  destruct D as (ks & Hk & D). exists ks. split; [exact Hk|].
  eapply Forall2_trans; [|exact D|exact F].
  intros a x i Hin (n' & En & <- & Hx) [Hd Ht]. assert (Ha : In (fst x) ls) by (eapply Permutation_in; eauto).
  split; [exact Hd|]. destruct (mem (fst x) ancs) eqn:Em.
  - split; [eapply from_mapM; exact Ht|].
    assert (Hm : wanted req (fst x) /\ dget (fst x) (active d) = Some true).
    { apply mem_In in Em. apply (requested_ok _ _ _ E1) in Em as [M1' M2']. split; auto. destruct req; simpl; auto. }
    split; [left; exact Hm|]. intros _ Hac n outcome o Hn' Hr. unfold parity.
    rewrite (mapM_outcomes _ _ _ _ _ Hr Ht), remove_pairs_parity, Hx by auto.
    rewrite (DetDetP.next_rounds_get d nr (fst x) n true Hw E2 Hac Hn') in En. injection En as <-. reflexivity.
  - split; [now apply from_nil|]. split; [right; exact Ht|]. intros Hwa Hac.
    rewrite (requested_mem _ _ _ _ Hw Ha E1 Hwa Hac) in Em. discriminate.
Qed.

Lemma data_content1 d g sup reset recon req d' c M : wf_det d ->
  (exists N, change_of_basis (labels d) (curr_gen d) (prev_gen d) N /\ forall a k, In a (labels d) -> In k (labels d) -> nz (N a k) = M a k) -> dfr d <> GateIndep ->
  build_from_data g sup reset recon req d = (d', Ok c) ->
  exists ls, Permutation ls (filter (fun a => mem a recon) (labels d)) /\
    Forall2 (fun a i => det_of d a (zq (total d) - Q2Qc (1#2))%Qc i /\ from g i /\
      (wanted req a /\ dget a (active d) = Some true \/ tg i = []) /\
      (wanted req a -> dget a (active d) = Some true -> exists qs, dget a sup = Some qs /\ forall n outcome o,
        dget a (num_rounds d) = Some n -> reads g outcome o ->
        parity outcome i = data_form2 reset n (labels d) qs (M a) o)) ls c.
Proof.
  intros Hw (N1 & C1 & M1) Hf H. assert (Hn := wf_nodup _ Hw). assert (Hp := wf_curr _ Hw).
  pose proof (rows_ok_curr d Hw) as Rc. pose proof (rows_ok_prev d Hw) as Rp.
  apply build_from_data_inv in H as [[_ [e H]]|(ancs & nr & dets & dets' & c' & _ & E1 & E2 & H1 & H2 & H3 & -> & H4)]; [discriminate|].
  injection H4 as ->. apply DetCountP.det_instrs in H3 as [-> F]. set (ls := labels d) in *.
  set (tr := fun (o : string -> Z -> bool) (q : string) (z : Z) => if eqb z (-1)
        then match dget q sup with Some qs => xorl (map (fun q => o q (-1)) qs) | None => false end else o q (z + 1)).
  assert (D : exists ks, Permutation ks ls /\ Forall2 (fun a x => exists n, dget a nr = Some n /\ fst x = a /\
     (In a ls -> In (a, -1) (snd x) /\ forall o : string -> Z -> bool, xorl (map (fun t => o (fst t) (snd t)) (snd x)) =
       xorb (o a (-1)) (xorb (if 2 <=? n then rowx ls (M a) (fun q => o q (-2)) else false) (if negb reset && (3 <=? n) then rowx ls (M a) (fun q => o q (-3)) else false)))) ks dets).
  { assert (G : get_anc_meas (curr_gen d) (prev_gen d) (curr_gen d) nr true reset = Ok dets) by (destruct (dfr d); congruence).
    exists (dkeys (curr_gen d)). split; [exact Hp|].
    destruct (get_anc_meas_char ls _ _ _ Hn Hp Rc _ _ _ _ G) as (col & Hi & Hd).
    eapply Forall2_impl'; [|exact Hd]. intros a x (n & En & ->). exists n. split; [exact En|]. split; [reflexivity|].
    intros Ha. cbn [snd]. split.
    - unfold contributions. apply in_or_app. left.
      unfold crow. rewrite select_eq. apply in_map_iff. exists a. split; auto. apply filter_In. split; [eapply Permutation_in; [symmetry; exact Hp|exact Ha]|].
      destruct (Hi a Ha) as [_ Hd']. rewrite (Hd' a Ha), eqb_refl. reflexivity.
    - intros o. rewrite (contributions_parity ls) by auto.
      pose proof (fun f => pr_rowx ls _ _ col N1 M a f Hi Rc Rp Hn C1 M1 Ha) as X. rewrite !X.
      rewrite !(pr_basis ls _ Hn col a) by auto. cbn [negb andb]. now rewrite xorb_false_l. }
  destruct D as (ks & Hk & D). exists (filter (fun a => mem a recon) ks). split; [now apply Permutation_filter|].
  apply (Forall2_filter _ (fun a => mem a recon) (fun at_ => mem (fst at_) recon)) in D;
      [|intros a x (n & _ & -> & _); reflexivity].
  apply mapM_Forall2 in H2.
  eapply (Forall2_trans (fun a x => In a ls /\ exists n t qs, dget a nr = Some n /\ x = (a, t) /\ dget a sup = Some qs /\
     forall o : string -> Z -> bool, xorl (map (fun t => o (fst t) (snd t)) t) = 
       xorb (xorl (map (fun q => o q (-1)) qs)) (xorb (if 2 <=? n then rowx ls (M a) (fun q => o q (-1)) else false) (if negb reset && (3 <=? n) then rowx ls (M a) (fun q => o q (-2)) else false))));
    [| |exact F].
  2:{ eapply Forall2_trans; [|exact D|exact H2]. intros a x y Hin (n & En & Ex & Hx) Q.
      apply filter_In in Hin as [Hin _]. assert (Ha : In a ls) by (eapply Permutation_in; eauto). split; [exact Ha|].
      apply bind_ok in Q as [t [Q Q3]]. injection Q3 as <-. destruct (Hx Ha) as [Hx1 Hx2].
      destruct (to_data_known _ _ _ _ Q Hx1) as [qs Eq]. exists n, t, qs. split; auto. split; [now rewrite Ex|]. split; auto.
      intros o. rewrite (to_data_parity _ _ _ _ Q).
      change (xorl (map (fun t => tr o (fst t) (snd t)) (snd x)) = xorb (xorl (map (fun q => o q (-1)) qs)) (xorb (if 2 <=? n then rowx ls (M a) (fun q => o q (-1)) else false) (if negb reset && (3 <=? n) then rowx ls (M a) (fun q => o q (-2)) else false))).
      rewrite Hx2. unfold tr. rewrite eqb_refl, Eq. reflexivity. }
  intros a x i _ (Ha & n' & t & qs & En & -> & Eq & Hx) [Hd Ht]. cbn [fst snd] in *.
  split; [exact Hd|]. destruct (mem a ancs) eqn:Em.
  - split; [eapply from_mapM; exact Ht|].
    assert (Hm : wanted req a /\ dget a (active d) = Some true).
    { apply mem_In in Em. apply (requested_ok _ _ _ E1) in Em as [M1' M2']. split; auto. destruct req; simpl; auto. }
    split; [left; exact Hm|]. intros _ Hac. exists qs. split; [exact Eq|]. intros n outcome o Hn' Hr. unfold parity.
    rewrite (mapM_outcomes _ _ _ _ _ Hr Ht), remove_pairs_parity, Hx by auto.
    rewrite (DetDetP.next_rounds_get d nr a n true Hw E2 Hac Hn') in En. injection En as <-. unfold data_form2.
    destruct (Z.leb_spec 2 (n+1)), (Z.leb_spec 1 n); try lia; destruct (Z.leb_spec 3 (n+1)), (Z.leb_spec 2 n); try lia; reflexivity.
  - split; [now apply from_nil|]. split; [right; exact Ht|]. intros Hwa Hac.
    rewrite (requested_mem _ _ _ _ Hw Ha E1 Hwa Hac) in Em. discriminate.
Qed.
Lemma data_content2 d g sup reset recon req d' c M : wf_det d -> linked (labels d) (prev_gen d) (curr_gen d) M -> dfr d <> GateIndep ->
  build_from_data g sup reset recon req d = (d', Ok c) ->
  exists ls, Permutation ls (filter (fun a => mem a recon) (labels d)) /\
    Forall2 (fun a i => det_of d a (zq (total d) - Q2Qc (1#2))%Qc i /\ from g i /\
      (wanted req a /\ dget a (active d) = Some true \/ tg i = []) /\
      (wanted req a -> dget a (active d) = Some true -> exists qs, dget a sup = Some qs /\ forall n outcome o,
        dget a (num_rounds d) = Some n -> reads g outcome o ->
        parity outcome i = data_form2 reset n (labels d) qs (M a) o)) ls c.
Proof. intros Hw [X _]. now apply data_content1. Qed.

(** * As selections of outcomes *)
Definition form_round2 (reset : bool) (n : nat) (ls : list string) (u v : string -> bool) : string -> nat -> bool := fun q j => mem q ls &&
  match j with
  | 1%nat => u q | 2%nat => Nat.leb 2 n && xorb (v q) (negb reset && u q)
  | 3%nat => negb reset && Nat.leb 3 n && v q | _ => false
  end.
Definition form_data2 (reset : bool) (n : nat) (ls sup : list string) (v : string -> bool) : string -> nat -> bool := fun q j =>
  xorb (Nat.odd (count q sup) && Nat.eqb j 1)
    (mem q ls && match j with 1%nat => Nat.leb 1 n && v q | 2%nat => negb reset && Nat.leb 2 n && v q | _ => false end).
Lemma selT_xorl {A} ML (l : list A) (T : A -> string -> nat -> bool) k :
  xorl (map (fun a => selT ML (T a) k) l) = selT ML (fun q j => xorl (map (fun a => T a q j) l)) k.
Proof.
  unfold selT. destruct (nth_error (rev ML) (k - 1)); [reflexivity|]. apply xorl_false. reflexivity.
Qed.
Lemma selT_and (ML : list string) b (T : string -> nat -> bool) k : (if b : bool then selT ML T k else false) = selT ML (fun q j => b && T q j) k.
Proof. destruct b; [reflexivity|]. now rewrite selT_false. Qed.
Section Forms.
  Context (qi : dict string Z) (m : model) (L : list (gate string)) (c : circuit).
  Hypothesis T : tracked qi m L c.
  Lemma rowx_sel ls u j k : NoDup ls -> (1 <= j)%nat -> (1 <= k)%nat ->
    rowx ls u (fun q => refers m k q (- Z.of_nat j)) = selT (mlab L) (fun q j' => mem q ls && u q && Nat.eqb j' j) k.
  Proof.
    intros N Hj Hk. unfold rowx.
    transitivity (xorl (map (fun q => selT (mlab L) (fun x j' => u q && (eqb q x && Nat.eqb j' j)) k) ls)).
    - apply xorl_ext. intros q _. rewrite (refers_at _ _ _ _ T) by auto. rewrite jth_selT by exact Hj. rewrite <- (selT_and (mlab L) (u q) (fun x j' => eqb q x && Nat.eqb j' j)). now destruct (u q).
    - rewrite selT_xorl. apply selT_ext; [exact Hk|]. intros x j' _ _. destruct (mem x ls) eqn:E.
      + apply mem_In in E. cbn [andb]. rewrite <- (xorl_single x (fun q => u q && Nat.eqb j' j) ls N E). apply xorl_ext. intros q _.
        destruct (eqb q x), (u q); reflexivity.
      + cbn [andb]. apply xorl_false. intros q Hq. destruct (eqb_spec q x) as [->|]; [|cbn; apply andb_false_r].
        apply mem_In in Hq. congruence.
  Qed.
  Lemma zleb n k : (Z.of_nat k <=? Z.of_nat n) = Nat.leb k n.
  Proof. destruct (Nat.leb_spec k n), (Z.leb_spec (Z.of_nat k) (Z.of_nat n)); lia. Qed.
  Lemma round_form2_sel reset n ls u v k : NoDup ls -> (1 <= k)%nat ->
    round_form2 reset (Z.of_nat n) ls u v (refers m k) = selT (mlab L) (form_round2 reset n ls u v) k.
  Proof.
    intros N Hk. unfold round_form2. change (-1) with (- Z.of_nat 1). change (-2) with (- Z.of_nat 2). change (-3) with (- Z.of_nat 3).
    change (2 <=? Z.of_nat n) with (Z.of_nat 2 <=? Z.of_nat n). change (3 <=? Z.of_nat n) with (Z.of_nat 3 <=? Z.of_nat n). rewrite !zleb.
    rewrite !rowx_sel by (auto; lia). rewrite !selT_and, !selT_xor. apply selT_ext; [exact Hk|]. intros q j _ _. unfold form_round2.
    destruct (mem q ls); cbn [andb]; [|now rewrite !andb_false_r].
    destruct j as [|[|[|[|j]]]]; cbn [Nat.eqb]; rewrite ?andb_false_r, ?andb_true_r, ?xorb_false_l, ?xorb_false_r; try reflexivity.
    destruct (Nat.leb 2 n), (v q), (u q), reset; reflexivity.
  Qed.
  Lemma data_form2_sel reset n ls sup v k : NoDup ls -> (1 <= k)%nat ->
    data_form2 reset (Z.of_nat n) ls sup v (refers m k) = selT (mlab L) (form_data2 reset n ls sup v) k.
  Proof.
    intros N Hk. unfold data_form2. rewrite (xorl_jth _ _ _ _ T) by exact Hk. change (-1) with (- Z.of_nat 1). change (-2) with (- Z.of_nat 2).
    change (2 <=? Z.of_nat n) with (Z.of_nat 2 <=? Z.of_nat n). change (1 <=? Z.of_nat n) with (Z.of_nat 1 <=? Z.of_nat n). rewrite !zleb.
    rewrite !rowx_sel by (auto; lia). rewrite !selT_and, !selT_xor. apply selT_ext; [exact Hk|]. intros q j _ _. unfold form_data2, form_obs.
    f_equal. destruct (mem q ls); cbn [andb]; [|now rewrite !andb_false_r].
    destruct j as [|[|[|j]]]; cbn [Nat.eqb]; rewrite ?andb_false_r, ?andb_true_r, ?xorb_false_l, ?xorb_false_r; reflexivity.
  Qed.
End Forms.
