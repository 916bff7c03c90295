(** C41, C46-C48 for generated layouts. *)
From Coq Require Import QArith Qcanon.
From Verif Require Import Base Lib StimM SetupM NoiseM SpecNoise LayoutM LayoutP GenM GenP GeomP DetM BlockM LiftP SpecGen SpecTrack TrackP RotP RotP2 UnrotP RoundP
  MergeM LogM SpecLog LogP LogP2 LogP3 LogP4 LogP5 LogP6 LogP7 LogP8 LogP9 LogP10 LogP11 LogP12.
Open Scope Z_scope.

Lemma rot_sizes a l : rot_surface_code_rectangle a = Ok l -> 0 <= ga_dx a /\ 0 <= ga_dz a.
Proof.
  unfold rot_surface_code_rectangle, check_distance.
  destruct (Z.ltb_spec (ga_dx a) 0); [discriminate|]. destruct (Z.ltb_spec (ga_dz a) 0); [discriminate|]. lia.
Qed.
Lemma unrot_sizes a l : unrot_surface_code_rectangle a = Ok l -> 0 <= ga_dx a /\ 0 <= ga_dz a.
Proof.
  unfold unrot_surface_code_rectangle, check_distance.
  destruct (Z.ltb_spec (ga_dx a) 0); [discriminate|]. destruct (Z.ltb_spec (ga_dz a) 0); [discriminate|]. lia.
Qed.
(* a generated layout after other attributes were set *)
Lemma rot_after a l0 l : rot_surface_code_rectangle a = Ok l0 -> touched structure l0 l ->
  planar l rot_shifts rot_dirn (rot_pt a) (rot_ps a) /\ l_logs l = [ga_log a] /\ l_code l = "rotated_surface_code" /\
  l_dx l = ga_dx a /\ l_dz l = ga_dz a /\ get_role l0 "anc" = Ok (ancs (rot_ps a)) /\ forall x, css l x = css l0 x.
Proof.
  intros E T. destruct (rot_sizes _ _ E) as [Sx Sz]. destruct (rot_planar a Sx Sz) as (l' & r & E' & _ & _ & P & Hlog & _ & _ & Hdx & Hdz & _ & Hc).
  rewrite E in E'. injection E' as <-. destruct (touched_fields _ _ _ T) as (F1 & F2 & F3 & F4 & _).
  split; [apply (touched_planar _ _ _ T); auto; intros x Hx; exact Hx|].
  rewrite F1, F2, F3, F4. repeat (split; [assumption|]). split; [apply P|]. intros x. apply (touched_css _ _ _ T). intros y Hy; exact Hy.
Qed.
Lemma unrot_after a l0 l : unrot_surface_code_rectangle a = Ok l0 -> touched structure l0 l ->
  planar l unrot_shifts unrot_dirn (ga_pt a) (unrot_ps a) /\ l_logs l = [ga_log a] /\ l_code l = "unrotated_surface_code" /\
  l_dx l = ga_dx a /\ l_dz l = ga_dz a /\ get_role l0 "anc" = Ok (ancs (unrot_ps a)) /\ forall x, css l x = css l0 x.
Proof.
  intros E T. destruct (unrot_sizes _ _ E) as [Sx Sz]. destruct (unrot_planar a Sx Sz) as (l' & r & E' & _ & _ & P & Hlog & _ & _ & Hdx & Hdz & _ & Hc).
  rewrite E in E'. injection E' as <-. destruct (touched_fields _ _ _ T) as (F1 & F2 & F3 & F4 & _).
  split; [apply (touched_planar _ _ _ T); auto; intros x Hx; exact Hx|].
  rewrite F1, F2, F3, F4. repeat (split; [assumption|]). split; [apply P|]. intros x. apply (touched_css _ _ _ T). intros y Hy; exact Hy.
Qed.

(* the stabilizers may be replaced by equal ones *)
Lemma turns_ext qi c xs zs xs' zs' ys ws ys' ws' : (forall q, xs q = ys q) -> (forall q, zs q = ws q) ->
  (forall q, xs' q = ys' q) -> (forall q, zs' q = ws' q) -> turns qi c xs zs xs' zs' -> turns qi c ys ws ys' ws'.
Proof.
  intros E1 E2 E3 E4 H P R. destruct (H P) as (P' & B & R'); [|exists P'; split; [exact B|]].
  - destruct R as [R1 R2]. split; [|exact R2]. intros q i E. rewrite E3, E4. now apply R1.
  - destruct R' as [R1 R2]. split; [|exact R2]. intros q i E. rewrite <- E1, <- E2. now apply R1.
Qed.
Lemma conj_ext qi st st' c a new : (forall x, st x = st' x) -> conjugates qi st c a new -> conjugates qi st' c a new.
Proof.
  intros E [H1 H2].
  assert (Ex : forall g q, prod_x st g q = prod_x st' g q) by (intros g q; unfold prod_x; do 2 f_equal; apply filter_ext; intros x; now rewrite E).
  assert (Ez : forall g q, prod_z st g q = prod_z st' g q) by (intros g q; unfold prod_z; do 2 f_equal; apply filter_ext; intros x; now rewrite E).
  split; eapply turns_ext; eauto.
Qed.

Section One.
  Context (ord : nat -> list string -> list string) (ordp : nat -> list (string * string) -> list (string * string)).
  Hypothesis Hord : forall n s, Permutation (ord n s) s.
  Hypothesis Hordp : forall n s, Permutation (ordp n s) s.
  Context (a : gen_args) (l0 l l1 l2 : layout) (dq : string) (w w' : world) (c : circuit).
  Hypothesis A1 : annotated structure l0 l.
  Lemma C47_rot_lemma : rot_surface_code_rectangle a = Ok l0 -> set_trans_s_rot l dq = Ok l1 ->
    annotated (("trans-s_" ++ ga_log a) :: structure)%string l1 l2 -> SpecNoise.wf_inds (inds (fst w)) ->
    log_trans_s ord ordp l2 w = (w', Ok c) ->
    exists anc nd, get_role l0 "anc" = Ok anc /\ new_stab_dict l2 ("trans-s_" ++ ga_log a) = Ok nd /\ follows (css l0) anc nd w w' c.
  Proof.
    intros G S A2 W H. destruct (rot_after _ _ _ G (annotated_touched _ _ _ A1)) as (P & Hlog & Hc & Hx & Hz & An & Cs).
    destruct (rot_s_conjugates ord ordp Hord Hordp a l l1 l2 dq P Hlog Hc Hx Hz w w' c S (annotated_touched _ _ _ A2) W H) as (nd & En & U & I & K).
    exists (ancs (rot_ps a)), nd. split; [exact An|]. split; [exact En|]. split; [exact U|]. split; [exact I|].
    intros x Hx'. destruct (K x Hx') as (new & E & C). exists new. split; [exact E|]. now apply (conj_ext _ (css l)).
  Qed.
  Lemma C47_unrot_lemma : unrot_surface_code_rectangle a = Ok l0 -> set_trans_s_unrot l dq = Ok l1 ->
    annotated (("trans-s_" ++ ga_log a) :: structure)%string l1 l2 -> SpecNoise.wf_inds (inds (fst w)) ->
    log_trans_s ord ordp l2 w = (w', Ok c) ->
    exists anc nd, get_role l0 "anc" = Ok anc /\ new_stab_dict l2 ("trans-s_" ++ ga_log a) = Ok nd /\ follows (css l0) anc nd w w' c.
  Proof.
    intros G S A2 W H. destruct (unrot_after _ _ _ G (annotated_touched _ _ _ A1)) as (P & Hlog & Hc & Hx & Hz & An & Cs).
    destruct (unrot_s_conjugates ord ordp Hord Hordp a l l1 l2 dq P Hlog Hc w w' c S (annotated_touched _ _ _ A2) W H) as (nd & En & U & I & K).
    exists (ancs (unrot_ps a)), nd. split; [exact An|]. split; [exact En|]. split; [exact U|]. split; [exact I|].
    intros x Hx'. destruct (K x Hx') as (new & E & C). exists new. split; [exact E|]. now apply (conj_ext _ (css l)).
  Qed.
  Lemma C48_lemma : unrot_surface_code_rectangle a = Ok l0 -> set_trans_h l dq = Ok l1 ->
    annotated (("trans-h_" ++ ga_log a) :: structure)%string l1 l2 -> SpecNoise.wf_inds (inds (fst w)) ->
    log_trans_h ord ordp l2 w = (w', Ok c) ->
    exists anc nd, get_role l0 "anc" = Ok anc /\ new_stab_dict l2 ("trans-h_" ++ ga_log a) = Ok nd /\ follows (css l0) anc nd w w' c.
  Proof.
    intros G S A2 W H. destruct (unrot_after _ _ _ G (annotated_touched _ _ _ A1)) as (P & Hlog & Hc & Hx & Hz & An & Cs).
    destruct (unrot_h_conjugates ord ordp Hord Hordp a l l1 l2 dq P Hlog Hc w w' c S (annotated_touched _ _ _ A2) W H) as (nd & En & U & I & K).
    exists (ancs (unrot_ps a)), nd. split; [exact An|]. split; [exact En|]. split; [exact U|]. split; [exact I|].
    intros x Hx'. destruct (K x Hx') as (new & E & C). exists new. split; [exact E|]. now apply (conj_ext _ (css l)).
  Qed.
End One.

Section Two.
  Context (ord : nat -> list string -> list string) (ordp : nat -> list (string * string) -> list (string * string)).
  Hypothesis Hordp : forall n s, Permutation (ordp n s) s.
  Context (a a' : gen_args) (lc0 lc lc1 lc2 lt0 lt lt1 lt2 : layout) (monos : list (dict string string)) (w w' : world) (c : circuit).
  Hypothesis Ac : annotated structure lc0 lc.
  Hypothesis At : annotated structure lt0 lt.
  Hypothesis Hm : Forall (monomorphism lc lt) monos.
  Let gate := ("trans-cnot_" ++ ga_log a ++ "_" ++ ga_log a')%string.
  Hypothesis Ac2 : annotated (gate :: structure) lc1 lc2.
  Hypothesis At2 : annotated (gate :: structure) lt1 lt2.
  Hypothesis W : SpecNoise.wf_inds (inds (fst w)).
  Hypothesis H : log_trans_cnot ord ordp lc2 lt2 w = (w', Ok c).
  Lemma cnot_sizes code : set_trans_cnot code monos lc lt = Ok (lc1, lt1) -> l_dx lc = l_dx lt /\ l_dz lc = l_dz lt.
  Proof.
    unfold set_trans_cnot. destruct (_ || _); [discriminate|]. destruct (eqb_spec (l_dx lc) (l_dx lt)); [|discriminate].
    destruct (eqb_spec (l_dz lc) (l_dz lt)); [|discriminate]. auto.
  Qed.
  Lemma C46_rot_lemma : rot_surface_code_rectangle a = Ok lc0 -> rot_surface_code_rectangle a' = Ok lt0 ->
    set_trans_cnot_rot monos lc lt = Ok (lc1, lt1) ->
    exists ac at_ nc nt, get_role lc0 "anc" = Ok ac /\ get_role lt0 "anc" = Ok at_ /\
      new_stab_dict lc2 gate = Ok nc /\ new_stab_dict lt2 gate = Ok nt /\
      follows (joint (css lc0) (css lt0)) (ac ++ at_) (dupdate nc nt) w w' c.
  Proof.
    intros G G' S. destruct (rot_after _ _ _ G (annotated_touched _ _ _ Ac)) as (P & Hlog & Hc & Hx & Hz & An & Cs).
    destruct (rot_after _ _ _ G' (annotated_touched _ _ _ At)) as (P' & Hlog' & Hc' & Hx' & Hz' & An' & Cs').
    destruct (cnot_sizes _ S) as [Sx Sz].
    assert (It : map pl_item (rot_ps a) = map pl_item (rot_ps a')).
    { unfold rot_ps. rewrite !place_items. congruence. }
    destruct (cnot_conjugates ord ordp Hordp lc lt lc1 lt1 lc2 lt2 _ _ _ _ _ _ _ P P' rot_shifts_nodup It "rotated_surface_code" monos (ga_log a) (ga_log a')
      (or_introl eq_refl) Hm Hlog Hlog' S (annotated_touched _ _ _ Ac2) (annotated_touched _ _ _ At2) w w' c W H) as (nc & nt & E1 & E2 & U & I & K).
    exists (ancs (rot_ps a)), (ancs (rot_ps a')), nc, nt. do 4 (split; [assumption|]). split; [exact U|]. split; [exact I|].
    intros x Hx2. destruct (K x Hx2) as (new & E & C). exists new. split; [exact E|]. eapply conj_ext; [|exact C]. intros y. unfold joint. now rewrite Cs, Cs'.
  Qed.
  Lemma C46_unrot_lemma : unrot_surface_code_rectangle a = Ok lc0 -> unrot_surface_code_rectangle a' = Ok lt0 ->
    set_trans_cnot_unrot monos lc lt = Ok (lc1, lt1) ->
    exists ac at_ nc nt, get_role lc0 "anc" = Ok ac /\ get_role lt0 "anc" = Ok at_ /\
      new_stab_dict lc2 gate = Ok nc /\ new_stab_dict lt2 gate = Ok nt /\
      follows (joint (css lc0) (css lt0)) (ac ++ at_) (dupdate nc nt) w w' c.
  Proof.
    intros G G' S. destruct (unrot_after _ _ _ G (annotated_touched _ _ _ Ac)) as (P & Hlog & Hc & Hx & Hz & An & Cs).
    destruct (unrot_after _ _ _ G' (annotated_touched _ _ _ At)) as (P' & Hlog' & Hc' & Hx' & Hz' & An' & Cs').
    destruct (cnot_sizes _ S) as [Sx Sz].
    assert (It : map pl_item (unrot_ps a) = map pl_item (unrot_ps a')).
    { unfold unrot_ps. rewrite !place_items. congruence. }
    destruct (cnot_conjugates ord ordp Hordp lc lt lc1 lt1 lc2 lt2 _ _ _ _ _ _ _ P P' unrot_shifts_nodup It "unrotated_surface_code" monos (ga_log a) (ga_log a')
      (or_intror eq_refl) Hm Hlog Hlog' S (annotated_touched _ _ _ Ac2) (annotated_touched _ _ _ At2) w w' c W H) as (nc & nt & E1 & E2 & U & I & K).
    exists (ancs (unrot_ps a)), (ancs (unrot_ps a')), nc, nt. do 4 (split; [assumption|]). split; [exact U|]. split; [exact I|].
    intros x Hx2. destruct (K x Hx2) as (new & E & C). exists new. split; [exact E|]. eapply conj_ext; [|exact C]. intros y. unfold joint. now rewrite Cs, Cs'.
  Qed.
End Two.

(** * The order of the gates of the repeated CNOT experiment (C41) *)
Section Order.
  Context (ordt : nat -> nat -> list string -> list string) (ordp : nat -> nat -> list (string * string) -> list (string * string)).
  Context (round : nat -> layout -> layout -> ST world circuit) (alternating : bool) (n : nat).
  Fixpoint odds (k i : nat) : bool := match i with 0%nat => false | S i => xorb (odds k i) (Nat.odd (k + i)) end.
  Lemma odds_first k i : odds k (S i) = xorb (Nat.odd k) (odds (S k) i).
  Proof.
    induction i as [|i IH]; [cbn [odds]; rewrite Nat.add_0_r, xorb_false_l, xorb_false_r; reflexivity|].
    change (odds k (S (S i))) with (xorb (odds k (S i)) (Nat.odd (k + S i))). rewrite IH.
    change (odds (S k) (S i)) with (xorb (odds (S k) i) (Nat.odd (S k + i))). now rewrite xorb_assoc, Nat.add_succ_r.
  Qed.
  Definition swap (b : bool) (p : layout * layout) : layout * layout := exchanged_if b (fst p) (snd p).
  Lemma swap_swap b b' p : swap b (swap b' p) = swap (xorb b b') p.
  Proof. destruct p, b, b'; reflexivity. Qed.
  Lemma cnot_loop_ok : forall count k lc lt acc w w' c lc' lt',
    cnot_loop ordt ordp round alternating n count k lc lt acc w = (w', Ok (c, lc', lt')) ->
    exists parts : list (circuit * circuit),
      length parts = count /\ c = acc ++ concat (map (fun p => fst p ++ snd p) parts) /\
      (forall i g r, nth_error parts i = Some (g, r) -> exists w1 w2 o op,
        (let (x, y) := swap (alternating && odds k (S i)) (lc, lt) in log_trans_cnot (ordt o) (ordp op) x y w1 = (w2, Ok g))) /\
      (lc', lt') = swap (alternating && odds k count) (lc, lt).
  Proof.
    induction count as [|count IH]; intros k lc lt acc w w' c lc' lt' H; cbn [cnot_loop] in H.
    - injection H as _ <- <- <-. exists []. cbn. rewrite andb_false_r, app_nil_r. repeat split; try reflexivity. intros [|i] g r E; discriminate.
    - destruct (if alternating && Nat.odd k then (lt, lc) else (lc, lt)) as [x y] eqn:Exy.
      assert (Es : (x, y) = swap (alternating && Nat.odd k) (lc, lt)) by (rewrite <- Exy; reflexivity).
      apply sbind_ok in H as (w1 & g & Hg & H). apply sbind_ok in H as (w2 & r & Hr & H).
      apply IH in H as (parts & Ln & Ec & Hp & El). exists ((g, r) :: parts). split; [cbn; congruence|]. split; [cbn; rewrite Ec, <- !app_assoc; reflexivity|]. split.
      + intros [|i] g' r' E.
        * injection E as <- <-. exists w, w1, (3 + 2 * (1 + k * S n))%nat, (3 + 2 * (1 + k * S n))%nat.
          cbn [odds]. rewrite Nat.add_0_r, xorb_false_l, <- Es. exact Hg.
        * cbn [nth_error] in E. destruct (Hp i g' r' E) as (v1 & v2 & o & op & K). exists v1, v2, o, op. revert K.
          rewrite Es, swap_swap, (odds_first k (S i)).
          replace (xorb (alternating && odds (S k) (S i)) (alternating && Nat.odd k)) with (alternating && xorb (Nat.odd k) (odds (S k) (S i))); [tauto|].
          destruct alternating; [cbn [andb]; apply xorb_comm|reflexivity].
      + rewrite El, Es, swap_swap, (odds_first k count). f_equal. destruct alternating; [cbn [andb]; apply xorb_comm|reflexivity].
  Qed.
End Order.
(* gates 0, 3, 4, 7, 8, 11, ... are not exchanged *)
Lemma odds_mod i : odds 0 (S i) = (Nat.eqb (i mod 4) 1 || Nat.eqb (i mod 4) 2).
Proof.
  assert (G : forall q, odds 0 (4 * q) = false /\ odds 0 (S (4 * q)) = false /\ odds 0 (S (S (4 * q))) = true /\ odds 0 (S (S (S (4 * q)))) = true).
  { assert (S4 : forall j, odds 0 j = false -> Nat.odd j = false -> odds 0 (S j) = false /\ odds 0 (S (S j)) = true /\ odds 0 (S (S (S j))) = true /\ odds 0 (4 + j) = false).
    { intros j E O. assert (O1 : Nat.odd (S j) = true) by (rewrite Nat.odd_succ, <- Nat.negb_odd, O; reflexivity).
      assert (O2 : Nat.odd (S (S j)) = false) by (rewrite Nat.odd_succ, <- Nat.negb_odd, O1; reflexivity).
      assert (O3 : Nat.odd (S (S (S j))) = true) by (rewrite Nat.odd_succ, <- Nat.negb_odd, O2; reflexivity).
      cbn [odds Nat.add]. rewrite E, O, O1, O2, O3. auto. }
    assert (O4 : forall q, Nat.odd (4 * q) = false) by (intros q; rewrite Nat.odd_mul; reflexivity).
    induction q as [|q IH]; [cbn; auto|]. destruct IH as (A & _).
    destruct (S4 (4 * q)%nat A (O4 q)) as (_ & _ & _ & B). replace (4 * S q)%nat with (4 + 4 * q)%nat by lia.
    destruct (S4 (4 + 4 * q)%nat B) as (C1 & C2 & C3 & _); [replace (4 + 4 * q)%nat with (4 * S q)%nat by lia; apply O4|]. auto. }
  pose proof (Nat.div_mod i 4 ltac:(lia)) as D. destruct (G (i / 4)%nat) as (A0 & A1 & A2 & A3).
  destruct (G (S (i / 4))) as (B0 & _).
  pose proof (Nat.mod_upper_bound i 4 ltac:(lia)) as L.
  destruct (i mod 4)%nat as [|[|[|[|r]]]] eqn:Er; [| | | |lia].
  - replace (S i) with (S (4 * (i / 4)))%nat by lia. rewrite A1. reflexivity.
  - replace (S i) with (S (S (4 * (i / 4))))%nat by lia. rewrite A2. reflexivity.
  - replace (S i) with (S (S (S (4 * (i / 4)))))%nat by lia. rewrite A3. reflexivity.
  - replace (S i) with (4 * S (i / 4))%nat by lia. rewrite B0. reflexivity.
Qed.

Lemma C41_lemma fuse show ordt ordp it lc lt gates_ rounds data_init orientation rot reset dets gauge w w' c :
  repeated_cnot_with fuse show ordt ordp it lc lt gates_ rounds data_init orientation rot reset dets gauge w = (w', Ok c) ->
  exists before parts after, c = before ++ concat (map (fun p => fst p ++ snd p) parts) ++ after /\ Z.of_nat (length parts) = gates_ /\
    forall k g r, nth_error parts k = Some (g, r) -> exists w1 w2 o op,
      let b := eqb orientation "alternating" && (Nat.eqb (k mod 4) 1 || Nat.eqb (k mod 4) 2) in
      log_trans_cnot (ordt o) (ordp op) (fst (exchanged_if b lc lt)) (snd (exchanged_if b lc lt)) w1 = (w2, Ok g).
Proof.
  unfold repeated_cnot_with. destruct (rounds <? 0); [discriminate|]. destruct (Z.ltb_spec gates_ 0); [discriminate|]. intros H0.
  apply sbind_ok in H0 as (w1 & ds & _ & H0). destruct (negb _); [discriminate|].
  apply sbind_ok in H0 as (w2 & dc & _ & H0). apply sbind_ok in H0 as (w3 & dt & _ & H0).
  apply sbind_ok in H0 as (w4 & c0 & _ & H0). apply sbind_ok in H0 as (w5 & ic & _ & H0). apply sbind_ok in H0 as (w6 & it_ & _ & H0).
  apply sbind_ok in H0 as (w7 & c1 & _ & H0). apply sbind_ok in H0 as (w8 & ds' & _ & H0). apply sbind_ok in H0 as (w9 & c2 & _ & H0).
  apply sbind_ok in H0 as (w10 & [[c3 lc'] lt'] & HL & H0). apply sbind_ok in H0 as (w11 & c4 & _ & H0). injection H0 as _ <-.
  apply cnot_loop_ok in HL as (parts & Ln & -> & Hp & _). exists (c0 ++ c1 ++ c2), parts, c4.
  split; [now rewrite <- !app_assoc|]. split; [refine (eq_trans (f_equal Z.of_nat Ln) _); now apply Z2Nat.id|].
  intros k g r E. destruct (Hp k g r E) as (v1 & v2 & o & op & K). exists v1, v2, o, op. rewrite odds_mod in K. cbv zeta.
  unfold swap in K. cbn [fst snd] in K. destruct (exchanged_if _ lc lt) as [x y]. exact K.
Qed.
