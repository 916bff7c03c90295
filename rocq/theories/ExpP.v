(** Measurement records, label gates and checks of an emitted circuit. *)
From Coq Require Import QArith Qcanon.
From Verif Require Import Base Lib StimM SetupM NoiseM SpecNoise NoiseP LayoutM DetM SpecDet BlockM SpecTrack SpecExp TrackP LiftP.
Open Scope Z_scope.

(** * The qubits measured by a list of gates *)
Definition mlab {Q} (l : list (gate Q)) : list Q :=
  flat_map (fun g => match g with G1 n q => if is_meas n then [q] else [] | G2 _ _ _ => [] end) l.
Lemma mlab_app {Q} (a b : list (gate Q)) : mlab (a ++ b) = mlab a ++ mlab b.
Proof. apply flat_map_app. Qed.
Lemma mlab_len {Q} (l : list (gate Q)) : length (mlab l) = num_meas l.
Proof.
  induction l as [|[n q|n a b] l IH]; [reflexivity| |exact IH]. unfold num_meas, mlab in *. cbn [flat_map filter measures_gate].
  destruct (is_meas n); cbn [app length]; now rewrite IH.
Qed.
Lemma mlab_rel qi L L' : Forall2 (gate_rel qi) L L' -> Forall2 (fun q i => dget q qi = Some i) (mlab L) (mlab L').
Proof.
  induction 1 as [|g h L L' R _ IH]; [constructor|]. unfold mlab in *. cbn [flat_map]. apply Forall2_app; [|exact IH].
  destruct g as [n q|n a b], h as [n' i|n' i j]; cbn in R; try contradiction; [|constructor].
  destruct R as [-> R]. destruct (is_meas n'); repeat constructor; auto.
Qed.
Lemma mlab_map {Q} g (l : list Q) : mlab (map (G1 g) l) = if is_meas g then l else [].
Proof. unfold mlab. induction l as [|q l IH]; cbn; [now destruct (is_meas g)|]. rewrite IH. now destruct (is_meas g). Qed.
Lemma mlab_pairs {Q} g (l : list Q) : mlab (pair_gates g l) = [].
Proof.
  induction l as [l IH] using (well_founded_induction (well_founded_ltof _ (@length Q))).
  destruct l as [|a [|b l]]; try reflexivity. cbn. apply IH. unfold ltof. cbn. lia.
Qed.

(** * Selections by label *)
Section Sel.
  Context {Q : Type} `{Eqb Q}.
  (* [q] is measured for the j-th last time by the k-th last measurement *)
  Definition jth (ML : list Q) (q : Q) (j k : nat) : bool :=
    match nth_error (rev ML) (k - 1) with
    | Some x => eqb q x && Nat.eqb (count x (firstn k (rev ML))) j
    | None => false
    end.
  Definition selT (ML : list Q) (T : Q -> nat -> bool) (k : nat) : bool :=
    match nth_error (rev ML) (k - 1) with
    | Some x => T x (count x (firstn k (rev ML)))
    | None => false
    end.
  Lemma count_rev x (l : list Q) : count x (rev l) = count x l.
  Proof. induction l as [|y l IH]; [reflexivity|]. cbn [rev]. rewrite count_app, IH. cbn. destruct (eqb x y); lia. Qed.
  Lemma selT_shift ML B T k : (1 <= k)%nat ->
    selT (ML ++ B) T (k + length B) = selT ML (fun q j => T q (j + count q B)%nat) k.
  Proof.
    intros Hk. unfold selT. rewrite rev_app_distr, nth_error_app2 by (rewrite rev_length; lia).
    rewrite rev_length. replace (k + length B - 1 - length B)%nat with (k - 1)%nat by lia.
    destruct (nth_error (rev ML) (k - 1)) as [x|]; [|reflexivity].
    rewrite firstn_app, rev_length, firstn_all2 by (rewrite rev_length; lia).
    replace (k + length B - length B)%nat with k by lia. rewrite count_app, count_rev. f_equal. lia.
  Qed.
  Lemma count_firstn_pos x (l : list Q) k : nth_error l (k - 1) = Some x -> (1 <= k)%nat -> (1 <= count x (firstn k l))%nat.
  Proof.
    revert k. induction l as [|y l IH]; intros k E Hk; [destruct (k - 1)%nat; discriminate|]. destruct k as [|k]; [lia|].
    cbn [firstn count]. cbn in E. rewrite Nat.sub_0_r in E. destruct k as [|k]; cbn in E.
    - injection E as ->. rewrite eqb_refl. lia.
    - specialize (IH (S k)). replace (S k - 1)%nat with k in IH by lia. specialize (IH E ltac:(lia)). destruct (eqb x y); lia.
  Qed.
  Lemma selT_ext ML T T' k : (1 <= k)%nat -> (forall q j, In q ML -> (1 <= j <= count q ML)%nat -> T q j = T' q j) -> selT ML T k = selT ML T' k.
  Proof.
    intros Hk E. unfold selT. destruct (nth_error (rev ML) (k - 1)) as [x|] eqn:N; [|reflexivity]. apply E.
    - apply nth_error_In in N. now apply in_rev.
    - split; [now apply count_firstn_pos|]. pose proof (count_app x (firstn k (rev ML)) (skipn k (rev ML))) as C.
      rewrite firstn_skipn, count_rev in C. lia.
  Qed.
  Lemma count_nodup x (l : list Q) : NoDup l -> count x l = if mem x l then 1%nat else 0%nat.
  Proof.
    induction 1 as [|y l Hn _ IH]; [reflexivity|]. cbn [count]. rewrite mem_cons, IH. destruct (eqb_spec x y) as [->|]; [|reflexivity].
    cbn [orb]. now rewrite (mem_not y l Hn).
  Qed.
  Lemma msel_selT ML B T q : NoDup B -> In q B -> msel B (selT (ML ++ B) T) q = T q 1%nat.
  Proof.
    revert ML. induction B as [|x B IH]; intros ML N Hq; [destruct Hq|]. inversion N as [|? ? Hn N']; subst. cbn [msel].
    destruct (eqb_spec x q) as [->|Ne].
    - unfold selT. rewrite rev_app_distr. cbn [rev]. cbn [Nat.sub]. rewrite Nat.sub_0_r.
      rewrite <- app_assoc. rewrite nth_error_app2 by (rewrite rev_length; lia). rewrite rev_length, Nat.sub_diag. cbn [nth_error app].
      f_equal. rewrite firstn_app, rev_length, firstn_all2 by (rewrite rev_length; lia).
      replace (S (length B) - length B)%nat with 1%nat by lia. cbn [firstn]. rewrite count_app, count_rev, (count_nodup q B N'), (mem_not q B Hn).
      cbn. now rewrite eqb_refl.
    - destruct Hq as [->|Hq]; [congruence|]. replace (ML ++ x :: B) with ((ML ++ [x]) ++ B) by (now rewrite <- app_assoc). now apply IH.
  Qed.
  Lemma jth_selT ML q j k : (1 <= j)%nat -> jth ML q j k = selT ML (fun x j' => eqb q x && Nat.eqb j' j) k.
  Proof. reflexivity. Qed.
  Lemma selT_xor ML T U k : xorb (selT ML T k) (selT ML U k) = selT ML (fun q j => xorb (T q j) (U q j)) k.
  Proof. unfold selT. destruct (nth_error (rev ML) (k - 1)); reflexivity. Qed.
  Lemma selT_false ML k : selT ML (fun _ _ => false) k = false.
  Proof. unfold selT. now destruct (nth_error (rev ML) (k - 1)). Qed.
  Lemma jth_out ML q j k : (count q ML < j)%nat -> (1 <= k)%nat -> jth ML q j k = false.
  Proof.
    intros Hc Hk. unfold jth. destruct (nth_error (rev ML) (k - 1)) as [x|] eqn:N; [|reflexivity].
    destruct (eqb_spec q x) as [->|]; [|reflexivity]. cbn [andb]. apply Nat.eqb_neq.
    pose proof (count_app x (firstn k (rev ML)) (skipn k (rev ML))) as C. rewrite firstn_skipn, count_rev in C. lia.
  Qed.
End Sel.

(** * The record of the model *)
Section Record.
  Context (qi : dict string Z) (m : model) (rec : list target) (ML : list string).
  Hypothesis Wf : wf_inds qi.
  Hypothesis Eq : inds m = qi.
  Hypothesis I : Inv m rec.
  Hypothesis Hk : forall q l, dget q (order m) = Some l -> exists i, dget q qi = Some i.
  Hypothesis F : at_inds qi ML rec.

  Lemma at_len : length ML = length rec.
  Proof. exact (Forall2_len _ _ _ F). Qed.
  Lemma at_count q i : dget q qi = Some i -> forall l r, at_inds qi l r -> count (TQ i) r = count q l.
  Proof.
    intros E l r G. induction G as [|x t l r (j & Ej & ->) _ IH]; [reflexivity|]. cbn [count]. rewrite IH.
    destruct (eqb_spec q x) as [->|Ne].
    - rewrite Ej in E. injection E as ->. now rewrite eqb_refl.
    - destruct (eqb_spec (TQ i) (TQ j)) as [[= ->]|]; [|reflexivity]. destruct Ne. eapply inj_inds; eauto.
  Qed.
  Lemma at_skipn n : forall l r, at_inds qi l r -> at_inds qi (skipn n l) (skipn n r).
  Proof. induction n as [|n IH]; intros l r G; [exact G|]. destruct G; [constructor|]. cbn. now apply IH. Qed.
  Lemma at_nth n : forall l r, at_inds qi l r -> match nth_error r n with
      | Some t => exists q i, nth_error l n = Some q /\ dget q qi = Some i /\ t = TQ i | None => nth_error l n = None end.
  Proof.
    induction n as [|n IH]; intros l r G; (destruct G as [|q t l r (i & Ei & ->) G]; [reflexivity|]); cbn.
    - eauto.
    - apply IH; exact G.
  Qed.
  Lemma rev_nth {A} (l : list A) k : (1 <= k <= length l)%nat -> nth_error (rev l) (k - 1) = nth_error l (length l - k).
  Proof.
    intros Hl. destruct (nth_error l (length l - k)) as [x|] eqn:E.
    - apply nth_error_split in E as (l1 & l2 & -> & E). rewrite app_length in E. cbn in E.
      rewrite rev_app_distr. cbn [rev]. rewrite <- app_assoc. rewrite app_length in Hl. cbn in Hl.
      rewrite nth_error_app2 by (rewrite rev_length; lia). rewrite rev_length. replace (k - 1 - length l2)%nat with 0%nat by lia. reflexivity.
    - apply nth_error_None in E. lia.
  Qed.
  Lemma firstn_rev' {A} (l : list A) k : firstn k (rev l) = rev (skipn (length l - k) l).
  Proof. rewrite firstn_rev. reflexivity. Qed.
  Lemma kth_jth q i j k : dget q qi = Some i -> (1 <= k)%nat -> kth_last rec (TQ i) (Z.of_nat j) (Z.of_nat k) <-> jth ML q j k = true.
  Proof.
    intros E H1. unfold kth_last, jth. rewrite Nat2Z.id. rewrite <- at_len.
    destruct (Nat.le_gt_cases k (length ML)) as [L|L].
    - rewrite rev_nth by lia. pose proof (at_nth (length ML - k) _ _ F) as N. destruct (nth_error rec (length ML - k)) as [t|].
      + destruct N as (q' & i' & N & E' & ->). rewrite N. rewrite firstn_rev', count_rev.
        pose proof (at_count q i E _ _ (at_skipn (length ML - k) _ _ F)) as C. rewrite andb_true_iff, Nat.eqb_eq. split.
        * intros (_ & [= ->] & C'). assert (q = q') by (eapply inj_inds; eauto). subst q'. rewrite eqb_refl. split; [reflexivity|]. rewrite <- C. lia.
        * intros [Eq' C']. apply eqb_eq in Eq' as ->. rewrite E in E'. injection E' as ->. split; [lia|]. split; [reflexivity|]. rewrite C. lia.
      + rewrite N. split; [intros (_ & [=] & _)|discriminate].
    - split; [intros (A & _); lia|]. intros A. exfalso. destruct (nth_error (rev ML) (k - 1)) eqn:N; [|discriminate].
      assert (nth_error (rev ML) (k - 1) <> None) by congruence. apply nth_error_Some in H. rewrite rev_length in H. lia.
  Qed.
  Lemma suffix_count {A} `{Eqb A} (x : A) l p p' : (p < p')%nat -> nth_error l p = Some x ->
    (count x (skipn p' l) < count x (skipn p l))%nat.
  Proof.
    intros Hp Ex. apply nth_error_split in Ex as (l1 & l2 & -> & <-).
    rewrite !skipn_app, Nat.sub_diag. rewrite (skipn_all2 l1) by lia. rewrite skipn_all. cbn [app].
    replace (p' - length l1)%nat with (S (p' - length l1 - 1)) by lia. cbn [skipn count]. rewrite eqb_refl.
    pose proof (count_app x (firstn (p' - length l1 - 1) l2) (skipn (p' - length l1 - 1) l2)) as C. rewrite firstn_skipn in C. lia.
  Qed.
  Lemma kth_last_inj {A} `{Eqb A} (x : A) l k j j' : kth_last l x k j -> kth_last l x k j' -> j = j'.
  Proof.
    intros (A1 & A2 & A3) (B1 & B2 & B3). destruct (Z.lt_trichotomy j j') as [L|[L|L]]; [|exact L|].
    - pose proof (suffix_count x l (length l - Z.to_nat j') (length l - Z.to_nat j) ltac:(lia) B2). lia.
    - pose proof (suffix_count x l (length l - Z.to_nat j) (length l - Z.to_nat j') ltac:(lia) A2). lia.
  Qed.

  (* what meas_target returns, by label *)
  Definition refers (k : nat) (q : string) (z : Z) : bool :=
    match meas_target m q z with Ok t => eqb t (TR (- Z.of_nat k)) | Err _ => false end.
  Lemma refers_reads k : reads (meas_target m) (fun t => eqb t (TR (- Z.of_nat k))) (refers k).
  Proof. intros q z t E. unfold refers. now rewrite E. Qed.
  Lemma refers_jth q j k : (1 <= j)%nat -> (1 <= k)%nat -> refers k q (- Z.of_nat j) = jth ML q j k.
  Proof.
    intros Hj H1. destruct (dget q qi) as [i|] eqn:E.
    - assert (C : count (TQ i) rec = count q ML) by exact (at_count q i E _ _ F).
      destruct (Nat.le_gt_cases j (count q ML)) as [L|L].
      + destruct (meas_target_correct m rec q i (Z.of_nat j)) as (r & Er & Kr); [exact I|now rewrite Eq|lia|].
        unfold refers. rewrite Er. apply eq_true_iff_eq. rewrite <- (kth_jth q i j k E H1). rewrite eqb_eq. split.
        * intros [= A]. assert (r = Z.of_nat k) as <- by lia. exact Kr.
        * intros A. f_equal. f_equal. now apply (kth_last_inj (TQ i) rec (Z.of_nat j)).
      + rewrite jth_out by auto. unfold refers, meas_target, dget_err. destruct I as [_ Io]. rewrite (Io q i) by (now rewrite Eq). cbn [of_opt bind].
        rewrite positions_length, C. replace ((Z.of_nat (count q ML) <? - Z.of_nat j) || (- Z.of_nat j <? - Z.of_nat (count q ML))) with true by lia. reflexivity.
    - unfold refers, meas_target, dget_err. destruct (dget q (order m)) eqn:O; cbn [of_opt bind].
      + apply Hk in O as (i & O). congruence.
      + symmetry. unfold jth. destruct (nth_error (rev ML) (k - 1)) as [x|] eqn:N; [|reflexivity].
        destruct (eqb_spec q x) as [->|]; [|reflexivity]. exfalso. apply nth_error_In, in_rev in N.
        clear -F N E. induction F as [|y t l r (i & Ei & ->) _ IH]; [destruct N|]. destruct N as [->|N]; [congruence|inversion F; auto].
  Qed.
  Lemma target_valid q z t : meas_target m q z = Ok t -> exists k, t = TR (- Z.of_nat k) /\ (1 <= k <= length ML)%nat.
  Proof.
    unfold meas_target, dget_err. destruct (dget q (order m)) as [l|] eqn:O; cbn [of_opt bind]; [|discriminate].
    destruct (Hk _ _ O) as (i & Ei). destruct I as [In Io]. rewrite (Io q i) in O by (now rewrite Eq). injection O as <-.
    destruct (_ || _); [discriminate|]. destruct (py_nth_range (positions (TQ i) rec 0) z) as [[_ (a & -> & Ha)]|[_ ->]]; cbn [bind]; [|discriminate].
    intros [= <-]. apply positions_bound in Ha. rewrite In, at_len. exists (Z.to_nat (Z.of_nat (length rec) - a)). split; [f_equal; lia|lia].
  Qed.
End Record.

(** * Following the blocks of an experiment *)
Record tracked (qi : dict string Z) (m : model) (L : list (gate string)) (c : circuit) : Prop := {
  tk_wf : wf_inds qi;
  tk_qi : inds m = qi;
  tk_inv : Inv m (measured c);
  tk_keys : forall q l, dget q (order m) = Some l -> exists i, dget q qi = Some i;
  tk_rel : Forall2 (gate_rel qi) L (gates c);
  tk_meas : measured c = map TQ (mlab (gates c)) }.

Lemma tracked_at qi m L c : tracked qi m L c -> at_inds qi (mlab L) (measured c).
Proof.
  intros T. rewrite (tk_meas _ _ _ _ T). pose proof (mlab_rel _ _ _ (tk_rel _ _ _ _ T)) as F. unfold at_inds.
  clear T. induction F; cbn; constructor; eauto.
Qed.

Lemma measured_app a b : measured (a ++ b) = measured a ++ measured b.
Proof. apply flat_map_app. Qed.
Lemma measured_ann c : annotations c -> measured c = [].
Proof.
  induction 1 as [|i c Hi _ IH]; [reflexivity|]. unfold measured in *. cbn [flat_map]. rewrite IH, app_nil_r. unfold instr_meas.
  destruct (nm i); cbn in *; try discriminate; reflexivity.
Qed.
Lemma gates_meas_one g is : is_two g = false -> is_annotation g = false -> is_noise g || eqb g GI = false ->
  mlab (flat_map gate_of_atom (instr_atoms (Instr g (map TQ is) []))) = if is_meas g then is else [].
Proof.
  intros T A N. unfold instr_atoms. cbn [nm tg]. rewrite N, A, T.
  assert (E : flat_map gate_of_atom (map (A1 g) (map TQ is)) = map (G1 g) is) by (clear; induction is; cbn; congruence).
  rewrite E. apply mlab_map.
Qed.
Lemma measures_one g : is_meas g = true -> is_two g = false /\ is_annotation g = false /\ is_noise g || eqb g GI = false.
Proof. destruct g; try discriminate; auto. Qed.
Lemma atoms_no_meas g ts : is_meas g = false -> mlab (flat_map gate_of_atom (instr_atoms (Instr g ts []))) = [].
Proof.
  intros M. unfold instr_atoms. cbn [nm tg]. destruct (is_noise g || eqb g GI); [reflexivity|]. destruct (is_annotation g); [reflexivity|].
  destruct (is_two g).
  - induction ts as [ts IH] using (well_founded_induction (well_founded_ltof _ (@length target))).
    destruct ts as [|a [|b r]]; try reflexivity. cbn [pair_atoms flat_map]. rewrite mlab_app, IH by (unfold ltof; cbn; lia).
    destruct a, b; reflexivity.
  - induction ts as [|a ts IH]; [reflexivity|]. cbn [map flat_map]. rewrite mlab_app, IH. destruct a; cbn; [now rewrite M|reflexivity].
Qed.
Lemma call_meas c m m' r : run_call c m = (m', Ok r) -> measured r = map TQ (mlab (gates r)) /\ Forall (fun i => ~ is_check i) r.
Proof.
  destruct c as [o qs|]; cbn [run_call].
  2:{ intros H. apply sret_ok in H as [_ <-]. split; [reflexivity|]. repeat constructor. intros [E|E]; discriminate. }
  intros H. apply apply_char in H as [_ [js [B G]]]. split.
  - rewrite (built_measured _ _ B). unfold gates. rewrite (built_ideal _ _ B).
    destruct (gate_of (kind m) o) as [g|].
    + destruct G as (is & _ & _ & -> & ->). unfold instr_meas. cbn [nm tg]. destruct (is_meas g) eqn:M.
      * destruct (measures_one g M) as (T & A & N). rewrite gates_meas_one by auto. now rewrite M.
      * now rewrite atoms_no_meas.
    + destruct G as [-> ->]. reflexivity.
  - destruct B as (_ & Bc & _). eapply Forall_impl; [|exact Bc]. intros i [_ A] [E|E]; rewrite E in A; discriminate.
Qed.
Lemma add_all_keys qs : forall m m' r, add_all qs m = (m', r) -> forall q l, dget q (order m') = Some l ->
  exists l', dget q (order m) = Some l'.
Proof.
  induction qs as [|x qs IH]; intros m m' r H q l E; cbn in H; [injection H as <- _; eauto|].
  unfold sbind in H. destruct (add_meas x m) as [m1 [u|e]] eqn:A.
  - destruct (IH _ _ _ H _ _ E) as (l' & E'). unfold add_meas in A. destruct (negb (dmem x (inds m))); [discriminate|].
    destruct (dget x (order m)) eqn:O; [|discriminate]. injection A as <-. cbn in E'. rewrite dget_dset in E'.
    destruct (eqb_spec x q) as [->|]; eauto.
  - injection H as <- _. unfold add_meas in A. destruct (negb (dmem x (inds m))); [injection A as <-; eauto|].
    destruct (dget x (order m)); injection A as <-; eauto; discriminate.
Qed.
Lemma call_keys o qs m m' r : apply o qs m = (m', Ok r) -> forall q l, dget q (order m') = Some l -> exists l', dget q (order m) = Some l'.
Proof.
  intros H. apply apply_char in H as [H _]. destruct (measuring o); [eapply add_all_keys; exact H|]. subst m'. eauto.
Qed.
Lemma tracked_call qi c m m' r L c0 : tracked qi m L c0 -> run_call c m = (m', Ok r) -> no_my c ->
  tracked qi m' (L ++ lg_call c) (c0 ++ r).
Proof.
  intros [W Q I K R M] H N. pose proof (call_gates _ _ _ _ H N) as [(_ & _ & S) G]. pose proof (call_meas _ _ _ _ H) as [E _].
  constructor; auto.
  - congruence.
  - rewrite measured_app. destruct c as [o qs|]; cbn [run_call] in H.
    + eapply apply_inv; eauto. now rewrite Q.
    + apply sret_ok in H as [-> <-]. cbn. now rewrite app_nil_r.
  - destruct c as [o qs|]; cbn [run_call] in H.
    + intros q l D. destruct (call_keys _ _ _ _ _ H _ _ D) as (l' & D'). eauto.
    + apply sret_ok in H as [-> _]. exact K.
  - rewrite LiftP.gates_app. apply Forall2_app; [exact R|]. now rewrite Q in G.
  - rewrite measured_app, LiftP.gates_app, mlab_app, map_app. now rewrite M, E.
Qed.
Lemma tracked_block qi b : forall m m' r L c0, tracked qi m L c0 -> run_block b m = (m', Ok r) -> Forall no_my b ->
  tracked qi m' (L ++ lg_block b) (c0 ++ r) /\ Forall (fun i => ~ is_check i) r.
Proof.
  induction b as [|c b IH]; intros m m' r L c0 T H N; cbn [run_block] in H.
  - apply sret_ok in H as [-> <-]. cbn. rewrite !app_nil_r. auto.
  - inversion N as [|? ? N1 N2]; subst. apply sbind_ok in H as (m1 & x & H1 & H). apply sbind_ok in H as (m2 & y & H2 & H).
    apply sret_ok in H as [-> <-]. pose proof (call_meas _ _ _ _ H1) as [_ P]. eapply tracked_call in H1; eauto. eapply IH in H2 as [H2 P2]; eauto.
    cbn [lg_block flat_map]. rewrite app_assoc, app_assoc. split; [exact H2|]. apply Forall_app; auto.
Qed.
Lemma tracked_blocks qi bl : forall m m' r L c0, tracked qi m L c0 -> run_blocks bl m = (m', Ok r) -> ok_blocks bl ->
  tracked qi m' (L ++ lg_blocks bl) (c0 ++ r) /\ Forall (fun i => ~ is_check i) r.
Proof.
  induction bl as [|b bl IH]; intros m m' r L c0 T H N; cbn [run_blocks] in H.
  - apply sret_ok in H as [-> <-]. cbn. rewrite !app_nil_r. auto.
  - inversion N as [|? ? N1 N2]; subst. apply sbind_ok in H as (m0 & b' & H0 & H). unfold slift in H0. injection H0 as <- ->.
    apply sbind_ok in H as (m1 & x & H1 & H). apply sbind_ok in H as (m2 & y & H2 & H).
    apply sret_ok in H as [-> <-]. eapply tracked_block in H1 as [H1 P1]; eauto. eapply IH in H2 as [H2 P2]; eauto.
    cbn [lg_blocks flat_map]. rewrite app_assoc, app_assoc. split; [exact H2|]. apply Forall_app; auto.
Qed.
Lemma tracked_ann qi m L c r : tracked qi m L c -> annotations r -> tracked qi m L (c ++ r).
Proof.
  intros [W Q I K R M] A. constructor; auto; rewrite ?measured_app, ?LiftP.gates_app, ?(measured_ann r A), ?(gates_ann r A), ?app_nil_r; auto.
Qed.
Lemma tracked_start m c : wf_inds (inds m) -> annotations c -> tracked (inds m) (new_circuit m) [] c.
Proof.
  intros W A. constructor; auto.
  - rewrite (measured_ann c A). apply new_circuit_inv.
  - intros q l. cbn [new_circuit order]. generalize (inds m). induction d as [|[k v] d IH]; cbn; [discriminate|].
    destruct (eqb q k); eauto.
  - rewrite (gates_ann c A). constructor.
  - now rewrite (measured_ann c A), (gates_ann c A).
Qed.

(** * Checks *)
Definition good (c0 c : circuit) : Prop := forall pre i post, c = pre ++ i :: post -> is_check i -> deterministic (c0 ++ pre) i.
Lemma good_all c : all_deterministic c <-> good [] c.
Proof. reflexivity. Qed.
Lemma good_app c0 a b : good c0 a -> good (c0 ++ a) b -> good c0 (a ++ b).
Proof.
  intros A B pre i post E C. apply app_eq_app in E as (l & [[-> E]|[-> E]]).
  - destruct l as [|x l].
    + cbn in E. subst b. specialize (B [] i post eq_refl C). rewrite !app_nil_r in *. exact B.
    + injection E as <- ->. now apply (A pre i l).
  - specialize (B l i post E C). now rewrite app_assoc.
Qed.
Lemma good_none c0 c : Forall (fun i => ~ is_check i) c -> good c0 c.
Proof. intros F pre i post -> C. apply Forall_app in F as [_ F]. inversion F; subst. contradiction. Qed.
Lemma split_ann c pre i post : annotations c -> c = pre ++ i :: post -> annotations pre.
Proof. intros A ->. now apply Forall_app in A as [A _]. Qed.
(* checks at the end of a circuit *)
Lemma good_checks c0 c : annotations c -> Forall (fun i => is_check i -> deterministic c0 i) c -> good c0 c.
Proof.
  intros A F pre i post E C. pose proof (split_ann _ _ _ _ A E) as Ap. rewrite E in F. apply Forall_app in F as [_ F]. inversion F as [|? ? D _]; subst.
  destruct (D C) as [V (P & B & Z)]. unfold deterministic. rewrite LiftP.gates_app, (gates_ann pre Ap), app_nil_r. split; eauto.
Qed.

Lemma xorl_count {A} `{Eqb A} (x : A) l : Nat.odd (count x l) = xorl (map (fun y => eqb y x) l).
Proof.
  induction l as [|y l IH]; [reflexivity|]. cbn [count map]. unfold xorl in *. cbn [fold_right]. rewrite <- IH.
  destruct (eqb_spec x y) as [->|Ne].
  - rewrite eqb_refl. replace (1 + count y l)%nat with (S (count y l)) by lia. rewrite Nat.odd_succ, <- Nat.negb_odd. now destruct (Nat.odd _).
  - rewrite (proj2 (eqb_neq y x)) by congruence. now rewrite xorb_false_l.
Qed.
Lemma lists_parity i k : lists i k = parity (fun t => eqb t (TR (- Z.of_nat k))) i.
Proof. apply xorl_count. Qed.

(* from the labels to the circuit *)
Lemma det_labels qi m L c i T : tracked qi m L c ->
  Forall (fun t => exists q z, meas_target m q z = Ok t) (tg i) ->
  (forall k, (1 <= k <= length (mlab L))%nat -> lists i k = selT (mlab L) T k) ->
  bk L (selT (mlab L) T) identity_op identity_op -> deterministic c i.
Proof.
  intros [W Q I K R M] Fr S (P & E & F). assert (N : num_meas (gates c) = length (mlab L)).
  { rewrite <- (num_meas_rel _ _ _ R). symmetry. apply mlab_len. }
  assert (A : at_inds qi (mlab L) (measured c)) by (eapply tracked_at; constructor; eauto). split.
  - eapply Forall_impl; [|exact Fr]. intros t (q & z & Et). rewrite N. eapply target_valid; eauto.
  - pose proof (back_rep qi L (gates c) (selT (mlab L) T) identity_op identity_op W R) as B.
    rewrite E in B. destruct (back (gates c) (selT (mlab L) T) identity_op) as [P'|] eqn:E'.
    + exists P'. split.
      * rewrite <- E'. apply back_ext. intros k Hk. rewrite N in Hk. now apply S.
      * specialize (B ltac:(split; auto)). cbn in B. destruct B as [B1 B2]. intros j. destruct (in_dec Z.eq_dec j (dvals qi)) as [Hj|Hj]; [|now apply B2].
        assert (D : exists q, dget q qi = Some j).
        { destruct W as [Wk _]. clear -Hj Wk. unfold dvals in Hj. apply in_map_iff in Hj as ((q & j') & <- & Hj). exists q.
          induction qi as [|[q' v] d IH]; [destruct Hj|]. cbn in *. inversion Wk as [|? ? N1 N2]; subst. destruct Hj as [[= -> ->]|Hj]; [now rewrite eqb_refl|].
          destruct (eqb_spec q q') as [->|]; [|auto]. destruct N1. apply in_map_iff. exists (q', j'). auto. }
        destruct D as (q & D). destruct (B1 q j D) as [-> ->]. destruct (F q) as [-> ->]. auto.
    + destruct (B ltac:(split; auto)).
Qed.
