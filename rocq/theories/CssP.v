(** Proofs about the CSS rounds: what they measure and preserve. *)
From Coq Require Import QArith Qcanon.
From Verif Require Import Base Lib StimM SetupM NoiseM SpecNoise NoiseP LayoutM SpecLayout LayoutP LayoutP2 DetM
  GenM GenP SpecGen GeomP BlockM SpecTrack TrackP RoundP ActP.
Open Scope Z_scope.

Section Css.
  Context (l : layout) (shifts : list (Z * Z)) (dirn : Z * Z -> string) (pt : Qc * Qc) (ps : list placed).
  Hypothesis P : planar l shifts dirn pt ps.
  Context (s0 s1 s2 s3 : Z * Z) (RP : Z * Z -> bool) (code : string).
  Hypothesis Ns : NoDup [s0; s1; s2; s3].
  Hypothesis Ps : Permutation shifts [s0; s1; s2; s3].
  Hypothesis Par : padd s0 s3 = padd s1 s2.
  Hypothesis Hcode : l_code l = code.
  Hypothesis Hord : l_order l = [("x_type", [dirn s0; dirn s1; dirn s2; dirn s3]); ("z_type", [dirn s0; dirn s2; dirn s1; dirn s3])].
  Definition onR (s : Z * Z) : bool := eqb s s0 || eqb s s3.
  Hypothesis HR : forall p q s, In p ps -> In q ps -> In s shifts -> knd q = KD -> pos q = padd (pos p) s ->
    (knd p = KX -> RP (pos q) = onR s) /\ (knd p = KZ -> RP (pos q) = negb (onR s)).
  Hypothesis HR3 : forall q, In q ps -> knd q = KD -> RP (pos q) = true ->
    exists p, In p ps /\ knd p = KX /\ (pos q = padd (pos p) s0 \/ pos q = padd (pos p) s3).
  Hypothesis HG : forall p q s, In p ps -> In q ps -> knd p <> KD -> knd q <> KD -> knd p <> knd q -> s = s1 \/ s = s2 ->
    padd (pos q) s3 = padd (pos p) s ->
    fv ps (fun _ => true) (padd (pos p) s) = true /\ fv ps (fun _ => true) (padd (pos p) s0) = true.
  Context (ord : nat -> list string -> list string).
  Hypothesis Hp : forall k s, Permutation (ord k s) s.

  Local Notation labs := (labs ps).
  Local Notation ancs := (ancs ps).
  Local Notation get := (fun k d => get_pairs l (labs k) (Some (dirn d))).
  Definition rot : list string :=
    union (union (dedup ancs) (get_neighbors l (labs KX) (Some (dirn s0)))) (get_neighbors l (labs KX) (Some (dirn s3))).
  Definition L0 := get KX s0 ++ get KZ s0.
  Definition L1 := get KX s1 ++ get KZ s2.
  Definition L2 := get KX s2 ++ get KZ s1.
  Definition L3 := get KX s3 ++ get KZ s3.
  Definition inner : list (gate string) :=
    map (G1 GH) (ord 0%nat rot) ++ cz_gates L0 ++ map (G1 GH) (labs KD) ++ cz_gates L1 ++ cz_gates L2 ++
    map (G1 GH) (labs KD) ++ cz_gates L3 ++ map (G1 GH) (ord 6%nat rot).
  Lemma in_shifts : In s0 shifts /\ In s1 shifts /\ In s2 shifts /\ In s3 shifts.
  Proof. repeat split; (eapply Permutation_in; [symmetry; exact Ps|]; cbn; auto). Qed.
  Lemma Nshifts : NoDup shifts.
  Proof. eapply Permutation_NoDup; [symmetry; exact Ps|exact Ns]. Qed.
  Lemma lg_blocks_app a b : lg_blocks (a ++ b) = lg_blocks a ++ lg_blocks b.
  Proof. unfold lg_blocks. now rewrite flat_map_app. Qed.
  Lemma round_gates reset : lg_blocks (css_round ord code l reset) =
    (if reset then map (G1 GR) ancs else []) ++ inner ++ map (G1 GM) ancs.
  Proof.
    unfold css_round. rewrite Hcode, eqb_refl. cbn [negb generator].
    rewrite (pn_data _ _ _ _ _ P), (pn_anc _ _ _ _ _ P), (pn_x _ _ _ _ _ P). cbn [bind generator].
    fold (labs KD). fold ancs. fold (labs KX). unfold css_rot, order_at, dget_err. rewrite Hord. cbn [dget eqb]. rewrite eqb_refl. cbn [bind of_opt nth_error].
    unfold cz_block, cz_lists, order_at, dget_err. rewrite Hord. cbn [dkeys map fst mapM dget].
    rewrite (pn_x _ _ _ _ _ P), (pn_z _ _ _ _ _ P). rewrite !eqb_refl. cbn [bind].
    replace (eqb "z_type"%string "x_type"%string) with false by reflexivity. cbn [bind of_opt nth_error]. fold rot. fold (labs KX). fold (labs KZ).
    rewrite !lg_blocks_app. unfold round_start, round_end, lg_blocks, inner, had_block, tick_block, lg_block.
    cbn [flat_map lg_call std_gate is_two map app]. rewrite !app_nil_r, !pair_gates_flat.
    unfold L0, L1, L2, L3. rewrite !cz_gates_app. unfold cz_gates. destruct reset; cbn [flat_map lg_call std_gate is_two map app]; rewrite ?app_nil_r, <- ?app_assoc; reflexivity.
  Qed.

  Lemma rot_nodup : NoDup rot.
  Proof. unfold rot, union. apply dedup_NoDup. Qed.
  Lemma rot_at p : In p ps -> mem (pl_lab p) rot = match knd p with KD => RP (pos p) | _ => true end.
  Proof.
    intros Hi. destruct in_shifts as (I0 & I1 & I2 & I3).
    assert (E : mem (pl_lab p) rot = true <-> knd p <> KD \/ exists q, In q ps /\ knd q = KX /\ (pos p = padd (pos q) s0 \/ pos p = padd (pos q) s3)).
    { rewrite mem_In. unfold rot, union. rewrite dedup_In, in_app_iff, dedup_In, in_app_iff, dedup_In.
      assert (G : forall s, In s shifts -> In (pl_lab p) (get_neighbors l (labs KX) (Some (dirn s))) <->
        exists q, In q ps /\ knd q = KX /\ pos p = padd (pos q) s).
      { intros s Hs. unfold get_neighbors. rewrite in_map_iff. split.
        - intros ([a b] & E & H). cbn in E. subst b. apply (dir_pair _ _ _ _ _ P) in H as (q & p' & Hq & Hp' & <- & L & E & Ha & _); auto.
          apply (lab_eq _ _ _ _ _ P) in L; auto. subst p'. exists q. apply mem_In in Ha. rewrite (mem_labs _ _ _ _ _ P) in Ha by assumption.
          split; [exact Hq|]. split; [unfold isk in Ha; now destruct (knd q)|exact E].
        - intros (q & Hq & K & E). exists (pl_lab q, pl_lab p). split; [reflexivity|]. apply (pair_dir _ _ _ _ _ P); auto.
          apply mem_In. rewrite (mem_labs _ _ _ _ _ P) by assumption. unfold isk. now rewrite K. }
      rewrite !G by assumption.
      assert (A : In (pl_lab p) ancs <-> knd p <> KD).
      { rewrite <- mem_In, (mem_ancs _ _ _ _ _ P) by assumption. apply isanc_spec. }
      rewrite A. split.
      - intros [[H|(q & H)]|(q & H)]; [now left|right; exists q; tauto|right; exists q; tauto].
      - intros [H|(q & Hq & K & [H|H])]; [tauto|left; right; eauto|right; eauto]. }
    destruct (knd p) eqn:K; [|apply E; left; congruence|apply E; left; congruence].
    destruct (RP (pos p)) eqn:R.
    - apply E. right. apply HR3; assumption.
    - apply not_true_iff_false. intros M. apply E in M as [M|(q & Hq & Kq & D)]; [congruence|].
      destruct D as [D|D]; [destruct (HR q p s0 Hq Hi I0 K D) as [X _]|destruct (HR q p s3 Hq Hi I3 K D) as [X _]]; rewrite (X Kq) in R; unfold onR in R;
        rewrite eqb_refl in R; rewrite ?orb_true_r in R; cbn in R; discriminate.
  Qed.
  Lemma rot_out q : ~ In q (map pl_lab ps) -> mem q rot = false.
  Proof.
    intros Hq. apply mem_not. intros H. apply Hq. destruct in_shifts as (I0 & I1 & I2 & I3).
    unfold rot, union in H. rewrite dedup_In, in_app_iff, dedup_In, in_app_iff, dedup_In in H.
    assert (G : forall s, In s shifts -> In q (get_neighbors l (labs KX) (Some (dirn s))) -> In q (map pl_lab ps)).
    { intros s Hs H'. apply in_map_iff in H' as ([a b] & E & H'). cbn in E. subst b.
      apply (dir_pair _ _ _ _ _ P) in H' as (p & p' & _ & Hp' & _ & <- & _); auto. now apply in_map. }
    destruct H as [[H|H]|H]; [|apply (G s0); assumption|apply (G s3); assumption].
    apply in_map_iff in H as (p & <- & H). apply filter_In in H as [H _]. now apply in_map.
  Qed.
  Lemma mem_ord k q L : mem q (ord k L) = mem q L.
  Proof.
    destruct (mem q L) eqn:E.
    - apply mem_In. apply mem_In in E. eapply Permutation_in; [symmetry; apply Hp|exact E].
    - apply mem_not. intros H. eapply Permutation_in in H; [|apply Hp]. apply mem_In in H. congruence.
  Qed.

  (* sums of selected ancillas around a data qubit, and of data qubits around an ancilla *)
  Local Notation sm := (sumk ps).
  Lemma czL_data k kx kz q f u : In kx shifts -> In kz shifts -> k = get KX kx ++ get KZ kz -> In q ps -> knd q = KD ->
    (forall p, In p ps -> knd p <> KD -> f (pl_lab p) = u (pl_lab p)) ->
    czsum k f (pl_lab q) = xorb (sm KX u (psub (pos q) kx)) (sm KZ u (psub (pos q) kz)).
  Proof.
    intros Hx Hz -> Hq K E. rewrite czsum_app. rewrite !(cz_data _ _ _ _ _ P); auto; try (apply (labs_anc _ _ _ _ _ P); discriminate).
    unfold sumk. f_equal; apply fv_ext; intros p Hi _; rewrite (mem_labs _ _ _ _ _ P) by assumption;
      unfold isk; destruct (knd p) eqn:Kp; cbn; auto; apply E; congruence.
  Qed.
  Lemma czL_x k kx kz q f : In kx shifts -> In kz shifts -> k = get KX kx ++ get KZ kz -> In q ps -> knd q = KX ->
    czsum k f (pl_lab q) = fv ps f (padd (pos q) kx).
  Proof.
    intros Hx Hz -> Hq K. rewrite czsum_app. rewrite (cz_anc _ _ _ _ _ P); auto.
    - rewrite (cz_none _ _ _ _ _ P); [apply xorb_false_r|auto|apply (labs_anc _ _ _ _ _ P); discriminate|].
      intros p Hi L. apply (lab_eq _ _ _ _ _ P) in L; auto. subst p. split; [congruence|].
      intros H. apply mem_In in H. rewrite (mem_labs _ _ _ _ _ P) in H by assumption. unfold isk in H. rewrite K in H. discriminate.
    - apply (labs_anc _ _ _ _ _ P); discriminate.
    - apply mem_In. rewrite (mem_labs _ _ _ _ _ P) by assumption. unfold isk. now rewrite K.
  Qed.
  Lemma czL_z k kx kz q f : In kx shifts -> In kz shifts -> k = get KX kx ++ get KZ kz -> In q ps -> knd q = KZ ->
    czsum k f (pl_lab q) = fv ps f (padd (pos q) kz).
  Proof.
    intros Hx Hz -> Hq K. rewrite czsum_app. rewrite (cz_anc _ _ _ _ _ P _ kz); auto.
    - rewrite (cz_none _ _ _ _ _ P); [apply xorb_false_l|auto|apply (labs_anc _ _ _ _ _ P); discriminate|].
      intros p Hi L. apply (lab_eq _ _ _ _ _ P) in L; auto. subst p. split; [congruence|].
      intros H. apply mem_In in H. rewrite (mem_labs _ _ _ _ _ P) in H by assumption. unfold isk in H. rewrite K in H. discriminate.
    - apply (labs_anc _ _ _ _ _ P); discriminate.
    - apply mem_In. rewrite (mem_labs _ _ _ _ _ P) by assumption. unfold isk. now rewrite K.
  Qed.
  Lemma czL_out k kx kz q f : In kx shifts -> In kz shifts -> k = get KX kx ++ get KZ kz -> ~ In q (map pl_lab ps) -> czsum k f q = false.
  Proof.
    intros Hx Hz -> Hq. rewrite czsum_app.
    assert (A : forall p, In p ps -> pl_lab p = q -> False) by (intros p Hi <-; apply Hq; now apply in_map).
    rewrite !(cz_none _ _ _ _ _ P); auto; try (apply (labs_anc _ _ _ _ _ P); discriminate); intros p Hi L; destruct (A p Hi L).
  Qed.
  (* each kind of ancilla touches only one of the two sublattices of data qubits at each step *)
  Lemma sm_R q u s : In q ps -> knd q = KD -> In s shifts ->
    (sm KX u (psub (pos q) s) = true -> RP (pos q) = onR s) /\ (sm KZ u (psub (pos q) s) = true -> RP (pos q) = negb (onR s)).
  Proof.
    intros Hq K Hs. split; intros H; apply (sumk_true _ _ _ _ _ P) in H as (p & Hi & Kp & E & _);
      assert (E' : pos q = padd (pos p) s) by (rewrite E; now rewrite padd_psub);
      destruct (HR p q s Hi Hq Hs K E') as [A B]; auto.
  Qed.
  Lemma onR_val : onR s0 = true /\ onR s1 = false /\ onR s2 = false /\ onR s3 = true.
  Proof.
    unfold onR. inversion Ns as [|? ? N0 N']; subst. inversion N' as [|? ? N1 N'']; subst. inversion N'' as [|? ? N2 _]; subst.
    cbn in N0, N1, N2.
    rewrite !eqb_refl, orb_true_r. split; [reflexivity|].
    rewrite (proj2 (eqb_neq s1 s0)), (proj2 (eqb_neq s1 s3)), (proj2 (eqb_neq s2 s0)), (proj2 (eqb_neq s2 s3)) by (intros E; subst; tauto). auto.
  Qed.
  Lemma sm_zero q u : In q ps -> knd q = KD ->
    (RP (pos q) = true -> sm KX u (psub (pos q) s1) = false /\ sm KX u (psub (pos q) s2) = false /\
                          sm KZ u (psub (pos q) s0) = false /\ sm KZ u (psub (pos q) s3) = false) /\
    (RP (pos q) = false -> sm KX u (psub (pos q) s0) = false /\ sm KX u (psub (pos q) s3) = false /\
                          sm KZ u (psub (pos q) s1) = false /\ sm KZ u (psub (pos q) s2) = false).
  Proof.
    intros Hq K. destruct in_shifts as (I0 & I1 & I2 & I3). destruct onR_val as (O0 & O1 & O2 & O3).
    pose proof (sm_R q u s0 Hq K I0) as A0. pose proof (sm_R q u s1 Hq K I1) as A1.
    pose proof (sm_R q u s2 Hq K I2) as A2. pose proof (sm_R q u s3 Hq K I3) as A3. rewrite O0 in A0. rewrite O1 in A1. rewrite O2 in A2. rewrite O3 in A3.
    split; intros R; rewrite R in *; cbn [negb] in *;
    repeat match goal with |- _ /\ _ => split end;
    match goal with |- ?x = false => destruct x eqn:E; [exfalso|reflexivity] end; intuition congruence.
  Qed.

  Definition resX (X u : string -> bool) (q : string) : bool :=
    if mem q ancs then (if mem q (labs KX) then xorl (map u (support l q)) else xorl (map X (support l q)))
    else xorb (X q) (stabsum l (labs KX) u q).
  Definition resZ (u : string -> bool) (q : string) : bool := xorb (u q) (stabsum l (labs KZ) u q).

  Lemma L_neq k kx kz : In kx shifts -> In kz shifts -> k = get KX kx ++ get KZ kz -> Forall (fun p => fst p <> snd p) k.
  Proof. intros Hx Hz ->. apply Forall_app. split; now apply (pairs_neq _ _ _ _ _ P). Qed.
  Lemma had_ext (f g : string -> bool) p : (forall q, f q = g q) -> peq (had f p) (had g p).
  Proof. intros E q. unfold had. cbn. rewrite E. auto. Qed.
  Lemma bk_rot k sel p : bk (map (G1 GH) (ord k rot)) sel p (had (fun q => mem q rot) p).
  Proof.
    eapply bk_eq; [apply bk_H|apply peq_refl|].
    - eapply Permutation_NoDup; [symmetry; apply Hp|apply rot_nodup].
    - apply had_ext. intros q. apply mem_ord.
  Qed.
  Lemma data_nodup : NoDup (labs KD).
  Proof. apply (kind_nodup _ _ _ _ _ P). Qed.
  Lemma sum4 (f : Z * Z -> bool) : xorl (map f shifts) = xorb (f s0) (xorb (f s1) (xorb (f s2) (f s3))).
  Proof. rewrite (xorl_perm _ _ (Permutation_map f Ps)). cbn. now rewrite xorb_false_r. Qed.

  Section Act.
    Context (X u : string -> bool).
    Hypothesis HX : forall a, In a ancs -> X a = false.
    Definition T2 := had (fun q => mem q rot) (Pauli X u).
    Definition T3 := czl L3 T2.
    Definition T4 := had (fun q => mem q (labs KD)) T3.
    Definition T5 := czl L2 T4.
    Definition T6 := czl L1 T5.
    Definition T7 := had (fun q => mem q (labs KD)) T6.
    Definition T8 := czl L0 T7.
    Definition T9 := had (fun q => mem q rot) T8.
    Lemma inner_T9 sel : bk inner sel (Pauli X u) T9.
    Proof.
      destruct in_shifts as (I0 & I1 & I2 & I3). unfold inner. rewrite !app_assoc.
      eapply bk_app; [apply bk_rot|]. fold T2.
      eapply bk_app; [apply bk_CZ; eapply L_neq; [| |reflexivity]; assumption|]. fold T3.
      eapply bk_app; [apply bk_H, data_nodup|]. fold T4.
      eapply bk_app; [apply bk_CZ; eapply L_neq; [| |reflexivity]; assumption|]. fold T5.
      eapply bk_app; [apply bk_CZ; eapply L_neq; [| |reflexivity]; assumption|]. fold T6.
      eapply bk_app; [apply bk_H, data_nodup|]. fold T7.
      eapply bk_app; [apply bk_CZ; eapply L_neq; [| |reflexivity]; assumption|]. fold T8.
      apply bk_rot.
    Qed.
    (* on ancillas *)
    Lemma anc_x p : In p ps -> knd p <> KD ->
      px T2 (pl_lab p) = u (pl_lab p) /\ px T4 (pl_lab p) = u (pl_lab p) /\ px T7 (pl_lab p) = u (pl_lab p).
    Proof.
      intros Hi K. unfold T7, T6, T5, T4, T3, T2, czl, had. cbn [px pz].
      rewrite (mem_labs _ _ _ _ _ P) by assumption. rewrite (rot_at p Hi). unfold isk. destruct (knd p); auto; congruence.
    Qed.
    (* on data qubits *)
    Definition A (kx kz : Z * Z) (q : placed) : bool := xorb (sm KX u (psub (pos q) kx)) (sm KZ u (psub (pos q) kz)).
    Lemma data_x q : In q ps -> knd q = KD ->
      px T2 (pl_lab q) = (if RP (pos q) then u (pl_lab q) else X (pl_lab q)) /\
      px T4 (pl_lab q) = xorb (if RP (pos q) then X (pl_lab q) else u (pl_lab q)) (A s3 s3 q) /\
      px T7 (pl_lab q) = xorb (xorb (if RP (pos q) then u (pl_lab q) else X (pl_lab q)) (A s2 s1 q)) (A s1 s2 q) /\
      pz T8 (pl_lab q) = xorb (xorb (if RP (pos q) then X (pl_lab q) else u (pl_lab q)) (A s3 s3 q)) (A s0 s0 q).
    Proof.
      intros Hq K. destruct in_shifts as (I0 & I1 & I2 & I3).
      assert (Md : mem (pl_lab q) (labs KD) = true) by (rewrite (mem_labs _ _ _ _ _ P) by assumption; unfold isk; now rewrite K).
      assert (Mr : mem (pl_lab q) rot = RP (pos q)) by (rewrite (rot_at q Hq), K; reflexivity).
      assert (C3 : czsum L3 (px T2) (pl_lab q) = A s3 s3 q) by (apply (czL_data L3 s3 s3 q); auto; intros p Hi Kp; apply anc_x; assumption).
      assert (C2 : czsum L2 (px T4) (pl_lab q) = A s2 s1 q) by (apply (czL_data L2 s2 s1 q); auto; intros p Hi Kp; apply anc_x; assumption).
      assert (C1 : czsum L1 (px T4) (pl_lab q) = A s1 s2 q) by (apply (czL_data L1 s1 s2 q); auto; intros p Hi Kp; apply anc_x; assumption).
      assert (C0 : czsum L0 (px T7) (pl_lab q) = A s0 s0 q) by (apply (czL_data L0 s0 s0 q); auto; intros p Hi Kp; apply anc_x; assumption).
      assert (E2 : px T2 (pl_lab q) = (if RP (pos q) then u (pl_lab q) else X (pl_lab q))) by (unfold T2, had; cbn [px pz]; now rewrite Mr).
      assert (F2 : pz T2 (pl_lab q) = (if RP (pos q) then X (pl_lab q) else u (pl_lab q))) by (unfold T2, had; cbn [px pz]; now rewrite Mr).
      assert (E4 : px T4 (pl_lab q) = xorb (if RP (pos q) then X (pl_lab q) else u (pl_lab q)) (A s3 s3 q)).
      { unfold T4, had. cbn [px pz]. rewrite Md. unfold T3, czl. cbn [px pz]. now rewrite F2, C3. }
      assert (F4 : pz T4 (pl_lab q) = (if RP (pos q) then u (pl_lab q) else X (pl_lab q))).
      { unfold T4, had. cbn [px pz]. rewrite Md. exact E2. }
      assert (F6 : pz T6 (pl_lab q) = xorb (xorb (if RP (pos q) then u (pl_lab q) else X (pl_lab q)) (A s2 s1 q)) (A s1 s2 q)).
      { unfold T6, T5, czl. cbn [px pz]. now rewrite C1, C2, F4. }
      split; [exact E2|]. split; [exact E4|]. split.
      - unfold T7, had. cbn [px pz]. rewrite Md. exact F6.
      - unfold T8, czl. cbn [pz]. rewrite C0. f_equal. unfold T7, had. cbn [pz]. rewrite Md. exact E4.
    Qed.
    Lemma data_z q : In q ps -> knd q = KD -> pz T9 (pl_lab q) = resZ u (pl_lab q) /\ px T9 (pl_lab q) = resX X u (pl_lab q).
    Proof.
      intros Hq K. destruct (data_x q Hq K) as (E2 & E4 & E7 & E8).
      assert (Mr : mem (pl_lab q) rot = RP (pos q)) by (rewrite (rot_at q Hq), K; reflexivity).
      unfold resZ, resX. rewrite (mem_ancs _ _ _ _ _ P) by assumption. unfold isanc. rewrite K.
      rewrite !(stabsum_at _ _ _ _ _ P Nshifts) by assumption. rewrite !sum4.
      unfold T9, had. cbn [px pz]. change (px T8) with (px T7). rewrite Mr, E7, E8. unfold A.
      destruct (sm_zero q u Hq K) as [Z1 Z2].
      destruct (RP (pos q)); [destruct (Z1 eq_refl) as (-> & -> & -> & ->)|destruct (Z2 eq_refl) as (-> & -> & -> & ->)];
        rewrite ?xorb_false_r, ?xorb_false_l, ?xorb_assoc; split; try reflexivity; f_equal; apply xorb_comm.
    Qed.
    (* the operator read at a neighbour of an ancilla *)
    Lemma fv_data k f s g p : In s shifts -> In p ps -> knd p = k -> k <> KD ->
      (forall q, In q ps -> knd q = KD -> pos q = padd (pos p) s -> f (pl_lab q) = g (pl_lab q)) ->
      fv ps f (padd (pos p) s) = fv ps g (padd (pos p) s).
    Proof.
      intros Hs Hi K Kn E. apply fv_ext. intros q Hq Eq. apply E; auto.
      pose proof (pn_par _ _ _ _ _ P p q s Hi Hq Hs Eq) as Par'. destruct (knd q) eqn:Kq; auto; exfalso; apply Kn; rewrite <- K; apply Par'; congruence.
    Qed.
    Lemma fv_xor f g rc : fv ps (fun q => xorb (f q) (g q)) rc = xorb (fv ps f rc) (fv ps g rc).
    Proof. unfold fv. apply xorl_map_xorb. Qed.
    Lemma fv_const (b : bool) rc : fv ps (fun _ => b) rc = b && fv ps (fun _ => true) rc.
    Proof. destruct b; [reflexivity|]. apply xorl_false. intros x H. now apply in_map_iff in H as (? & <- & _). Qed.
    Lemma cancel k p s s' : In p ps -> knd p <> KD -> k <> KD -> knd p <> k -> s = s1 /\ s' = s2 \/ s = s2 /\ s' = s1 ->
      psub (padd (pos p) s) s3 = psub (padd (pos p) s0) s' /\
      fv ps (fun _ => sm k u (psub (padd (pos p) s) s3)) (padd (pos p) s) =
      fv ps (fun _ => sm k u (psub (padd (pos p) s0) s')) (padd (pos p) s0).
    Proof.
      intros Hi K Kk Kn Hs. assert (E : psub (padd (pos p) s) s3 = psub (padd (pos p) s0) s').
      { destruct (pos p) as [a b], s0 as [a0 b0], s1 as [a1 b1], s2 as [a2 b2], s3 as [a3 b3]. unfold padd, psub in *. cbn [fst snd] in *.
        injection Par as Pa Pb. destruct Hs as [[-> ->]|[-> ->]]; cbn [fst snd]; f_equal; lia. }
      split; [exact E|]. rewrite <- E, (fv_const _ (padd (pos p) s)), (fv_const _ (padd (pos p) s0)). destruct (sm k u (psub (padd (pos p) s) s3)) eqn:Ek; [|reflexivity]. cbn [andb].
      apply (sumk_true _ _ _ _ _ P) in Ek as (q & Hq & Kq & Eq & _).
      destruct (HG p q s Hi Hq K) as [G1 G2]; [congruence|congruence|tauto|rewrite Eq; apply padd_psub|]. now rewrite G1, G2.
    Qed.
    Lemma anc_z p : In p ps -> knd p <> KD -> px T9 (pl_lab p) = resX X u (pl_lab p) /\ pz T9 (pl_lab p) = resZ u (pl_lab p).
    Proof.
      intros Hi K. destruct in_shifts as (I0 & I1 & I2 & I3). destruct onR_val as (O0 & O1 & O2 & O3).
      destruct (anc_x p Hi K) as (E2 & E4 & E7).
      assert (Mr : mem (pl_lab p) rot = true) by (rewrite (rot_at p Hi); destruct (knd p); congruence).
      assert (Md : mem (pl_lab p) (labs KD) = false) by (rewrite (mem_labs _ _ _ _ _ P) by assumption; unfold isk; destruct (knd p); congruence).
      assert (Ma : mem (pl_lab p) ancs = true) by (rewrite (mem_ancs _ _ _ _ _ P) by assumption; now apply isanc_spec).
      split; cycle 1.
      { unfold T9, had. cbn [pz]. rewrite Mr. unfold T8, czl. cbn [px]. rewrite E7. unfold resZ.
        rewrite (stabsum_out _ _ _ _ _ P Nshifts); [now rewrite xorb_false_r|discriminate|].
        intros p' Hi' L. apply (lab_eq _ _ _ _ _ P) in L; auto. now subst. }
      assert (V : px T9 (pl_lab p) = xorb (xorb (xorb (czsum L3 (px T2) (pl_lab p)) (czsum L2 (px T4) (pl_lab p))) (czsum L1 (px T4) (pl_lab p)))
                                          (czsum L0 (px T7) (pl_lab p))).
      { unfold T9, had. cbn [px]. rewrite Mr. unfold T8 at 1, czl. cbn [pz]. f_equal. unfold T7, had. cbn [pz]. rewrite Md.
        unfold T6, T5, czl. cbn [pz px]. f_equal. f_equal. unfold T4, had. cbn [pz]. rewrite Md. unfold T3, czl. cbn [pz].
        replace (pz T2 (pl_lab p)) with false; [apply xorb_false_l|]. unfold T2, had. cbn [pz]. rewrite Mr. cbn. symmetry. apply HX. now apply mem_In. }
      rewrite V. unfold resX. rewrite Ma. rewrite (mem_labs _ _ _ _ _ P) by assumption. destruct (knd p) eqn:Kp; [congruence| |].
      - unfold isk. rewrite Kp. rewrite (support_xor _ _ _ _ _ P Nshifts), sum4 by assumption.
        rewrite (czL_x L3 s3 s3 p), (czL_x L2 s2 s1 p), (czL_x L1 s1 s2 p), (czL_x L0 s0 s0 p); auto.
        rewrite (fv_data KX (px T2) s3 u p); auto; cycle 1.
        { intros q Hq Kq Eq. destruct (data_x q Hq Kq) as (D2 & _). rewrite D2. destruct (HR p q s3 Hi Hq I3 Kq Eq) as [R _]. rewrite (R Kp), O3. reflexivity. }
        rewrite (fv_data KX (px T4) s2 (fun q => xorb (u q) (sm KZ u (psub (padd (pos p) s2) s3))) p); auto; cycle 1.
        { intros q Hq Kq Eq. destruct (data_x q Hq Kq) as (_ & D4 & _). rewrite D4. destruct (HR p q s2 Hi Hq I2 Kq Eq) as [R _].
          assert (Rq := R Kp). rewrite O2 in Rq. destruct (proj2 (sm_zero q u Hq Kq) Rq) as (_ & S3 & _). rewrite Rq. unfold A. rewrite S3, xorb_false_l, Eq. reflexivity. }
        rewrite (fv_data KX (px T4) s1 (fun q => xorb (u q) (sm KZ u (psub (padd (pos p) s1) s3))) p); auto; cycle 1.
        { intros q Hq Kq Eq. destruct (data_x q Hq Kq) as (_ & D4 & _). rewrite D4. destruct (HR p q s1 Hi Hq I1 Kq Eq) as [R _].
          assert (Rq := R Kp). rewrite O1 in Rq. destruct (proj2 (sm_zero q u Hq Kq) Rq) as (_ & S3 & _). rewrite Rq. unfold A. rewrite S3, xorb_false_l, Eq. reflexivity. }
        rewrite (fv_data KX (px T7) s0 (fun q => xorb (u q) (xorb (sm KZ u (psub (padd (pos p) s0) s1)) (sm KZ u (psub (padd (pos p) s0) s2)))) p); auto; cycle 1.
        { intros q Hq Kq Eq. destruct (data_x q Hq Kq) as (_ & _ & D7 & _). rewrite D7. destruct (HR p q s0 Hi Hq I0 Kq Eq) as [R _].
          assert (Rq := R Kp). rewrite O0 in Rq. destruct (proj1 (sm_zero q u Hq Kq) Rq) as (Sa & Sb & _). rewrite Rq. unfold A. rewrite Sa, Sb, !xorb_false_l, Eq, xorb_assoc. reflexivity. }
        rewrite !fv_xor.
        destruct (cancel KZ p s2 s1) as [_ C1]; auto; try congruence. rewrite C1.
        destruct (cancel KZ p s1 s2) as [_ C2]; auto; try congruence. rewrite C2.
        repeat match goal with |- context [fv ps ?f ?r] => generalize (fv ps f r); intros ? end.
        repeat match goal with b : bool |- _ => destruct b; try reflexivity end.
      - unfold isk. rewrite Kp. rewrite (support_xor _ _ _ _ _ P Nshifts), sum4 by assumption.
        rewrite (czL_z L3 s3 s3 p), (czL_z L2 s2 s1 p), (czL_z L1 s1 s2 p), (czL_z L0 s0 s0 p); auto.
        rewrite (fv_data KZ (px T2) s3 X p); auto; cycle 1.
        { intros q Hq Kq Eq. destruct (data_x q Hq Kq) as (D2 & _). rewrite D2. destruct (HR p q s3 Hi Hq I3 Kq Eq) as [_ R]. rewrite (R Kp), O3. reflexivity. }
        rewrite (fv_data KZ (px T4) s1 (fun q => xorb (X q) (sm KX u (psub (padd (pos p) s1) s3))) p); auto; cycle 1.
        { intros q Hq Kq Eq. destruct (data_x q Hq Kq) as (_ & D4 & _). rewrite D4. destruct (HR p q s1 Hi Hq I1 Kq Eq) as [_ R].
          assert (Rq := R Kp). rewrite O1 in Rq. destruct (proj1 (sm_zero q u Hq Kq) Rq) as (_ & _ & _ & S3). rewrite Rq. cbn [negb]. unfold A. rewrite S3, xorb_false_r, Eq. reflexivity. }
        rewrite (fv_data KZ (px T4) s2 (fun q => xorb (X q) (sm KX u (psub (padd (pos p) s2) s3))) p); auto; cycle 1.
        { intros q Hq Kq Eq. destruct (data_x q Hq Kq) as (_ & D4 & _). rewrite D4. destruct (HR p q s2 Hi Hq I2 Kq Eq) as [_ R].
          assert (Rq := R Kp). rewrite O2 in Rq. destruct (proj1 (sm_zero q u Hq Kq) Rq) as (_ & _ & _ & S3). rewrite Rq. cbn [negb]. unfold A. rewrite S3, xorb_false_r, Eq. reflexivity. }
        rewrite (fv_data KZ (px T7) s0 (fun q => xorb (X q) (xorb (sm KX u (psub (padd (pos p) s0) s2)) (sm KX u (psub (padd (pos p) s0) s1)))) p); auto; cycle 1.
        { intros q Hq Kq Eq. destruct (data_x q Hq Kq) as (_ & _ & D7 & _). rewrite D7. destruct (HR p q s0 Hi Hq I0 Kq Eq) as [_ R].
          assert (Rq := R Kp). rewrite O0 in Rq. cbn [negb] in Rq. destruct (proj2 (sm_zero q u Hq Kq) Rq) as (_ & _ & Sa & Sb). rewrite Rq. unfold A. rewrite Sa, Sb, !xorb_false_r, Eq, xorb_assoc. reflexivity. }
        rewrite !fv_xor.
        destruct (cancel KX p s2 s1) as [_ C1]; auto; try congruence. rewrite C1.
        destruct (cancel KX p s1 s2) as [_ C2]; auto; try congruence. rewrite C2.
        repeat match goal with |- context [fv ps ?f ?r] => generalize (fv ps f r); intros ? end.
        repeat match goal with b : bool |- _ => destruct b; try reflexivity end.
    Qed.
    Lemma out_z q : ~ In q (map pl_lab ps) -> px T9 q = resX X u q /\ pz T9 q = resZ u q.
    Proof.
      intros Hq. destruct in_shifts as (I0 & I1 & I2 & I3).
      assert (Z : forall p, In p ps -> pl_lab p = q -> False) by (intros p Hi <-; apply Hq; now apply in_map).
      unfold resX, resZ. rewrite !(stabsum_out _ _ _ _ _ P Nshifts); try discriminate; try (intros p Hi L; destruct (Z p Hi L)).
      replace (mem q ancs) with false by (symmetry; apply mem_out; assumption).
      unfold T9, T8, T7, T6, T5, T4, T3, T2, czl, had. cbn [px pz]. rewrite !rot_out by assumption.
      replace (mem q (labs KD)) with false by (symmetry; apply mem_out; assumption).
      rewrite (czL_out L3 s3 s3), (czL_out L2 s2 s1), (czL_out L1 s1 s2), (czL_out L0 s0 s0); auto. rewrite !xorb_false_r. auto.
    Qed.
    Lemma inner_bk sel : bk inner sel (Pauli X u) (Pauli (resX X u) (resZ u)).
    Proof.
      eapply bk_eq; [apply inner_T9|apply peq_refl|]. intros q. cbn [px pz].
      destruct (mem q (map pl_lab ps)) eqn:M.
      - apply mem_In in M. apply in_map_iff in M as (p & <- & Hi). destruct (knd p) eqn:K.
        + destruct (data_z p Hi K). auto.
        + apply anc_z; congruence.
        + apply anc_z; congruence.
      - apply out_z. intros H. apply mem_In in H. congruence.
    Qed.
  End Act.
  Lemma inner_meas : num_meas inner = 0%nat.
  Proof.
    unfold inner, cz_gates. rewrite !num_meas_app, !num_meas_map. cbn [is_meas].
    assert (Z : forall L : list (string * string), num_meas (map (fun p => G2 GCZ (fst p) (snd p)) L) = 0%nat).
    { induction L as [|x L IH]; [reflexivity|exact IH]. }
    now rewrite !Z.
  Qed.
  Lemma css_acts : acts (css l) ancs inner.
  Proof.
    split; [exact inner_meas|]. intros X u sel HX. eapply bk_eq; [apply inner_bk; exact HX|apply peq_refl|].
    intros q. cbn [px pz]. rewrite (css_sumx l shifts dirn pt ps P), (css_sumz l shifts dirn pt ps P).
    split; [|reflexivity]. unfold resX. destruct (mem q ancs) eqn:M; [|reflexivity].
    symmetry. apply (css_anti l shifts dirn pt ps P). now apply mem_In.
  Qed.
  Lemma css_ok reset : ok_blocks (css_round ord code l reset).
  Proof.
    unfold css_round. rewrite Hcode, eqb_refl. cbn [negb generator].
    rewrite (pn_data _ _ _ _ _ P), (pn_anc _ _ _ _ _ P), (pn_x _ _ _ _ _ P). cbn [bind generator].
    unfold ok_blocks. apply Forall_app. split; [destruct reset; repeat constructor|]. apply Forall_app. split; [|repeat constructor].
    assert (C : forall site qs k, match cz_block ord site l qs k with Ok b => Forall no_my b | Err _ => True end).
    { intros site qs k. unfold cz_block. destruct (cz_lists l k); cbn [bind]; [|exact I]. apply Forall_app. split; [|repeat constructor].
      apply Forall_forall. intros x Hx. apply in_map_iff in Hx as (y & <- & _). exact I. }
    assert (D : forall k qs, match (do r <- css_rot l (map pl_lab (filter isanc ps)) (map pl_lab (filter (isk KX) ps)); Ok (had_block ord k qs r)) with Ok b => Forall no_my b | Err _ => True end).
    { intros k qs. destruct (css_rot l _ _); cbn [bind]; [repeat constructor|exact I]. }
    repeat (constructor; [first [apply C | apply D | repeat constructor]|]). constructor.
  Qed.
End Css.
