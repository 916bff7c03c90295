(** Proofs about the completeness of the stabilizer generators (C71). *)
From Coq Require Import QArith Qcanon Permutation.
From Verif Require Import Base Lib StimM LayoutM LayoutP SpecLayout GenM GenP SpecGen SpecSpan GeomP RotP RotP2 UnrotP SpanP.
Open Scope Z_scope.

Lemma odd_xorl {A} (f : A -> bool) l : Nat.odd (length (filter f l)) = xorl (map f l).
Proof. induction l as [|x l IH]; [reflexivity|]. cbn [filter map]. rewrite xorl_cons. destruct (f x); cbn [length]; [rewrite Nat.odd_succ, <- Nat.negb_odd, IH|rewrite IH]; now destruct (xorl (map f l)). Qed.
Section Span.
  Context (l : layout) (shifts : list (Z * Z)) (dirn : Z * Z -> string) (pt : Qc * Qc) (ps : list placed).
  Hypothesis P : planar l shifts dirn pt ps.
  Hypothesis Ns : NoDup shifts.
  Hypothesis Hneg : forall s, In s shifts -> In (- fst s, - snd s) shifts.
  Lemma support_sym p q : In p ps -> In q ps -> In (pl_lab q) (support l (pl_lab p)) -> In (pl_lab p) (support l (pl_lab q)).
  Proof.
    intros Hp Hq H. apply (support_mem _ _ _ _ _ P Ns) in H as (q' & s & Hq' & Hs & L & E); [|exact Hp].
    apply (lab_eq _ _ _ _ _ P) in L; [subst q'|assumption..]. apply (support_mem _ _ _ _ _ P Ns); [exact Hq|].
    exists p, (- fst s, - snd s). split; [exact Hp|]. split; [now apply Hneg|]. split; [reflexivity|]. rewrite E. unfold padd. cbn [fst snd].
    destruct (pos p). cbn [fst snd]. f_equal; lia.
  Qed.
  (* a product of generators at a data qubit, as a sum over its neighbours *)
  Lemma product_xor gens p : NoDup gens -> incl gens (map pl_lab ps) -> In p ps ->
    product l gens (pl_lab p) = xorl (map (fun s => fv ps (on gens) (padd (pos p) s)) shifts).
  Proof.
    intros N I Hp. rewrite <- (support_xor _ _ _ _ _ P Ns (on gens) p Hp), <- odd_xorl. unfold product. f_equal.
    apply Permutation_length, NoDup_Permutation.
    - now apply NoDup_filter.
    - apply NoDup_filter. now apply (support_nodup _ _ _ _ _ P Ns).
    - intros g. rewrite !filter_In. unfold on. rewrite !mem_In. split.
      + intros [Hg H]. split; [|exact Hg]. apply I, in_map_iff in Hg as (q & <- & Hq). now apply support_sym.
      + intros [H Hg]. split; [exact Hg|]. apply I, in_map_iff in Hg as (q & <- & Hq). now apply support_sym.
  Qed.
  Definition chosen (k : kind) (S : Z * Z -> bool) : list string := map pl_lab (filter (fun p => S (pos p)) (filter (isk k) ps)).
  Lemma chosen_nodup k S : NoDup (chosen k S).
  Proof.
    unfold chosen. pose proof (kind_nodup _ _ _ _ _ P k) as N. revert N. induction (filter (isk k) ps) as [|p x IH]; intros N; [constructor|].
    cbn [map] in N. inversion N as [|? ? Hn N']; subst. cbn [filter]. destruct (S (pos p)); [|now apply IH]. cbn [map]. constructor; [|now apply IH].
    intros H. apply Hn. apply in_map_iff in H as (q & E & H). apply filter_In in H as [H _]. rewrite <- E. now apply in_map.
  Qed.
  Lemma chosen_incl k S : incl (chosen k S) (map pl_lab (filter (isk k) ps)).
  Proof. intros q H. apply in_map_iff in H as (p & <- & H). apply filter_In in H as [H _]. now apply in_map. Qed.
  Lemma kind_incl k : incl (map pl_lab (filter (isk k) ps)) (map pl_lab ps).
  Proof. intros q H. apply in_map_iff in H as (p & <- & H). apply filter_In in H as [H _]. now apply in_map. Qed.
  Lemma isk_knd k p : isk k p = true <-> knd p = k.
  Proof. unfold isk. destruct (knd p), k; cbn; split; (congruence || auto). Qed.
  Lemma chosen_fv k S rc : fv ps (on (chosen k S)) rc = true <-> (exists p, In p ps /\ knd p = k /\ pos p = rc) /\ S rc = true.
  Proof.
    split.
    - intros H. apply fv_true in H as (q & Hq & E & H). unfold on in H. apply mem_In, in_map_iff in H as (p & L & H). apply filter_In in H as [H Hs].
      apply filter_In in H as [Hp K]. apply isk_knd in K. apply (lab_eq _ _ _ _ _ P) in L; [subst p|assumption..]. rewrite E in Hs. split; [eauto|exact Hs].
    - intros [(p & Hp & K & <-) Hs]. rewrite (fv_at ps _ p (pn_npos _ _ _ _ _ P) Hp). unfold on. apply mem_In. apply in_map_iff. exists p. split; [reflexivity|].
      apply filter_In. split; [|exact Hs]. apply filter_In. split; [exact Hp|]. now apply isk_knd.
  Qed.
  (* the generators chosen by a set whose sum at no place is seen are none *)
  Lemma none_chosen k gens : incl gens (map pl_lab (filter (isk k) ps)) -> (forall rc, fv ps (on gens) rc = false) -> gens = [].
  Proof.
    intros I H. destruct gens as [|g gens]; [reflexivity|exfalso]. pose proof (I g (or_introl eq_refl)) as Hg.
    apply in_map_iff in Hg as (p & L & Hg). apply filter_In in Hg as [Hp _]. specialize (H (pos p)).
    rewrite (fv_at ps _ p (pn_npos _ _ _ _ _ P) Hp), L in H. unfold on in H. assert (M : mem g (g :: gens) = true) by (apply mem_In; now left). congruence.
  Qed.
  Lemma gens_fv k gens rc : incl gens (map pl_lab (filter (isk k) ps)) -> fv ps (on gens) rc = true -> exists p, In p ps /\ knd p = k /\ pos p = rc.
  Proof.
    intros I H. apply fv_true in H as (q & Hq & E & H). unfold on in H. apply mem_In, I, in_map_iff in H as (p & L & H). apply filter_In in H as [Hp K].
    apply isk_knd in K. apply (lab_eq _ _ _ _ _ P) in L; [subst p|assumption..]. eauto.
  Qed.
End Span.
Lemma rot_neg s : In s rot_shifts -> In (- fst s, - snd s) rot_shifts.
Proof. rewrite !In_rot_shifts. cbn [fst snd]. lia. Qed.
Lemma unrot_neg s : In s unrot_shifts -> In (- fst s, - snd s) unrot_shifts.
Proof. cbn. intuition; subst; cbn; auto. Qed.

Section RotSpan.
  Context (a : gen_args) (l : layout).
  Hypothesis Hx : 1 <= ga_dx a.
  Hypothesis Hz : 1 <= ga_dz a.
  Hypothesis P : planar l rot_shifts rot_dirn (rot_pt a) (rot_ps a).
  Local Notation dx := (ga_dx a).
  Local Notation dz := (ga_dz a).
  Local Notation ps := (rot_ps a).
  Local Notation Ns := rot_shifts_nodup.
  Local Notation idx := (rot_index (ga_dz a) (ga_data a)).
  Lemma rfv_far op r c : ~ (0 <= r <= 2 * dx) \/ ~ (0 <= c <= 2 * dz) -> fv ps op (r, c) = false.
  Proof.
    intros H. apply fv_none. intros q Hq E. apply (ps_kpos a) in Hq. rewrite E in Hq.
    destruct (knd q); cbn [kpos] in Hq; unfold dpos, xpos, zpos in Hq; cbn [fst snd] in Hq; lia.
  Qed.
  Lemma rconstr op k r c : (forall g, In g (map pl_lab (filter (isk k) ps)) -> commutes op (support l g)) -> kpos dx dz k (r, c) ->
    xorb (fv ps op (r + 1, c + 1)) (xorb (fv ps op (r + 1, c - 1)) (xorb (fv ps op (r - 1, c + 1)) (fv ps op (r - 1, c - 1)))) = false.
  Proof.
    intros H K. destruct (kpos_ps a k (r, c) K) as (p & Hp & Kp & E).
    assert (C : commutes op (support l (pl_lab p))) by (apply H; apply kind_In; eauto).
    apply commutes_xor in C. rewrite (sup_xor a l P op p Hp), E in C. rewrite xorb_false_r in C. exact C.
  Qed.
  Lemma rprod gens p : NoDup gens -> incl gens (map pl_lab ps) -> In p ps ->
    product l gens (pl_lab p) = cell_sum (fun r c => fv ps (on gens) (r, c)) (fst (pos p)) (snd (pos p)).
  Proof.
    intros N I Hp. rewrite (product_xor _ _ _ _ _ P Ns rot_neg) by assumption. destruct (pos p) as [r c]. unfold rot_shifts, padd, cell_sum. cbn [map fst snd].
    rewrite !xorl_cons. change (xorl []) with false. now rewrite xorb_false_r.
  Qed.
  Lemma rot_zfv S r c : fv ps (on (chosen ps KZ S)) (r, c) = bface dx dz 2 r c && S (r, c).
  Proof.
    apply eq_true_iff_eq. rewrite (chosen_fv _ _ _ _ _ P), andb_true_iff. unfold bface. rewrite !andb_true_iff, !Z.eqb_eq, !Z.leb_le.
    assert (Q : (exists p, In p ps /\ knd p = KZ /\ pos p = (r, c)) <-> zpos dx dz (r, c)).
    { split; [intros (p & Hp & K & E); apply (ps_kpos a) in Hp; rewrite K, E in Hp; exact Hp|apply (kpos_ps a KZ)]. }
    rewrite Q. unfold zpos. cbn [fst snd]. intuition lia.
  Qed.
  Lemma rot_xfv S r c : fv ps (on (chosen ps KX S)) (r, c) = bface dz dx 0 c r && S (r, c).
  Proof.
    apply eq_true_iff_eq. rewrite (chosen_fv _ _ _ _ _ P), andb_true_iff. unfold bface. rewrite !andb_true_iff, !Z.eqb_eq, !Z.leb_le.
    assert (Q : (exists p, In p ps /\ knd p = KX /\ pos p = (r, c)) <-> xpos dx dz (r, c)).
    { split; [intros (p & Hp & K & E); apply (ps_kpos a) in Hp; rewrite K, E in Hp; exact Hp|apply (kpos_ps a KX)]. }
    rewrite Q. unfold xpos. cbn [fst snd]. intuition lia.
  Qed.
  Lemma rcell_ext T T' i j : (forall r c, T r c = T' r c) -> cell_sum T i j = cell_sum T' i j.
  Proof. intros H. unfold cell_sum. now rewrite !H. Qed.
  Lemma rcell_flip T i j : cell_sum (fun r c => T c r) i j = cell_sum T j i.
  Proof. unfold cell_sum. destruct (T (j + 1) (i + 1)), (T (j - 1) (i + 1)), (T (j + 1) (i - 1)), (T (j - 1) (i - 1)); reflexivity. Qed.
  Lemma rot_complete : complete l (map pl_lab (filter (isk KD) ps)) (map pl_lab (filter (isk KX) ps)) (map pl_lab (filter (isk KZ) ps)) (rot_logx a) (rot_logz a).
  Proof.
    constructor.
    - intros op H. set (h := fun r c => fv ps op (r, c)).
      destruct (rot_grid dx dz 2 h) as (b & G); try (unfold h; intros; apply rfv_far; lia); [now right| |].
      { intros r c E1 E2 H1 H2. apply (rconstr op KX); [exact H|]. unfold kpos, xpos. cbn [fst snd]. lia. }
      set (S := fun rc : Z * Z => face_val dx h (fst rc) (snd rc)).
      exists (chosen ps KZ S), b. split; [now apply (chosen_nodup _ _ _ _ _ P)|]. split; [apply chosen_incl|]. intros q Hq.
      apply kind_In in Hq as (p & Hp & K & <-). pose proof (ps_kpos a p Hp) as D. rewrite K in D. cbn [kpos] in D.
      rewrite rprod; [|now apply (chosen_nodup _ _ _ _ _ P)|intros g Hg; eapply kind_incl, chosen_incl, Hg|exact Hp].
      assert (Hd : dpos dx dz (fst (pos p), snd (pos p))) by now rewrite <- surjective_pairing.
      rewrite (rcell_ext _ (fun r c => bface dx dz 2 r c && face_val dx h r c)) by (intros; now rewrite rot_zfv).
      rewrite (data_label a p Hp K). rewrite <- (fv_data a l P) by exact Hd. change (fv ps op (fst (pos p), snd (pos p))) with (h (fst (pos p)) (snd (pos p))).
      unfold dpos in Hd. cbn [fst snd] in Hd. rewrite G by lia. f_equal. f_equal. apply eq_true_iff_eq. rewrite logz_In, Z.eqb_eq by assumption. reflexivity.
    - intros op H. set (h := fun r c => fv ps op (c, r)).
      destruct (rot_grid dz dx 0 h) as (b & G); try (unfold h; intros; apply rfv_far; lia); [now left| |].
      { intros r c E1 E2 H1 H2. pose proof (rconstr op KZ c r H) as C. unfold kpos, zpos in C. cbn [fst snd] in C. specialize (C ltac:(lia)).
        unfold h. rewrite <- C. destruct (fv ps op (c + 1, r + 1)), (fv ps op (c - 1, r + 1)), (fv ps op (c + 1, r - 1)), (fv ps op (c - 1, r - 1)); reflexivity. }
      set (S := fun rc : Z * Z => face_val dz h (snd rc) (fst rc)).
      exists (chosen ps KX S), b. split; [now apply (chosen_nodup _ _ _ _ _ P)|]. split; [apply chosen_incl|]. intros q Hq.
      apply kind_In in Hq as (p & Hp & K & <-). pose proof (ps_kpos a p Hp) as D. rewrite K in D. cbn [kpos] in D.
      rewrite rprod; [|now apply (chosen_nodup _ _ _ _ _ P)|intros g Hg; eapply kind_incl, chosen_incl, Hg|exact Hp].
      assert (Hd : dpos dx dz (fst (pos p), snd (pos p))) by now rewrite <- surjective_pairing.
      rewrite (rcell_ext _ (fun r c => (fun c r => bface dz dx 0 c r && face_val dz h c r) c r)) by (intros; now rewrite rot_xfv). rewrite rcell_flip.
      rewrite (data_label a p Hp K). rewrite <- (fv_data a l P) by exact Hd. change (fv ps op (fst (pos p), snd (pos p))) with (h (snd (pos p)) (fst (pos p))).
      unfold dpos in Hd. cbn [fst snd] in Hd. rewrite G by lia. f_equal. f_equal. apply eq_true_iff_eq. rewrite logx_In, Z.eqb_eq by assumption. reflexivity.
    - intros gens N I H. apply (none_chosen _ _ _ _ _ P KZ); [exact I|]. intros [r c].
      apply (rot_indep dx dz 2 (fun r c => fv ps (on gens) (r, c))); [now right|lia| |]; clear r c.
      + intros r c E. destruct (gens_fv _ _ _ _ _ P KZ gens _ I E) as (p & Hp & K & Ep). apply (ps_kpos a) in Hp. rewrite K, Ep in Hp. cbn [kpos] in Hp. unfold zpos in Hp. cbn [fst snd] in Hp.
        unfold bface. rewrite !andb_true_iff, !Z.eqb_eq, !Z.leb_le. lia.
      + intros i j Oi Oj Hi Hj. destruct (kpos_ps a KD (i, j)) as (p & Hp & K & Ep); [cbn [kpos]; unfold dpos; cbn [fst snd]; lia|].
        rewrite <- (H (pl_lab p)) by (apply kind_In; eauto). rewrite rprod; [now rewrite Ep|exact N| |exact Hp]. intros g Hg. eapply kind_incl, I, Hg.
    - intros gens N I H. apply (none_chosen _ _ _ _ _ P KX); [exact I|]. intros [r c].
      apply (rot_indep dz dx 0 (fun c r => fv ps (on gens) (r, c))); [now left|lia| |]; clear r c.
      + intros c r E. destruct (gens_fv _ _ _ _ _ P KX gens _ I E) as (p & Hp & K & Ep). apply (ps_kpos a) in Hp. rewrite K, Ep in Hp. cbn [kpos] in Hp. unfold xpos in Hp. cbn [fst snd] in Hp.
        unfold bface. rewrite !andb_true_iff, !Z.eqb_eq, !Z.leb_le. lia.
      + intros j i Oj Oi Hj Hi. destruct (kpos_ps a KD (i, j)) as (p & Hp & K & Ep); [cbn [kpos]; unfold dpos; cbn [fst snd]; lia|].
        rewrite (rcell_flip (fun r c => fv ps (on gens) (r, c))).
        rewrite <- (H (pl_lab p)) by (apply kind_In; eauto). rewrite rprod; [now rewrite Ep|exact N| |exact Hp]. intros g Hg. eapply kind_incl, I, Hg.
  Qed.
End RotSpan.

Section UnrotSpan.
  Context (a : gen_args) (l : layout).
  Hypothesis Hx : 1 <= ga_dx a.
  Hypothesis Hz : 1 <= ga_dz a.
  Hypothesis P : planar l unrot_shifts unrot_dirn (ga_pt a) (unrot_ps a).
  Local Notation dx := (ga_dx a).
  Local Notation dz := (ga_dz a).
  Local Notation ps := (unrot_ps a).
  Local Notation Ns := unrot_shifts_nodup.
  Local Notation idx := (unrot_index (2 * ga_dz a - 1) (ga_data a)).
  Lemma ufar op r c : ~ (0 <= r < 2 * dx - 1) \/ ~ (0 <= c < 2 * dz - 1) -> fv ps op (r, c) = false.
  Proof. intros H. apply (ufv_out a). unfold uin. cbn [fst snd]. lia. Qed.
  Lemma uconstr op k r c : (forall g, In g (map pl_lab (filter (isk k) ps)) -> commutes op (support l g)) -> ukind (r, c) = k -> uin dx dz (r, c) ->
    xorb (fv ps op (r, c + 1)) (xorb (fv ps op (r, c - 1)) (xorb (fv ps op (r + 1, c)) (fv ps op (r - 1, c)))) = false.
  Proof.
    intros H K U. destruct (pos_ups a (r, c) U) as (p & Hp & Kp & E).
    assert (C : commutes op (support l (pl_lab p))) by (apply H; apply kind_In; exists p; rewrite Kp; auto).
    apply commutes_xor in C. rewrite (usup_xor a l P op p Hp), E in C. rewrite xorb_false_r in C. exact C.
  Qed.
  Lemma uprod gens p : NoDup gens -> incl gens (map pl_lab ps) -> In p ps ->
    product l gens (pl_lab p) = ucell_sum (fun r c => fv ps (on gens) (r, c)) (fst (pos p)) (snd (pos p)).
  Proof.
    intros N I Hp. rewrite (product_xor _ _ _ _ _ P Ns unrot_neg) by assumption. destruct (pos p) as [r c]. unfold unrot_shifts, padd, ucell_sum. cbn [map fst snd].
    rewrite !Z.add_0_r, !xorl_cons. change (xorl []) with false. now rewrite xorb_false_r.
  Qed.
  Lemma upos_iff k rc : (exists p, In p ps /\ knd p = k /\ pos p = rc) <-> uin dx dz rc /\ ukind rc = k.
  Proof.
    split.
    - intros (p & Hp & K & E). apply (ups_pos a) in Hp as [U Kp]. rewrite E in *. split; [exact U|congruence].
    - intros [U K]. destruct (pos_ups a rc U) as (p & Hp & Kp & E). exists p. split; [exact Hp|]. split; [congruence|exact E].
  Qed.
  Lemma ukind_Ziff r c : ukind (r, c) = KZ <-> r mod 2 = 1 /\ c mod 2 = 0.
  Proof. pose proof (ukind_spec (r, c)) as S. destruct (ukind (r, c)); cbn [fst snd] in S; split; intros H; try discriminate; (lia || reflexivity). Qed.
  Lemma ukind_Xiff r c : ukind (r, c) = KX <-> r mod 2 = 0 /\ c mod 2 = 1.
  Proof. pose proof (ukind_spec (r, c)) as S. destruct (ukind (r, c)); cbn [fst snd] in S; split; intros H; try discriminate; (lia || reflexivity). Qed.
  Lemma ukind_Diff r c : ukind (r, c) = KD <-> (r + c) mod 2 = 0.
  Proof. pose proof (ukind_spec (r, c)) as S. destruct (ukind (r, c)); cbn [fst snd] in S; split; intros H; try discriminate; (lia || reflexivity). Qed.
  Lemma uface_z r c : uface dx dz r c = true <-> uin dx dz (r, c) /\ ukind (r, c) = KZ.
  Proof. rewrite ukind_Ziff. unfold uface, uin. rewrite !andb_true_iff, !Z.eqb_eq, !Z.leb_le, !Z.ltb_lt. cbn [fst snd]. lia. Qed.
  Lemma uface_x r c : uface dz dx c r = true <-> uin dx dz (r, c) /\ ukind (r, c) = KX.
  Proof. rewrite ukind_Xiff. unfold uface, uin. rewrite !andb_true_iff, !Z.eqb_eq, !Z.leb_le, !Z.ltb_lt. cbn [fst snd]. lia. Qed.
  Lemma unrot_zfv S r c : fv ps (on (chosen ps KZ S)) (r, c) = uface dx dz r c && S (r, c).
  Proof. apply eq_true_iff_eq. rewrite (chosen_fv _ _ _ _ _ P), andb_true_iff, upos_iff, uface_z. reflexivity. Qed.
  Lemma unrot_xfv S r c : fv ps (on (chosen ps KX S)) (r, c) = uface dz dx c r && S (r, c).
  Proof. apply eq_true_iff_eq. rewrite (chosen_fv _ _ _ _ _ P), andb_true_iff, upos_iff, uface_x. reflexivity. Qed.
  Lemma ucell_ext T T' i j : (forall r c, T r c = T' r c) -> ucell_sum T i j = ucell_sum T' i j.
  Proof. intros H. unfold ucell_sum. now rewrite !H. Qed.
  Lemma ucell_flip T i j : ucell_sum (fun r c => T c r) i j = ucell_sum T j i.
  Proof. unfold ucell_sum. destruct (T (j + 1) i), (T (j - 1) i), (T j (i + 1)), (T j (i - 1)); reflexivity. Qed.
  Lemma unrot_complete : complete l (map pl_lab (filter (isk KD) ps)) (map pl_lab (filter (isk KX) ps)) (map pl_lab (filter (isk KZ) ps)) (unrot_logx a) (unrot_logz a).
  Proof.
    constructor.
    - intros op H. set (h := fun r c => fv ps op (r, c)).
      destruct (unrot_grid dx dz h) as (b & G); try (unfold h; intros; apply ufar; lia).
      { intros r c E1 E2 H1 H2. apply (uconstr op KX); [exact H|now apply ukind_Xiff|]. split; cbn [fst snd]; lia. }
      set (S := fun rc : Z * Z => uval dx h (fst rc) (snd rc)).
      exists (chosen ps KZ S), b. split; [now apply (chosen_nodup _ _ _ _ _ P)|]. split; [apply chosen_incl|]. intros q Hq.
      apply kind_In in Hq as (p & Hp & K & <-). destruct (ups_pos a p Hp) as [U Kp]. rewrite K in Kp. symmetry in Kp.
      rewrite uprod; [|now apply (chosen_nodup _ _ _ _ _ P)|intros g Hg; eapply kind_incl, chosen_incl, Hg|exact Hp].
      rewrite (ucell_ext _ (fun r c => uface dx dz r c && uval dx h r c)) by (intros; now rewrite unrot_zfv).
      rewrite (udata_label a p Hp K). rewrite <- (ufv_data a l P) by assumption. rewrite (surjective_pairing (pos p)) at 1.
      change (fv ps op (fst (pos p), snd (pos p))) with (h (fst (pos p)) (snd (pos p))).
      pose proof Kp as Kd. rewrite (surjective_pairing (pos p)) in Kd. apply ukind_Diff in Kd. pose proof U as U'. unfold uin in U'.
      rewrite G by lia. f_equal. f_equal. apply eq_true_iff_eq. rewrite ulogz_In, Z.eqb_eq by assumption. reflexivity.
    - intros op H. set (h := fun r c => fv ps op (c, r)).
      destruct (unrot_grid dz dx h) as (b & G); try (unfold h; intros; apply ufar; lia).
      { intros r c E1 E2 H1 H2. pose proof (uconstr op KZ c r H) as C. rewrite ukind_Ziff in C. unfold uin in C. cbn [fst snd] in C. specialize (C ltac:(lia) ltac:(lia)).
        unfold h. rewrite <- C. destruct (fv ps op (c + 1, r)), (fv ps op (c - 1, r)), (fv ps op (c, r + 1)), (fv ps op (c, r - 1)); reflexivity. }
      set (S := fun rc : Z * Z => uval dz h (snd rc) (fst rc)).
      exists (chosen ps KX S), b. split; [now apply (chosen_nodup _ _ _ _ _ P)|]. split; [apply chosen_incl|]. intros q Hq.
      apply kind_In in Hq as (p & Hp & K & <-). destruct (ups_pos a p Hp) as [U Kp]. rewrite K in Kp. symmetry in Kp.
      rewrite uprod; [|now apply (chosen_nodup _ _ _ _ _ P)|intros g Hg; eapply kind_incl, chosen_incl, Hg|exact Hp].
      rewrite (ucell_ext _ (fun r c => (fun c r => uface dz dx c r && uval dz h c r) c r)) by (intros; now rewrite unrot_xfv). rewrite ucell_flip.
      rewrite (udata_label a p Hp K). rewrite <- (ufv_data a l P) by assumption. rewrite (surjective_pairing (pos p)) at 1.
      change (fv ps op (fst (pos p), snd (pos p))) with (h (snd (pos p)) (fst (pos p))).
      pose proof Kp as Kd. rewrite (surjective_pairing (pos p)) in Kd. apply ukind_Diff in Kd. pose proof U as U'. unfold uin in U'.
      rewrite G by lia. f_equal. f_equal. apply eq_true_iff_eq. rewrite ulogx_In, Z.eqb_eq by assumption. reflexivity.
    - intros gens N I H. apply (none_chosen _ _ _ _ _ P KZ); [exact I|]. intros [r c].
      apply (unrot_indep dx dz (fun r c => fv ps (on gens) (r, c))); clear r c.
      + intros r c E. apply uface_z, upos_iff. now apply (gens_fv _ _ _ _ _ P KZ gens).
      + intros i j Oi Hi Hj. destruct (pos_ups a (i, j)) as (p & Hp & K & Ep); [split; cbn [fst snd]; lia|]. apply ukind_Diff in Oi. rewrite Oi in K.
        rewrite <- (H (pl_lab p)) by (apply kind_In; eauto). rewrite uprod; [now rewrite Ep|exact N| |exact Hp]. intros g Hg. eapply kind_incl, I, Hg.
    - intros gens N I H. apply (none_chosen _ _ _ _ _ P KX); [exact I|]. intros [r c].
      apply (unrot_indep dz dx (fun c r => fv ps (on gens) (r, c))); clear r c.
      + intros c r E. apply uface_x, upos_iff. now apply (gens_fv _ _ _ _ _ P KX gens).
      + intros j i Oi Hj Hi. destruct (pos_ups a (i, j)) as (p & Hp & K & Ep); [split; cbn [fst snd]; lia|]. rewrite Z.add_comm in Oi. apply ukind_Diff in Oi. rewrite Oi in K.
        rewrite (ucell_flip (fun r c => fv ps (on gens) (r, c))).
        rewrite <- (H (pl_lab p)) by (apply kind_In; eauto). rewrite uprod; [now rewrite Ep|exact N| |exact Hp]. intros g Hg. eapply kind_incl, I, Hg.
  Qed.
End UnrotSpan.
Lemma rot_complete_lemma a : 1 <= ga_dx a -> 1 <= ga_dz a -> exists l data xs zs lx lz,
  rot_surface_code_rectangle a = Ok l /\ css_code l (ga_log a) data xs zs lx lz /\ complete l data xs zs lx lz.
Proof.
  intros Hx Hz. destruct (rot_planar a) as (l & r & E & _ & _ & P & Lg & Lz & Lx & _); [lia..|].
  exists l, (map pl_lab (filter (isk KD) (rot_ps a))), (map pl_lab (filter (isk KX) (rot_ps a))), (map pl_lab (filter (isk KZ) (rot_ps a))),
    (rot_logx a), (rot_logz a).
  split; [exact E|]. split; [|now apply rot_complete].
  destruct (rot_code a Hx Hz) as (l' & data & xs & zs & lx & lz & E' & C & _). assert (l' = l) as -> by congruence. pose proof C as C0. destruct C0.
  assert (data = map pl_lab (filter (isk KD) (rot_ps a))) as -> by (pose proof (pn_data _ _ _ _ _ P); congruence).
  assert (xs = map pl_lab (filter (isk KX) (rot_ps a))) as -> by (pose proof (pn_x _ _ _ _ _ P); congruence).
  assert (zs = map pl_lab (filter (isk KZ) (rot_ps a))) as -> by (pose proof (pn_z _ _ _ _ _ P); congruence).
  assert (R : eqb (ga_log a) (ga_log a) = true) by now apply eqb_eq. rewrite Lx in cc_lx. rewrite Lz in cc_lz. cbn [dget] in cc_lx, cc_lz. rewrite R in cc_lx, cc_lz. injection cc_lx as <-. injection cc_lz as <-. exact C.
Qed.
Lemma unrot_complete_lemma a : 1 <= ga_dx a -> 1 <= ga_dz a -> exists l data xs zs lx lz,
  unrot_surface_code_rectangle a = Ok l /\ css_code l (ga_log a) data xs zs lx lz /\ complete l data xs zs lx lz.
Proof.
  intros Hx Hz. destruct (unrot_planar a) as (l & r & E & _ & _ & P & Lg & Lz & Lx & _); [lia..|].
  exists l, (map pl_lab (filter (isk KD) (unrot_ps a))), (map pl_lab (filter (isk KX) (unrot_ps a))), (map pl_lab (filter (isk KZ) (unrot_ps a))),
    (unrot_logx a), (unrot_logz a).
  split; [exact E|]. split; [|now apply unrot_complete].
  destruct (unrot_code a Hx Hz) as (l' & data & xs & zs & lx & lz & E' & C & _). assert (l' = l) as -> by congruence. pose proof C as C0. destruct C0.
  assert (data = map pl_lab (filter (isk KD) (unrot_ps a))) as -> by (pose proof (pn_data _ _ _ _ _ P); congruence).
  assert (xs = map pl_lab (filter (isk KX) (unrot_ps a))) as -> by (pose proof (pn_x _ _ _ _ _ P); congruence).
  assert (zs = map pl_lab (filter (isk KZ) (unrot_ps a))) as -> by (pose proof (pn_z _ _ _ _ _ P); congruence).
  assert (R : eqb (ga_log a) (ga_log a) = true) by now apply eqb_eq. rewrite Lx in cc_lx. rewrite Lz in cc_lz. cbn [dget] in cc_lx, cc_lz. rewrite R in cc_lx, cc_lz. injection cc_lx as <-. injection cc_lz as <-. exact C.
Qed.
