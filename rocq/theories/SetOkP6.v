(** Proofs about C77, part 6: a matcher that finds every monomorphism, for the cases. *)
From Coq Require Import QArith Qcanon.
From Verif Require Import Base Lib StimM NoiseM DetM DetP LayoutM SpecLayout LayoutP LayoutP2 TrackP SpecLog LogM LogP9 Props_Log.
Open Scope Z_scope.

Lemma is_mono_iff lc lt m : is_mono lc lt m = true <-> monomorphism lc lt m.
Proof.
  split; [apply is_mono_ok|]. intros [K F V O E]. unfold is_mono. rewrite !dedup_nodup, !eqb_refl by assumption. cbn [andb].
  repeat rewrite andb_true_iff. rewrite !forallb_forall. repeat split.
  - intros q I. apply mem_In. now apply F.
  - intros t I. apply mem_In. now apply O.
  - intros t I. apply mem_In. now apply O.
  - intros [c t] I. rewrite forallb_forall. intros [c' t'] I'. cbn [fst snd]. destruct (mem t' _) eqn:N; [|reflexivity]. cbn [negb orb].
    apply mem_In in N. apply mem_In. exact (E _ _ _ _ I I' N).
Qed.
Lemma mono_perm lc lt m m' : Permutation m m' -> monomorphism lc lt m -> monomorphism lc lt m'.
Proof.
  intros Pm [K F V O E]. pose proof (Permutation_map fst Pm) as P1. pose proof (Permutation_map snd Pm) as P2. constructor.
  - exact (Permutation_NoDup P1 K).
  - intros q I. apply F. exact (Permutation_in _ (Permutation_sym P1) I).
  - exact (Permutation_NoDup P2 V).
  - intros t. rewrite <- O. split; apply Permutation_in; [apply Permutation_sym|]; exact P2.
  - intros c t c' t' I I'. apply E; eapply Permutation_in; try (apply Permutation_sym; exact Pm); assumption.
Qed.
(* the lists of [n] elements of [l] *)
Fixpoint lists (n : nat) (l : list string) : list (list string) :=
  match n with O => [[]] | S n => flat_map (fun x => map (cons x) (lists n l)) l end.
Lemma lists_all l ks : incl ks l -> In ks (lists (length ks) l).
Proof.
  induction ks as [|k ks IH]; intros I; cbn [lists length]; [now left|]. apply in_flat_map. exists k. split; [apply I; now left|].
  apply in_map, IH. intros x Hx. apply I. now right.
Qed.
Definition all_monos (lc lt : layout) : list (dict string string) :=
  filter (is_mono lc lt) (map (fun ks => combine ks (dkeys (l_nodes lt))) (lists (length (dkeys (l_nodes lt))) (dkeys (l_nodes lc)))).
Lemma all_monos_ok lc lt : NoDup (dkeys (l_nodes lt)) -> (forall m, In m (all_monos lc lt) -> monomorphism lc lt m) /\
  (forall m, monomorphism lc lt m -> exists m', In m' (all_monos lc lt) /\ Permutation m m').
Proof.
  intros Nt. split.
  - intros m I. apply filter_In in I as [_ I]. now apply is_mono_iff.
  - intros m M. set (inv := fold_left (fun d ct => dset (snd ct) (fst ct) d) m ([] : dict string string)).
    set (b := fun t => odef t (dget t inv)). exists (map (fun t => (b t, t)) (dkeys (l_nodes lt))).
    pose proof (inverse_get m (mo_values _ _ _ M) (mo_keys _ _ _ M)) as G. cbv zeta in G. fold inv in G.
    assert (Bt : forall c t, In (c, t) m -> b t = c).
    { intros c t I. apply (In_dget _ _ _ (mo_keys _ _ _ M)) in I. apply G in I. unfold b. now rewrite I. }
    assert (Pm : Permutation m (map (fun t => (b t, t)) (dkeys (l_nodes lt)))).
    { apply NoDup_Permutation.
      - apply (NoDup_map_inv snd). apply M.
      - apply (NoDup_map_inv snd). rewrite map_map. cbn [snd]. now rewrite map_id.
      - intros [c t]. rewrite in_map_iff. split.
        + intros I. exists t. rewrite (Bt _ _ I). split; [reflexivity|]. apply (mo_onto _ _ _ M). exact (in_map snd _ _ I).
        + intros (x & [= <- <-] & I). apply (mo_onto _ _ _ M) in I. apply in_map_iff in I as ([c t] & E & I). cbn [snd] in E. subst t. now rewrite (Bt _ _ I). }
    split; [|exact Pm]. apply filter_In. split; [|apply is_mono_iff; now apply (mono_perm lc lt m)].
    apply in_map_iff. exists (map b (dkeys (l_nodes lt))). split.
    + clear. induction (dkeys (l_nodes lt)) as [|t r IH]; [reflexivity|]. cbn [map combine]. now rewrite IH.
    + rewrite <- (map_length b). apply lists_all. intros q I. apply in_map_iff in I as (t & <- & I).
      apply (mo_onto _ _ _ M) in I. apply in_map_iff in I as ([c t'] & E & I). cbn [snd] in E. subst t'. rewrite (Bt _ _ I).
      apply (mo_from _ _ _ M). exact (in_map fst _ _ I).
Qed.
