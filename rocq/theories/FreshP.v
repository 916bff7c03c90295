(** Proofs for Props_Fresh.v (C82). *)
From Coq Require Import QArith Qcanon.
From Verif Require Import Base StimM SetupM MatM NoiseM LayoutM DetM BlockM ExpM MergeM SpecDet SpecFresh NoiseP DetP.
Open Scope Z_scope.

Definition alike (w w' : world) : Prop := same_static (fst w) (fst w') /\ same (snd w) (snd w').
Lemma alike_refl w : alike w w. Proof. split; [apply same_static_refl|apply same_refl]. Qed.
Lemma alike_trans a b c : alike a b -> alike b c -> alike a c.
Proof. intros [A B] [C D]. split; [eapply same_static_trans|eapply same_trans]; eauto. Qed.
Lemma alike_sym a b : alike a b -> alike b a.
Proof. unfold alike, same_static, same. intuition congruence. Qed.

(** * A relation kept by every step *)
Section Kept.
  Context {S : Type} (R : S -> S -> Prop) (Rr : forall s, R s s) (Rt : forall a b c, R a b -> R b c -> R a c).
  Definition kept {A} (x : ST S A) : Prop := forall s, R s (fst (x s)).
  Lemma kept_ret {A} (a : A) : kept (sret a). Proof. intros s; apply Rr. Qed.
  Lemma kept_fail {A} e : kept (sfail (A := A) e). Proof. intros s; apply Rr. Qed.
  Lemma kept_lift {A} (x : res A) : kept (slift x). Proof. intros s; apply Rr. Qed.
  Lemma kept_read {A} (f : S -> res A) : kept (sread f). Proof. intros s; apply Rr. Qed.
  Lemma kept_bind {A B} (x : ST S A) (f : A -> ST S B) : kept x -> (forall a, kept (f a)) -> kept (sbind x f).
  Proof.
    intros Hx Hf s. unfold sbind. specialize (Hx s). destruct (x s) as [s1 [a|e]]; simpl in *; [|exact Hx].
    eapply Rt; [exact Hx|apply Hf].
  Qed.
  Lemma kept_fold {A B} (f : B -> A -> ST S B) l : (forall b a, kept (f b a)) -> forall b, kept (sfold f l b).
  Proof.
    intros H. induction l as [|a l IH]; intros b; simpl; [apply kept_ret|]. apply kept_bind; auto.
  Qed.
  Lemma kept_iter {A} (f : A -> ST S unit) l : (forall a, kept (f a)) -> kept (siter f l).
  Proof. intros H. induction l as [|a l IH]; simpl; [apply kept_ret|]. apply kept_bind; auto. Qed.
End Kept.

Notation km := (kept same_static).
Notation kd := (kept same).
Notation kw := (kept alike).
Local Ltac rt := first [exact same_static_refl|exact same_static_trans|exact same_refl|exact same_trans|exact alike_refl|exact alike_trans].
Local Ltac walk1 :=
  match goal with
  | |- kept _ (sbind _ _) => apply kept_bind; [rt| |intro]
  | |- kept _ (sret _) => apply kept_ret; rt
  | |- kept _ (sfail _) => apply kept_fail; rt
  | |- kept _ (slift _) => apply kept_lift; rt
  | |- kept _ (sread _) => apply kept_read; rt
  | |- kept _ (sfold _ _ _) => apply kept_fold; [rt|rt|intros ? ?]
  | |- kept _ (siter _ _) => apply kept_iter; [rt|rt|intros ?]
  | |- kept _ (if ?b then _ else _) => destruct b
  | |- kept _ (match ?b with _ => _ end) => destruct b
  | |- kept _ (let _ := _ in _) => cbv zeta
  end.
Local Ltac walk := repeat (walk1; auto).

(** * The noise model *)
Lemma km_add q : km (add_meas q).
Proof.
  intros m. unfold add_meas. destruct (negb _); [apply same_static_refl|].
  destruct (dget q (order m)); simpl; [repeat split|apply same_static_refl].
Qed.
Lemma km_measure1 e g qs : km (measure1 e g qs).
Proof. unfold measure1. walk. apply km_add. Qed.
Lemma km_measure0 g qs : km (measure0 g qs).
Proof. unfold measure0. walk. apply km_add. Qed.
Lemma km_measured sym n g qs : km (measure_decoh sym n g qs).
Proof. unfold measure_decoh. walk; apply km_add. Qed.
Lemma km_apply o qs : km (apply o qs).
Proof.
  intros m. unfold apply.
  destruct (kind m), o; simpl;
    first [apply km_measure1|apply km_measure0|apply km_measured|apply same_static_refl].
Qed.
Lemma km_new : km (fun m => (new_circuit m, Ok tt)).
Proof. intros m. repeat split. Qed.
Lemma km_call c : km (run_call c).
Proof. destruct c; simpl; [apply km_apply|walk]. Qed.
Lemma km_block b : km (run_block b).
Proof. induction b as [|c b IH]; simpl; walk. apply km_call. Qed.
Lemma km_blocks l : km (run_blocks l).
Proof. induction l as [|b l IH]; simpl; walk. apply km_block. Qed.
Lemma km_zip_next fuse its : km (zip_next fuse its).
Proof. induction its as [|[|b r] rest IH]; simpl; walk. apply km_block. Qed.
Lemma km_zip fuse n : forall its acc, km (zip_loop fuse n its acc).
Proof. induction n as [|n IH]; intros its acc; simpl; walk. apply km_zip_next. Qed.
Lemma km_merged fuse its : km (merged_blocks fuse its).
Proof. unfold merged_blocks. destruct its; [walk|apply km_zip]. Qed.

(** * The detectors *)
Lemma kd_new : kd (fun d => (det_new d, Ok tt)). Proof. intros d. repeat split. Qed.
Lemma kd_activate l : kd (activate l).
Proof.
  intros d. unfold activate. destruct (strict_superset l _); [apply same_refl|].
  revert d. change (kd (siter activate_one l)). walk. intros d. unfold activate_one.
  destruct (dget a (active d)) as [[]|]; simpl; repeat split.
Qed.
Lemma kd_deactivate l : kd (deactivate l).
Proof.
  intros d. unfold deactivate. destruct (strict_superset l _); [apply same_refl|].
  revert d. change (kd (siter deactivate_one l)). walk. intros d. unfold deactivate_one.
  destruct (dget a (active d)) as [[]|]; simpl; repeat split.
Qed.
Lemma kd_update u : kd (update u).
Proof.
  intros d. unfold update. destruct (negb _); [apply same_refl|]. destruct (negb _); [apply same_refl|].
  destruct (singular _ _); [apply same_refl|]. destruct (mapM _ _); [repeat split|apply same_refl].
Qed.
Lemma kd_update_dict nd : kd (update_from_dict nd).
Proof.
  intros d. unfold update_from_dict. destruct (strict_superset _ _); [apply same_refl|].
  destruct (negb _); [apply same_refl|apply kd_update].
Qed.
Lemma kd_anc g r q : kd (build_from_anc g r q).
Proof. unfold build_from_anc. walk; intros d; repeat split. Qed.
Lemma kd_data g s r rc q : kd (build_from_data g s r rc q).
Proof. unfold build_from_data. walk; intros d; repeat split. Qed.
Lemma kd_call o : kd (SpecDet.call o).
Proof.
  destruct o; simpl; unfold SpecDet.quiet;
    repeat first [apply kd_anc|apply kd_data|apply kd_new|apply kd_activate|apply kd_deactivate|apply kd_update|apply kd_update_dict|walk1].
Qed.

(** * The experiments *)
Lemma kw_onm {A} (x : ST model A) : km x -> kw (onm x).
Proof.
  intros H w. unfold onm. specialize (H (fst w)). destruct (x (fst w)); simpl in *. split; simpl; [exact H|apply same_refl].
Qed.
Lemma kw_ond {A} (x : model -> ST detectors A) : (forall m, kd (x m)) -> kw (ond x).
Proof.
  intros H w. unfold ond. specialize (H (fst w) (snd w)). destruct (x (fst w) (snd w)); simpl in *.
  split; simpl; [apply same_static_refl|exact H].
Qed.
Local Ltac leaf :=
  first [apply kd_anc|apply kd_data|apply kd_new|apply kd_activate|apply kd_deactivate|apply kd_update|apply kd_update_dict
        |apply km_blocks|apply km_merged|apply km_new|walk1
        |apply kw_onm|apply kw_ond; intros ?].
Local Ltac wwalk := repeat leaf.
Lemma kw_start ls : kw (exp_start ls).
Proof. unfold exp_start. wwalk. Qed.
Lemma kw_init ord it l di rot : kw (init_with it l di rot) /\ kw (init_qubits ord l di rot) /\ kw (init_qubits_xzzx ord l di rot).
Proof. unfold init_qubits, init_qubits_xzzx, init_with. split; [|split]; wwalk. Qed.
Lemma kw_round it l reset dets : kw (qec_round it l reset dets).
Proof. unfold qec_round. wwalk. Qed.
Lemma kw_ground ord l dets : kw (google_qec_round ord l dets).
Proof. unfold google_qec_round. wwalk. Qed.
Lemma kw_end l rot reset req : kw (log_meas_end l rot reset req).
Proof. unfold log_meas_end. wwalk. Qed.
Lemma kw_meas_with it l rot reset dets : kw (log_meas_with it l rot reset dets).
Proof. unfold log_meas_with. wwalk. apply kw_end. Qed.
Lemma kw_meas l rot reset dets : kw (log_meas l rot reset dets).
Proof. apply kw_meas_with. Qed.
Lemma kw_meas_xzzx ord l rot reset dets : kw (log_meas_xzzx ord l rot reset dets).
Proof. unfold log_meas_xzzx. wwalk. apply kw_meas_with. Qed.
Lemma kw_gmeas ord l rot dets : kw (google_log_meas ord l rot dets).
Proof. unfold google_log_meas. wwalk. apply kw_end. Qed.
Lemma kw_trans p it l : kw (log_trans p it l).
Proof. unfold log_trans. wwalk. Qed.
Lemma kw_cnot ord ordp lc lt : kw (log_trans_cnot ord ordp lc lt).
Proof. unfold log_trans_cnot. wwalk. Qed.
Lemma kw_mrounds fuse it ls reset dets : kw (merge_qec_rounds fuse it ls reset dets).
Proof. unfold merge_qec_rounds. wwalk. Qed.
Lemma kw_mmeas fuse it ls rots reset dets : kw (merge_log_meas fuse it ls rots reset dets).
Proof. unfold merge_log_meas. wwalk. Qed.
Lemma kw_rounds ordt round l rot gauge dets n : (forall r ds, kw (round r ds)) -> kw (exp_rounds ordt round l rot gauge dets n).
Proof. intros H. unfold exp_rounds. wwalk; apply H. Qed.
Lemma kw_memory_with ordt init round meas l R di rot reset dets gauge :
  (forall l di rot, kw (init l di rot)) -> (forall r l b d, kw (round r l b d)) -> (forall l a b d, kw (meas l a b d)) ->
  kw (memory_with ordt init round meas l R di rot reset dets gauge).
Proof. intros H1 H2 H3. unfold memory_with. wwalk; auto using kw_start. apply kw_rounds; auto. Qed.
Lemma kw_memory ordt k l R di rot reset dets gauge : kw (memory ordt k l R di rot reset dets gauge).
Proof.
  destruct k; apply kw_memory_with; intros; try apply kw_round; try apply kw_meas; try apply kw_meas_xzzx; apply kw_init; exact (fun _ _ _ => []).
Qed.
Lemma kw_google ordt l R di rot dets gauge : kw (memory_google ordt l R di rot dets gauge).
Proof.
  unfold memory_google. wwalk; try apply kw_start; try apply kw_gmeas; try (apply kw_init; exact (fun _ _ _ => [])).
  apply kw_rounds. intros; apply kw_ground.
Qed.
Lemma kw_repeated_with ordt it gate swaps l n R di rot reset dets gauge : (forall t l, kw (gate t l)) ->
  kw (repeated_with ordt it gate swaps l n R di rot reset dets gauge).
Proof.
  intros H. unfold repeated_with. wwalk; try apply kw_start; try apply kw_round; try apply kw_meas; try apply H;
    apply kw_init; exact (fun _ _ _ => []).
Qed.
Lemma kw_repeated ordt ordp k l n R di rot reset dets gauge : kw (repeated ordt ordp k l n R di rot reset dets gauge).
Proof. destruct k; apply kw_repeated_with; intros; apply kw_trans. Qed.
Lemma kw_loop ordt ordp round alt n count : (forall j lc lt, kw (round j lc lt)) ->
  forall k lc lt acc, kw (cnot_loop ordt ordp round alt n count k lc lt acc).
Proof.
  intros H. induction count as [|count IH]; intros k lc lt acc; simpl; [wwalk|].
  destruct (alt && Nat.odd k); wwalk; try apply kw_cnot; try apply H; apply IH.
Qed.
Lemma kw_cnots fuse show ordt ordp it lc lt n R di ori rot reset dets gauge :
  kw (repeated_cnot_with fuse show ordt ordp it lc lt n R di ori rot reset dets gauge).
Proof.
  unfold repeated_cnot_with. wwalk; try apply kw_start; try apply kw_mrounds; try apply kw_mmeas;
    try (apply kw_init; exact (fun _ _ _ => [])).
  apply kw_loop. intros. apply kw_mrounds.
Qed.
Lemma kw_build f e : kw (build f e).
Proof.
  destruct e; simpl; [apply kw_memory|apply kw_google|apply kw_repeated|]. destruct rotated; apply kw_cnots.
Qed.
Lemma kw_perform u : kw (perform u).
Proof.
  destruct u; simpl.
  - apply kw_onm, km_apply.
  - apply kw_onm. intros m. repeat split.
  - apply kw_ond. intros m. apply kd_call.
  - apply kw_build.
Qed.
Lemma after_alike w w' : after w w' -> alike w w'.
Proof.
  induction 1 as [|w1 u w2 r _ IH E]; [apply alike_refl|]. eapply alike_trans; [exact IH|].
  assert (H := kw_perform u w1). rewrite E in H. exact H.
Qed.

(** * The result does not depend on the rest of the state *)
Definition agrees {A} (x : ST world A) : Prop := forall w w', alike w w' ->
  snd (x w) = snd (x w') /\ ((exists a, snd (x w) = Ok a) -> fst (x w) = fst (x w')).
Lemma start_same ls w w' : alike w w' -> exp_start ls w = exp_start ls w'.
Proof.
  intros [(A & B & C) (D & E & F)]. destruct w as [m d], w' as [m' d']; simpl in *.
  unfold exp_start, sbind, onm, ond; simpl.
  assert (Hm : new_circuit m = new_circuit m') by (unfold new_circuit; congruence).
  assert (Hd : det_new d = det_new d') by (unfold det_new; congruence).
  rewrite Hm, Hd. reflexivity.
Qed.
Lemma agrees_start {B} ls (f : circuit -> ST world B) : agrees (sbind (exp_start ls) f).
Proof. intros w w' H. unfold sbind. rewrite (start_same ls _ _ H). split; auto. Qed.
Lemma agrees_lift {A B} (x : res A) (f : A -> ST world B) : (forall a, agrees (f a)) -> agrees (sbind (slift x) f).
Proof.
  intros H w w' E. unfold sbind, slift. destruct x; [apply H; exact E|]. simpl. split; auto. intros [? [=]].
Qed.
Lemma agrees_fail {A} e : agrees (sfail (A := A) e).
Proof. intros w w' E. simpl. split; auto. intros [? [=]]. Qed.
Local Ltac ag := repeat first [apply agrees_start|apply agrees_fail|apply agrees_lift; intros ?
  |match goal with |- agrees (if ?b then _ else _) => destruct b end].
Lemma agrees_build f e : agrees (build f e).
Proof.
  destruct e; simpl.
  - destruct k; unfold memory, memory_rot_css, memory_unrot_css, memory_css_pipelined, memory_xzzx, memory_xzzx_pipelined,
      memory_css, memory_xzzx_with, memory_with; ag.
  - unfold memory_google; ag.
  - destruct k; unfold repeated, repeated_s_rot_css, repeated_s_css_pipelined, repeated_s_unrot_css, repeated_h_unrot_css,
      repeated_with; ag.
  - destruct rotated; unfold repeated_cnot_rot_css, repeated_cnot_unrot_css, repeated_cnot_with; ag.
Qed.
Lemma C82_lemma f e w w' : after w w' ->
  snd (build f e w') = snd (build f e w) /\ (forall c, snd (build f e w) = Ok c -> build f e w' = build f e w).
Proof.
  intros H. destruct (agrees_build f e w w' (after_alike _ _ H)) as [A B]. split; [now symmetry|].
  intros c E. rewrite (surjective_pairing (build f e w')), (surjective_pairing (build f e w)), A.
  rewrite B by eauto. reflexivity.
Qed.
