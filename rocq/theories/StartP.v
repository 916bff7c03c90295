(** Proofs for Props_Start.v (C87). *)
From Coq Require Import QArith Qcanon Permutation.
From Verif Require Import Base StimM SetupM MatM NoiseM LayoutM DetM BlockM ExpM MergeM SpecMerge SpecFresh SpecIdeal SpecStart Lib NoiseP ExpP5 MergeP CnotP2 CnotP3.
Open Scope Z_scope.

Lemma call_quiet x m m' c : quietcall x -> run_call x m = (m', Ok c) -> m' = m /\ measured c = [].
Proof.
  destruct x as [o qs|]; intros Q H; cbn in H; [|apply sret_ok in H as [-> <-]; split; reflexivity].
  apply apply_char in H as (Hm & js & B & H).
  assert (M : measuring o = false) by (destruct o; try reflexivity; destruct Q). rewrite M in Hm. split; [exact Hm|].
  rewrite (built_measured _ _ B). destruct (gate_of (kind m) o) as [g|] eqn:G; [|apply H]. destruct H as (is & _ & _ & _ & ->).
  unfold instr_meas. cbn [nm]. destruct o; cbn in G; first [discriminate M|discriminate G|injection G as <-; reflexivity].
Qed.
Lemma block_quiet b : Forall quietcall b -> forall m m' c, run_block b m = (m', Ok c) -> m' = m /\ measured c = [].
Proof.
  induction 1 as [|x b Q _ IH]; intros m m' c H; cbn in H; [apply sret_ok in H as [-> <-]; split; reflexivity|].
  apply sbind_ok in H as (m1 & c1 & H1 & H). apply sbind_ok in H as (m2 & c2 & H2 & H). apply sret_ok in H as [-> <-].
  apply (call_quiet _ _ _ _ Q) in H1 as [-> E1]. apply IH in H2 as [-> E2]. split; [reflexivity|]. unfold measured in *. now rewrite flat_map_app, E1, E2.
Qed.
Lemma blocks_quiet bl : Forall ExpP5.quiet bl -> forall m m' c, run_blocks bl m = (m', Ok c) -> m' = m /\ measured c = [].
Proof.
  induction 1 as [|b bl Q _ IH]; intros m m' c H; cbn in H; [apply sret_ok in H as [-> <-]; split; reflexivity|].
  destruct b as [b|]; [|discriminate].
  change ((sdo x <- run_block b; sdo y <- run_blocks bl; sret (x ++ y)) m = (m', Ok c)) in H.
  apply sbind_ok in H as (m1 & c1 & H1 & H). apply sbind_ok in H as (m2 & c2 & H2 & H). apply sret_ok in H as [-> <-].
  apply (block_quiet _ Q) in H1 as [-> E1]. apply IH in H2 as [-> E2]. split; [reflexivity|]. unfold measured in *. now rewrite flat_map_app, E1, E2.
Qed.
Definition nochk : circuit -> Prop := okc (fun g => g <> DETECTOR /\ g <> OBSERVABLE_INCLUDE) (fun _ => True).
Lemma nochk_checkless c : nochk c -> checkless c.
Proof. intros H. eapply Forall_impl; [|exact H]. cbn. intros i Hi. apply Hi. Qed.
(* the state after the initialization is the same for all bitstrings *)
Definition same_end {A} (x y : ST world A) (Q : A -> Prop) : Prop := forall w w1 w1' c c', x w = (w1, Ok c) -> y w = (w1', Ok c') -> w1' = w1 /\ Q c /\ Q c'.
Definition start_ok (c : circuit) : Prop := measured c = [] /\ nochk c /\ even_targets c.
Lemma init_end it l di di' rot : (forall di, Forall ExpP5.quiet (it l di rot)) -> same_end (init_with it l di rot) (init_with it l di' rot) start_ok.
Proof.
  intros Q w w1 w1' c c' H H'. unfold init_with in *. apply sbind_ok in H as (w2 & anc & H1 & H). apply sbind_ok in H' as (w2' & anc' & H1' & H').
  rewrite H1 in H1'. injection H1' as <- <-. apply sbind_ok in H as (w3 & u & H2 & H). apply sbind_ok in H' as (w3' & u' & H2' & H').
  rewrite H2 in H2'. injection H2' as <- <-.
  assert (P : forall di w4 c, onm (run_blocks (it l di rot)) w3 = (w4, Ok c) -> w4 = w3 /\ start_ok c).
  { intros di0 w4 c0 X. unfold onm in X. destruct (run_blocks (it l di0 rot) (fst w3)) as [m r] eqn:Y. injection X as <- ->.
    destruct (blocks_quiet _ (Q di0) _ _ _ Y) as [-> E]. apply blocks_okc in Y as (Y & Ev & _). split; [symmetry; apply surjective_pairing|].
    split; [exact E|split; [|exact Ev]]. eapply Forall_impl; [|exact Y]. cbn. intros i [Hi _]. split; [exact Hi|]. apply Forall_forall. auto. }
  destruct (P _ _ _ H) as [-> A]. destruct (P _ _ _ H') as [-> B]. auto.
Qed.
Lemma same_bind {A B} (x : ST world A) (k k' : A -> ST world B) w w1 w1' c c' :
  (sdo a <- x; k a) w = (w1, Ok c) -> (sdo a <- x; k' a) w = (w1', Ok c') ->
  exists v a, k a v = (w1, Ok c) /\ k' a v = (w1', Ok c').
Proof.
  intros H H'. apply sbind_ok in H as (v & a & H1 & H). apply sbind_ok in H' as (v' & a' & H1' & H'). rewrite H1 in H1'. injection H1' as <- <-. eauto.
Qed.
Lemma end_bind {A B} (x y : ST world A) Q (k k' : A -> ST world B) w w1 w1' c c' : same_end x y Q ->
  (sdo a <- x; k a) w = (w1, Ok c) -> (sdo a <- y; k' a) w = (w1', Ok c') ->
  exists v a a', Q a /\ Q a' /\ k a v = (w1, Ok c) /\ k' a' v = (w1', Ok c').
Proof.
  intros S0 H H'. apply sbind_ok in H as (v & a & H1 & H). apply sbind_ok in H' as (v' & a' & H1' & H'). destruct (S0 _ _ _ _ _ H1 H1') as (-> & A1 & A2). exists v, a, a'. auto.
Qed.
Ltac both := match goal with H : sbind _ _ ?v = (_, Ok ?c), H' : sbind _ _ ?v = (_, Ok ?c') |- _ =>
  let v1 := fresh "v" in let a := fresh "a" in destruct (same_bind _ _ _ _ _ _ _ _ H H') as (v1 & a & ?H & ?H'); clear H H'; cbn beta in * end.
Definition goal (one : Prop) (w1 w1' : world) (c c' : circuit) : Prop :=
  w1' = w1 /\ exists p x x' r, c = p ++ x ++ r /\ c' = p ++ x' ++ r /\ checkless x /\ checkless x' /\ (one -> measured x = [] /\ measured x' = []).
Lemma rest_same (one : Prop) p x x' (k : ST world circuit) v w1 w1' c c' : checkless x -> checkless x' -> (one -> measured x = [] /\ measured x' = []) ->
  (sdo r <- k; sret (p ++ x ++ r)) v = (w1, Ok c) -> (sdo r <- k; sret (p ++ x' ++ r)) v = (w1', Ok c') -> goal one w1 w1' c c'.
Proof.
  intros X X' M H H'. destruct (same_bind _ _ _ _ _ _ _ _ H H') as (v1 & r & E & E'). apply sret_ok in E as [<- <-]. apply sret_ok in E' as [<- <-].
  split; [reflexivity|]. exists p, x, x', r. auto.
Qed.
Lemma fin (one : Prop) p x x' (r : circuit) (v w1 w1' : world) c c' : checkless x -> checkless x' -> (one -> measured x = [] /\ measured x' = []) ->
  sret (p ++ x ++ r) v = (w1, Ok c) -> sret (p ++ x' ++ r) v = (w1', Ok c') -> goal one w1 w1' c c'.
Proof.
  intros X X' M E E'. apply sret_ok in E as [<- <-]. apply sret_ok in E' as [<- <-]. split; [reflexivity|]. exists p, x, x', r. auto.
Qed.
Ltac inits L := match goal with H : sbind _ _ ?v = (_, Ok ?c), H' : sbind _ _ ?v = (_, Ok ?c') |- _ =>
  let S1 := fresh "S" in let S2 := fresh "S" in
  destruct (end_bind _ _ start_ok _ _ _ _ _ _ _ L H H') as (?v & ?x & ?x & S1 & S2 & ?H & ?H'); clear H H'; cbn beta in * end.
Ltac stk := match goal with A : start_ok ?x |- nochk ?x => apply A | A : start_ok ?x |- measured ?x = [] => apply A end.
Ltac stk2 := match goal with A : start_ok ?x |- okc _ _ ?x => apply A | A : start_ok ?x |- even_targets ?x => apply A end.
Ltac done := eapply fin; [..|eassumption|eassumption]; [apply nochk_checkless; stk|apply nochk_checkless; stk|intros _; split; stk].

Lemma memory_with_start ordt init round meas l R di di' rot reset dets gauge w w1 w1' c c' :
  same_end (init l di rot) (init l di' rot) start_ok ->
  memory_with ordt init round meas l R di rot reset dets gauge w = (w1, Ok c) ->
  memory_with ordt init round meas l R di' rot reset dets gauge w = (w1', Ok c') -> goal True w1 w1' c c'.
Proof.
  intros Q H H'. unfold memory_with in *. destruct (R <? 0); [discriminate|]. both. both. inits Q. both. both. done.
Qed.
Lemma init_css ord l di di' rot : same_end (init_qubits ord l di rot) (init_qubits ord l di' rot) start_ok.
Proof. apply init_end. intros. apply init_measures. Qed.
Lemma init_xzzx ord l di di' rot : same_end (init_qubits_xzzx ord l di rot) (init_qubits_xzzx ord l di' rot) start_ok.
Proof. apply init_end. intros. apply init_xzzx_measures. Qed.
Lemma memory_start ordt k l R di di' rot reset dets gauge w w1 w1' c c' :
  memory ordt k l R di rot reset dets gauge w = (w1, Ok c) -> memory ordt k l R di' rot reset dets gauge w = (w1', Ok c') -> goal True w1 w1' c c'.
Proof. destruct k; apply memory_with_start; first [apply init_css|apply init_xzzx]. Qed.
Lemma google_start ordt l R di di' rot dets gauge w w1 w1' c c' :
  memory_google ordt l R di rot dets gauge w = (w1, Ok c) -> memory_google ordt l R di' rot dets gauge w = (w1', Ok c') -> goal True w1 w1' c c'.
Proof.
  intros H H'. unfold memory_google in *. destruct (R <=? 0); [discriminate|]. both. both. inits (init_xzzx (ordt 1%nat) l di di' rot). destruct (R =? 1).
  - both. both. done.
  - both. both. done.
Qed.
Lemma repeated_start ordt it gate swaps l n R di di' rot reset dets gauge w w1 w1' c c' :
  repeated_with ordt it gate swaps l n R di rot reset dets gauge w = (w1, Ok c) ->
  repeated_with ordt it gate swaps l n R di' rot reset dets gauge w = (w1', Ok c') -> goal True w1 w1' c c'.
Proof.
  intros H H'. unfold repeated_with in *. destruct (R <? 0); [discriminate|]. destruct (_ || _); [discriminate|]. both. both.
  inits (init_css (ordt 1%nat) l di di' rot). both. both. cbv zeta in *. both. both. done.
Qed.
(* merging circuits without measurements *)
Lemma measured_none c i : measured c = [] -> In i c -> instr_meas i = [].
Proof. unfold measured. induction c as [|j r IH]; cbn; [tauto|]. intros E [<-|H]; apply app_eq_nil in E; [tauto|]. now apply IH. Qed.
Lemma merge_unread show check cs c : merge_circuits show check cs = Ok c -> (forall x, In x cs -> measured x = []) -> measured c = [].
Proof.
  intros H U. assert (Z : forall k, measured (at_tick k c) = []).
  { intros k. rewrite (merge_block _ _ _ _ k H), measured_parse. apply flat_map_nil'. intros i Hi.
    assert (Hj : In i (flat_map (at_tick k) cs)) by (eapply Permutation_in; [|exact Hi]; apply MergeP.sort_perm).
    apply in_flat_map in Hj as (x & Hx & Hj). apply at_tick_In in Hj. exact (measured_none _ _ (U _ Hx) Hj). }
  rewrite (measured_one_block c 0); auto.
Qed.
Lemma cnots_start fuse show ordt ordp it lc lt n R di di' ori rot reset dets gauge w w1 w1' c c' :
  repeated_cnot_with fuse show ordt ordp it lc lt n R di ori rot reset dets gauge w = (w1, Ok c) ->
  repeated_cnot_with fuse show ordt ordp it lc lt n R di' ori rot reset dets gauge w = (w1', Ok c') -> goal True w1 w1' c c'.
Proof.
  intros H H'. unfold repeated_cnot_with in *. destruct (R <? 0); [discriminate|]. destruct (n <? 0); [discriminate|]. both.
  destruct (negb _); [discriminate|].
  assert (L : forall l, same_end (slift (init_part l di)) (slift (init_part l di')) (fun _ => True)).
  { intros l0 u0 u1 u1' b b' E E'. unfold slift in *. injection E as <- _. injection E' as <- _. auto. }
  do 2 (match goal with H : sbind (slift (init_part ?l _)) _ ?v = (_, Ok ?c), H' : sbind _ _ ?v = (_, Ok ?c') |- _ =>
    destruct (end_bind _ _ (fun _ => True) _ _ _ _ _ _ _ (L l) H H') as (?v & ?di & ?di & _ & _ & ?H & ?H'); clear H H'; cbn beta in * end).
  both.
  match goal with H : sbind (init_qubits ?o ?l ?x ?r) _ _ = _, H' : sbind (init_qubits _ _ ?y _) _ _ = _ |- _ => tryif constr_eq H H' then fail else inits (init_css o l x y r) end.
  match goal with H : sbind (init_qubits ?o ?l ?x ?r) _ _ = _, H' : sbind (init_qubits _ _ ?y _) _ _ = _ |- _ => tryif constr_eq H H' then fail else inits (init_css o l x y r) end.
  match goal with H : sbind (slift (merge_circuits _ _ ?a)) _ _ = (_, Ok c), H' : sbind (slift (merge_circuits _ _ ?b)) _ _ = (_, Ok c') |- _ =>
    apply sbind_ok in H as (? & c1 & M1 & H); apply sbind_ok in H' as (? & c1' & M1' & H') end.
  unfold slift in M1, M1'. injection M1 as <- M1. injection M1' as <- M1'.
  assert (NT : TICK <> DETECTOR /\ TICK <> OBSERVABLE_INCLUDE) by (split; discriminate).
  assert (K : nochk c1) by (eapply merge_okc; [exact NT|..|exact M1]; stk2).
  assert (K' : nochk c1') by (eapply merge_okc; [exact NT|..|exact M1']; stk2).
  both. cbv zeta in *. both. both. destruct a3 as [[c3 la] lb]. both.
  eapply fin; [..|eassumption|eassumption]; [now apply nochk_checkless|now apply nochk_checkless|intros _].
  split; (eapply merge_unread; [eassumption|]); cbn [In]; intros ? [<-|[<-|[]]]; stk.
Qed.
Lemma C87_lemma f e di w w1 c w1' c' : build f e w = (w1, Ok c) -> build f (starting di e) w = (w1', Ok c') ->
  w1' = w1 /\ exists p x x' r, c = p ++ x ++ r /\ c' = p ++ x' ++ r /\ checkless x /\ checkless x' /\ measured x = [] /\ measured x' = [].
Proof.
  assert (G : goal True w1 w1' c c' -> w1' = w1 /\ exists p x x' r, c = p ++ x ++ r /\ c' = p ++ x' ++ r /\ checkless x /\ checkless x' /\ measured x = [] /\ measured x' = []).
  { intros (E & p & x & x' & r & A1 & A2 & A3 & A4 & A5). split; [exact E|]. exists p, x, x', r. repeat (split; [assumption|]). exact (A5 I). }
  intros H H'. apply G. clear G. destruct e; cbn [build starting] in *.
  - eapply memory_start; eauto.
  - eapply google_start; eauto.
  - destruct k; unfold repeated, repeated_s_rot_css, repeated_s_css_pipelined, repeated_s_unrot_css, repeated_h_unrot_css in *; exact (repeated_start _ _ _ _ _ _ _ _ _ _ _ _ _ _ _ _ _ _ H H').
  - destruct rotated; [unfold repeated_cnot_rot_css in *|unfold repeated_cnot_unrot_css in *]; eapply cnots_start; eauto.
Qed.
Lemma checkless_none x : checkless x -> checks x = [].
Proof.
  induction 1 as [|i r [H1 H2] _ IH]; [reflexivity|]. unfold checks in *. cbn [filter]. destruct (eqb_spec (nm i) DETECTOR); [contradiction|].
  destruct (eqb_spec (nm i) OBSERVABLE_INCLUDE); [contradiction|]. exact IH.
Qed.
Lemma C87_records_lemma f e di w w1 c w1' c' : build f e w = (w1, Ok c) -> build f (starting di e) w = (w1', Ok c') ->
  measured c' = measured c /\ checks c' = checks c.
Proof.
  intros H H'. destruct (C87_lemma _ _ _ _ _ _ _ _ H H') as (_ & p & x & x' & r & -> & -> & A & A' & B & B'). split.
  - now rewrite !measured_app', B, B'.
  - apply checkless_none in A. apply checkless_none in A'. unfold checks in *. now rewrite !filter_app, A, A'.
Qed.
