(** Proofs for Props_Ideal.v (C85). *)
From Coq Require Import QArith Qcanon.
From Verif Require Import Base StimM SetupM MatM NoiseM LayoutM DetM BlockM ExpM MergeM SpecNoise SpecFresh Lib NoiseP TrackP FreshP.
Open Scope Z_scope.

(** * What a circuit is without its noise *)
Definition pure (c c0 : circuit) : Prop := noise_of c0 = [] /\ ideal c = ideal c0 /\ measured c = measured c0.
Lemma pure_app a a0 b b0 : pure a a0 -> pure b b0 -> pure (a ++ b) (a0 ++ b0).
Proof.
  unfold pure, noise_of, ideal, measured. rewrite !flat_map_app. intros (A & B & C) (D & E & F). rewrite A, B, C, D, E, F. auto.
Qed.
Definition silent (c : circuit) : Prop := Forall (fun i => is_noise (nm i) = false) c.
Lemma silent_noise c : silent c -> noise_of c = [].
Proof.
  unfold noise_of. induction 1 as [|i c H _ IH]; [reflexivity|]. cbn [flat_map]. rewrite IH, app_nil_r. unfold instr_noise. now rewrite H.
Qed.
Lemma pure_silent c : silent c -> pure c c.
Proof. intros H. split; [now apply silent_noise|auto]. Qed.
Lemma silent_append c i : silent c -> is_noise (nm i) = false -> silent (append c i).
Proof.
  unfold silent. induction c as [|j c IH]; intros H E; [constructor; auto|]. inversion H as [|? ? Hj Hc]; subst.
  destruct c as [|j' c]; cbn [append]; [destruct (_ && _)%bool; repeat constructor; auto|]. constructor; [exact Hj|]. apply IH; assumption.
Qed.
Lemma silent_appends l : forall c, silent c -> silent l -> silent (appends c l).
Proof.
  induction l as [|i l IH]; intros c H L; [exact H|]. inversion L; subst. unfold appends. cbn [fold_left]. apply IH; [|assumption].
  now apply silent_append.
Qed.
Lemma silent_app a b : silent a -> silent b -> silent (a ++ b). Proof. intros A B. apply Forall_app. auto. Qed.
Lemma append_last c i : not_fusable (nm i) = true -> append c i = c ++ [i].
Proof.
  intros H. induction c as [|j c IH]; [reflexivity|]. destruct c as [|j' c]; cbn [append].
  - rewrite H. cbn [negb]. now rewrite andb_false_r.
  - change (j :: append (j' :: c) i = (j :: j' :: c) ++ [i]). now rewrite IH.
Qed.

(** * A program and the same one with the noiseless model *)
Section Sim.
  Context {S : Type} (R : S -> S -> Prop).
  Definition osim {A B} (Q : A -> B -> Prop) (x : ST S A) (y : ST S B) : Prop := forall s s', R s s' ->
    match snd (x s) with
    | Ok a => exists b, snd (y s') = Ok b /\ R (fst (x s)) (fst (y s')) /\ Q a b
    | Err _ => True
    end.
  Lemma osim_ret {A B} (Q : A -> B -> Prop) a b : Q a b -> osim Q (sret a) (sret b).
  Proof. intros H s s' E. exists b. auto. Qed.
  Lemma osim_fail {A B} (Q : A -> B -> Prop) e y : osim Q (sfail e) y.
  Proof. intros s s' E. exact I. Qed.
  Lemma osim_lift {A} (x : res A) : osim (fun a b => a = b) (slift x) (slift x).
  Proof. intros s s' E. unfold slift. simpl. destruct x; [exists a; auto|exact I]. Qed.
  Lemma osim_read {A B} (Q : A -> B -> Prop) (x : S -> res A) (y : S -> res B) :
    (forall s s' a, R s s' -> x s = Ok a -> exists b, y s' = Ok b /\ Q a b) -> osim Q (sread x) (sread y).
  Proof.
    intros H s s' E. unfold sread. cbn [fst snd]. destruct (x s) as [a|] eqn:X; [|exact I]. destruct (H s s' a E X) as (b & Y & Z). eauto.
  Qed.
  Lemma osim_bind {A B C D} (Q : A -> C -> Prop) (Q' : B -> D -> Prop) (x : ST S A) (y : ST S C) k l :
    osim Q x y -> (forall a b, Q a b -> osim Q' (k a) (l b)) -> osim Q' (sbind x k) (sbind y l).
  Proof.
    intros Hx Hk s s' E. specialize (Hx s s' E). unfold sbind. destruct (x s) as [s1 [a|e]]; [|exact I]. cbn [snd fst] in Hx.
    destruct Hx as (b & Y & E1 & HQ). destruct (y s') as [s1' r']. cbn [snd fst] in *. subst r'. exact (Hk a b HQ s1 s1' E1).
  Qed.
  Lemma osim_fold {A B D} (Q : B -> D -> Prop) (x : B -> A -> ST S B) (y : D -> A -> ST S D) l :
    (forall b d a, Q b d -> osim Q (x b a) (y d a)) -> forall b d, Q b d -> osim Q (sfold x l b) (sfold y l d).
  Proof.
    intros H. induction l as [|a l IH]; intros b d E; simpl; [now apply osim_ret|].
    apply (osim_bind Q); [now apply H|]. intros; now apply IH.
  Qed.
End Sim.

(* a noiseless model with the same qubits and records, and any setup *)
Definition Nm (m m' : model) : Prop := kind m' = Noiseless /\ inds m' = inds m /\ order m' = order m /\ num m' = num m.
Definition Nw (w w' : world) : Prop := Nm (fst w) (fst w') /\ snd w' = snd w.
Notation om := (osim Nm).
Notation ow := (osim Nw).

(* the noiseless model does not read its setup *)
Lemma om_add q : om (fun a b => a = b) (add_meas q) (add_meas q).
Proof.
  intros m m' (K & I0 & O & N). unfold add_meas. rewrite I0, O, N. destruct (negb _); [exact I|]. destruct (dget q (order m)); [|exact I].
  exists tt. cbn. repeat split; assumption.
Qed.
Lemma om_measure0 g qs : om (fun a b => a = b) (measure0 g qs) (measure0 g qs).
Proof.
  unfold measure0. apply osim_fold; [|reflexivity]. intros b d q <-. apply (osim_bind _ (fun a b => a = b)); [apply om_add|intros _ _ _].
  apply (osim_bind _ (fun a b => a = b)).
  - apply osim_read. intros m m' i (_ & I0 & _) E. exists i. split; [|reflexivity]. unfold get_inds in *. now rewrite I0.
  - intros i j <-. now apply osim_ret.
Qed.
Lemma om_noiseless o qs m m' : kind m = Noiseless -> Nm m m' ->
  match snd (apply o qs m) with Ok a => snd (apply o qs m') = Ok a /\ Nm (fst (apply o qs m)) (fst (apply o qs m')) | Err _ => True end.
Proof.
  intros K H. pose proof H as (K' & I0 & O & N). unfold apply. rewrite K, K'.
  assert (G : noiseless_op m' false o qs = noiseless_op m false o qs) by (destruct o; simpl; unfold gate0, get_inds; now rewrite ?I0).
  assert (M : forall g, match snd (measure0 g qs m) with Ok a => snd (measure0 g qs m') = Ok a /\ Nm (fst (measure0 g qs m)) (fst (measure0 g qs m')) | Err _ => True end).
  { intros g. assert (X := om_measure0 g qs m m' H). destruct (snd (measure0 g qs m)); [|exact I]. destruct X as (b & E & R & <-). auto. }
  destruct o; first [apply M|cbn [fst snd]; rewrite G; destruct (noiseless_op m false _ qs); [auto|exact I]].
Qed.
Lemma om_apply o qs : no_my (Call o qs) -> (forall d, o <> OIDLED d) -> om pure (apply o qs) (apply o qs).
Proof.
  intros Hm Hd m m' HN. destruct (apply o qs m) as [m1 [c|]] eqn:E; [|exact I]. cbn [fst snd].
  assert (Hs := km_apply o qs m). rewrite E in Hs. cbn [fst] in Hs.
  destruct (C17_lemma m o qs m1 c E) as (m0 & c0 & E0 & N & Id & Me & O & Nu). { intros [_ ->]. exact Hm. }
  replace (without_duration o) with o in E0 by (destruct o; try reflexivity; exfalso; eapply Hd; reflexivity).
  assert (H0 := km_apply o qs (as_noiseless m)). rewrite E0 in H0. cbn [fst] in H0.
  assert (H1 := om_noiseless o qs (as_noiseless m) m' eq_refl HN). rewrite E0 in H1. cbn [fst snd] in H1. destruct H1 as [E1 (K3 & I3 & O3 & N3)].
  exists c0. split; [exact E1|split; [|split; [exact N|split; [exact Id|exact Me]]]].
  destruct Hs as (K1 & S1 & I1), H0 as (K2 & S2 & I2). cbn [as_noiseless kind stp inds] in *. unfold Nm. repeat split; congruence.
Qed.
(* the calls of the blocks *)
Definition plain (c : call) : Prop := match c with Call (OMY | OIDLED _) _ => False | _ => True end.
Definition plains (l : blocks) : Prop := Forall (fun b => match b with Ok b => Forall plain b | Err _ => True end) l.
Lemma om_call c : plain c -> om pure (run_call c) (run_call c).
Proof.
  destruct c as [o qs|]; intros H; simpl; [|apply osim_ret, pure_silent; repeat constructor].
  apply om_apply; destruct o; try exact I; try destruct H; discriminate.
Qed.
Lemma om_block b : Forall plain b -> om pure (run_block b) (run_block b).
Proof.
  induction 1 as [|c b H _ IH]; simpl; [apply osim_ret, pure_silent; constructor|].
  apply (osim_bind _ pure); [now apply om_call|]. intros x x0 X. apply (osim_bind _ pure); [exact IH|]. intros y y0 Y.
  apply osim_ret. now apply pure_app.
Qed.
Lemma om_blocks l : plains l -> om pure (run_blocks l) (run_blocks l).
Proof.
  induction 1 as [|b l H _ IH]; simpl; [apply osim_ret, pure_silent; constructor|].
  destruct b as [b|e]; [|intros s s' E; exact I].
  intros s s' E. change (match snd ((sdo x <- run_block b; sdo y <- run_blocks l; sret (x ++ y)) s) with
    | Ok a => exists b0, snd ((sdo x <- run_block b; sdo y <- run_blocks l; sret (x ++ y)) s') = Ok b0 /\
       Nm (fst ((sdo x <- run_block b; sdo y <- run_blocks l; sret (x ++ y)) s)) (fst ((sdo x <- run_block b; sdo y <- run_blocks l; sret (x ++ y)) s')) /\ pure a b0
    | Err _ => True end).
  revert s s' E. change (om pure (sdo x <- run_block b; sdo y <- run_blocks l; sret (x ++ y)) (sdo x <- run_block b; sdo y <- run_blocks l; sret (x ++ y))).
  apply (osim_bind _ pure); [now apply om_block|]. intros x x0 X. apply (osim_bind _ pure); [exact IH|]. intros y y0 Y.
  apply osim_ret. now apply pure_app.
Qed.

(** * The blocks *)
Lemma plains_app a b : plains a -> plains b -> plains (a ++ b). Proof. intros A B. apply Forall_app. auto. Qed.
Lemma plains_concat ls : Forall plains ls -> plains (concat ls).
Proof. induction 1; simpl; [constructor|now apply plains_app]. Qed.
Lemma plains_cons b l : match b with Ok b => Forall plain b | Err _ => True end -> plains l -> plains (b :: l).
Proof. intros; constructor; auto. Qed.
Lemma plain_tick : match tick_block with Ok b => Forall plain b | Err _ => True end. Proof. repeat constructor. Qed.
Lemma plain_map o ls : plain (Call o []) -> Forall plain (map (Call o) ls).
Proof. intros H. apply Forall_forall. intros c Hc. apply in_map_iff in Hc as (q & <- & _). destruct o; exact H. Qed.
Ltac pl :=
  repeat match goal with
  | |- plains (generator ?x) => unfold generator
  | |- plains (match (bind ?x _) with _ => _ end) => destruct x; cbn [bind]; [|cbv iota; apply plains_cons; [exact I|constructor]]
  | |- plains (match (if ?b then _ else _) with _ => _ end) => destruct b
  | |- plains (match (let _ := _ in _) with _ => _ end) => cbv zeta
  | |- plains (match (let (_, _) := ?x in _) with _ => _ end) => destruct x
  | |- plains (match Ok _ with _ => _ end) => cbv iota
  | |- plains (match Err _ with _ => _ end) => cbv iota; apply plains_cons; [exact I|constructor]
  | |- plains (_ ++ _) => apply plains_app
  | |- plains (if ?b then _ else _) => destruct b
  | |- plains (match ?n with O => _ | S _ => _ end) => destruct n
  | |- plains (tick_block :: _) => apply plains_cons; [exact plain_tick|]
  | |- plains (_ :: _) => apply plains_cons
  | |- plains [] => constructor
  | |- match Ok _ with _ => _ end => cbv iota
  | |- match bind ?x _ with _ => _ end => destruct x; cbn [bind]; [|exact I]
  | |- Forall plain (_ ++ _) => apply Forall_app; split
  | |- Forall plain (map (Call _) _) => apply plain_map; exact I
  | |- Forall plain (match ?x with [] => _ | _ => _ end) => destruct x
  | |- Forall plain (_ :: _) => constructor; [exact I|]
  | |- Forall plain [] => constructor
  | |- True => exact I
  end.
Section Blocks.
  Context (ord : nat -> list string -> list string) (ordp : nat -> list (string * string) -> list (string * string)).
  Lemma pl_cz site l qs k : match cz_block ord site l qs k with Ok b => Forall plain b | Err _ => True end.
  Proof. unfold cz_block. pl. Qed.
  Lemma pl_start data anc reset : plains (round_start data anc reset).
  Proof. unfold round_start. pl. Qed.
  Lemma pl_end data anc : plains (round_end data anc).
  Proof. unfold round_end. pl. Qed.
  Lemma pl_css code l reset : plains (css_round ord code l reset).
  Proof. unfold css_round. pl; first [apply pl_start|apply pl_end|apply pl_cz|unfold had_block; pl]. Qed.
  Lemma pl_xzzx l reset : plains (xzzx_round ord l reset).
  Proof. unfold xzzx_round. pl; first [apply pl_start|apply pl_end|apply pl_cz|unfold had_block, xzzx_g; pl]. Qed.
  Lemma pl_part l qs rot ind t : plains (pipe_part ord l qs rot ind t).
  Proof.
    unfold pipe_part. pl; try (unfold had_block; pl).
    all: apply plains_concat, Forall_forall; intros b Hb; apply in_map_iff in Hb as (nd & <- & _); cbv zeta; pl.
  Qed.
  Lemma pl_pipe rot l reset : plains (pipe_round ord rot l reset).
  Proof.
    unfold pipe_round. pl; try apply pl_start; try apply pl_end.
    all: apply plains_concat, Forall_forall; intros b Hb; apply in_map_iff in Hb as (nd & <- & _); apply pl_part.
  Qed.
  Lemma pl_coherent l : plains (google_coherent ord l).
  Proof. unfold google_coherent. pl; unfold google_cz, google_cz1; cbv zeta; pl. Qed.
  Lemma pl_google l : plains (google_round ord l).
  Proof. unfold google_round. pl. all: apply pl_coherent. Qed.
  Lemma pl_gmeas l rot : plains (google_meas ord l rot).
  Proof. unfold google_meas. pl; first [apply pl_coherent|unfold had_block; pl]. Qed.
  Lemma pl_meas l rot : plains (log_meas_blocks l rot).
  Proof. unfold log_meas_blocks. pl. Qed.
  Lemma pl_init l di rot : plains (init_blocks ord l di rot).
  Proof. unfold init_blocks, init_start. cbv zeta. pl. Qed.
  Lemma pl_init_xzzx l di rot : plains (init_xzzx_blocks ord l di rot).
  Proof. unfold init_xzzx_blocks, init_start. cbv zeta. pl; unfold had_block; pl. Qed.
  Lemma pl_meas_xzzx l rot : plains (log_meas_xzzx_blocks ord l rot).
  Proof. unfold log_meas_xzzx_blocks. pl; unfold had_block; pl. Qed.
  Lemma pl_s l : plains (trans_s_blocks ord ordp l).
  Proof. unfold trans_s_blocks. pl. Qed.
  Lemma pl_h l : plains (trans_h_blocks ord ordp l).
  Proof. unfold trans_h_blocks. pl. Qed.
End Blocks.
