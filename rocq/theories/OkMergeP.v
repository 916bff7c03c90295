(** With uniform parameters, circuit blocks of the same form have the same number of
    instructions, and merging them does not raise. *)
From Coq Require Import QArith Qcanon.
From Verif Require Import Base Lib StimM SetupM NoiseM SpecNoise NoiseP LayoutM DetM BlockM ExpM MergeM SpecOk OkP.
Open Scope Z_scope.

(** * Names and arguments of the instructions *)
Notation sg := (gname * list arg)%type.
Definition sig (i : instr) : sg := (nm i, ar i).
Definition prof (c : circuit) : list sg := map sig c.
Fixpoint papp (p : list sg) (s : sg) : list sg :=
  match p with
  | [] => [s]
  | [j] => if eqb (fst s) (fst j) && eqb (snd s) (snd j) && negb (not_fusable (fst s)) then [j] else [j; s]
  | j :: r => j :: papp r s
  end.
Lemma prof_append c i : prof (append c i) = papp (prof c) (sig i).
Proof.
  induction c as [|j c IH]; [reflexivity|]. destruct c as [|k c].
  - cbn [append prof map papp sig fst snd]. destruct (_ && _); reflexivity.
  - change (append (j :: k :: c) i) with (j :: append (k :: c) i). unfold prof in *. cbn [map] in *. rewrite IH. reflexivity.
Qed.
Lemma papp_twice s : not_fusable (fst s) = false -> forall p, papp (papp p s) s = papp p s.
Proof.
  intros H p. induction p as [|j p IH].
  - cbn. rewrite !eqb_refl, H. reflexivity.
  - destruct p as [|k p].
    + cbn [papp]. destruct (_ && _) eqn:E; cbn [papp]; [now rewrite E|]. now rewrite !eqb_refl, H.
    + change (papp (j :: k :: p) s) with (j :: papp (k :: p) s).
      destruct (papp (k :: p) s) as [|y r] eqn:Ep; [destruct p; cbn in Ep; [destruct (_ && _)|]; discriminate|]. rewrite <- Ep in *.
      rewrite Ep at 1. change (papp (j :: y :: r) s) with (j :: papp (y :: r) s). rewrite <- Ep at 1. now rewrite IH.
Qed.
Definition pappends (p : list sg) (l : list sg) : list sg := fold_left papp l p.
Lemma prof_appends l : forall c, prof (appends c l) = pappends (prof c) (prof l).
Proof. induction l as [|i l IH]; intros c; [reflexivity|]. cbn [appends fold_left prof map]. unfold appends in IH. rewrite IH, prof_append. reflexivity. Qed.
Lemma prof_app a b : prof (a ++ b) = prof a ++ prof b.
Proof. apply map_app. Qed.
Definition shown {A B} (l : list A) (p0 p1 : B) : B := match l with [] => p0 | _ => p1 end.

Lemma mk_sig g t a i : mk g t a = Ok i -> sig i = (g, a).
Proof. unfold mk. destruct (instr_ok _); [|discriminate]. now intros [= <-]. Qed.

(* a loop that appends instructions with the same name and arguments *)
Lemma foldM_prof {A} (f : A -> res instr) s l : not_fusable (fst s) = false -> (forall x i, f x = Ok i -> sig i = s) ->
  forall c r, foldM (fun c x => do i <- f x; Ok (append c i)) l c = Ok r -> prof r = shown l (prof c) (papp (prof c) s).
Proof.
  intros N H. induction l as [|x l IH]; intros c r E; [cbn in E; now injection E as <-|]. cbn [foldM] in E.
  destruct (f x) as [i|] eqn:Ei; [|discriminate]. cbn [bind] in E. apply IH in E. rewrite E, prof_append, (H _ _ Ei). cbn [shown].
  destruct l; [reflexivity|]. cbn [shown]. now apply papp_twice.
Qed.
Lemma sfold_prof {A} (P : model -> Prop) (f : circuit -> A -> ST model circuit) s l : not_fusable (fst s) = false ->
  (forall m c x m' r, P m -> f c x m = (m', Ok r) -> P m' /\ exists i, r = append c i /\ sig i = s) ->
  forall c m m' r, P m -> sfold f l c m = (m', Ok r) -> prof r = shown l (prof c) (papp (prof c) s).
Proof.
  intros N H. induction l as [|x l IH]; intros c m m' r Hp E; [cbn in E; now injection E as _ <-|]. cbn [sfold] in E.
  apply sbind_ok in E as (m1 & y & E1 & E). destruct (H _ _ _ _ _ Hp E1) as (Hp1 & i & -> & Hi). apply IH in E; [|exact Hp1]. rewrite E, prof_append, Hi. cbn [shown].
  destruct l; [reflexivity|]. cbn [shown]. now apply papp_twice.
Qed.
Lemma combine_shown {A B C} (qs : list A) (is : list B) (p0 p1 : C) : length qs = length is -> shown (combine qs is) p0 p1 = shown qs p0 p1.
Proof. destruct qs, is; cbn; congruence. Qed.
Lemma mapM_len {A B} (f : A -> res B) l r : mapM f l = Ok r -> length l = length r.
Proof.
  revert r. induction l as [|x l IH]; intros r E; cbn in E; [now injection E as <-|]. destruct (f x); [|discriminate]. cbn in E. destruct (mapM f l) as [t|]; [|discriminate]. cbn in E.
  injection E as <-. cbn. f_equal. now apply IH.
Qed.
Lemma grouper_shown {A C} (qs : list A) qp (p0 p1 : C) : grouper2 qs = Ok qp -> shown qp p0 p1 = shown qs p0 p1.
Proof. destruct qs as [|a [|b r]]; cbn; intros E; [now injection E as <-|discriminate|]. destruct (grouper2 r); [|discriminate]. cbn in E. now injection E as <-. Qed.

(** * Operations *)
Section Uniform.
  Context (k : mkind) (st : setup).
  (* the parameters do not depend on the qubits *)
  Hypothesis U1 : forall p q q', param st p [q] = param st p [q'].
  Hypothesis U2 : forall p q q' r r', param st p [q; q'] = param st p [r; r'].
  Definition got {A} (x : res A) (d : A) : A := match x with Ok y => y | Err _ => d end.
  Definition num1 (p : string) (qs : list string) : list arg := got (do v <- param st p qs; do x <- as_num v; Ok [ANum x]) [].
  Lemma chan1_sig m g p q i x : stp m = st -> chan1 m g p q i = Ok x -> sig x = (g, num1 p [""%string]).
  Proof.
    unfold chan1, mparam, num1. intros ->. rewrite (U1 p q ""). destruct (param st p _) as [v|]; [|discriminate]. cbn [bind]. destruct (as_num v) as [y|]; [|discriminate]. cbn [bind].
    apply mk_sig.
  Qed.
  Lemma chan2_sig m g p q i x : stp m = st -> chan2 m g p q i = Ok x -> sig x = (g, num1 p [""%string; ""%string]).
  Proof.
    unfold chan2, mparam, num1. intros ->. rewrite (U2 p (fst q) (snd q) "" ""). destruct (param st p _) as [v|]; [|discriminate]. cbn [bind]. destruct (as_num v) as [y|]; [|discriminate]. cbn [bind].
    apply mk_sig.
  Qed.
  Definition model0 : model := model_init k st [].
  Lemma bchan1_sig m p q i x : stp m = st -> bchan1 m p q i = Ok x -> sig x = (PAULI_CHANNEL_1, got (biased_probs model0 p [""%string] 1) []).
  Proof.
    intros E. unfold bchan1. assert (H : biased_probs m p [q] 1 = biased_probs model0 p [""%string] 1).
    { unfold biased_probs, mparam. rewrite E. cbn [model0 model_init stp]. now rewrite (U1 p q ""), (U1 "biased_pauli" q ""), (U1 "biased_factor" q ""). }
    rewrite H. destruct (biased_probs model0 _ _ _); [|discriminate]. apply mk_sig.
  Qed.
  Lemma bchan2_sig m p q i x : stp m = st -> bchan2 m p q i = Ok x -> sig x = (PAULI_CHANNEL_2, got (biased_probs model0 p [""%string; ""%string] 2) []).
  Proof.
    intros E. unfold bchan2. assert (H : biased_probs m p [fst q; snd q] 2 = biased_probs model0 p [""%string; ""%string] 2).
    { unfold biased_probs, mparam. rewrite E. cbn [model0 model_init stp]. now rewrite (U2 p (fst q) (snd q) "" ""), (U2 "biased_pauli" (fst q) (snd q) "" ""), (U2 "biased_factor" (fst q) (snd q) "" ""). }
    rewrite H. destruct (biased_probs model0 _ _ _); [|discriminate]. apply mk_sig.
  Qed.
  Definition flip : list arg :=
    got (do fl <- param st "assign_error_flag" [""%string]; if truthy fl then do v <- param st "assign_error_prob" [""%string]; do x <- as_num v; Ok [ANum x] else Ok []) [].
  Lemma meas_sig m g q i x : stp m = st -> meas_instr m g q i = Ok x -> sig x = (g, flip).
  Proof.
    unfold meas_instr, mparam, flip. intros ->. rewrite (U1 "assign_error_flag" q ""), (U1 "assign_error_prob" q ""). destruct (param st "assign_error_flag" _) as [v|]; [|discriminate]. cbn [bind].
    destruct (truthy v); [|apply mk_sig]. destruct (param st "assign_error_prob" _) as [w|]; [|discriminate]. cbn [bind]. destruct (as_num w) as [y|]; [|discriminate]. cbn [bind]. apply mk_sig.
  Qed.

  Lemma chans_prof f s l c r : not_fusable (fst s) = false -> (forall q i x, f q i = Ok x -> sig x = s) -> chans f l c = Ok r ->
    prof r = shown l (prof c) (papp (prof c) s).
  Proof. intros N H E. unfold chans in E. eapply (foldM_prof (fun qi => f (fst qi) (snd qi))); eauto. Qed.
  Lemma chans2_prof f s l c r : not_fusable (fst s) = false -> (forall q i x, f q i = Ok x -> sig x = s) -> chans2 f l c = Ok r ->
    prof r = shown l (prof c) (papp (prof c) s).
  Proof. intros N H E. unfold chans2 in E. eapply (foldM_prof (fun qi => f (fst qi) (snd qi))); eauto. Qed.

  (* [b]: without measurements *)
  Definition nomeas (s : sg) : Prop := is_meas (fst s) = false.
  Definition fixed (b : bool) (f : list string -> model -> model * res circuit) : Prop :=
    exists p0 p1, (b = true -> Forall nomeas p0 /\ Forall nomeas p1) /\ forall m qs m' c, kind m = k -> stp m = st -> f qs m = (m', Ok c) -> prof c = shown qs p0 p1.
  Lemma papp_nomeas p s : Forall nomeas p -> nomeas s -> Forall nomeas (papp p s).
  Proof.
    intros F H. induction F as [|j p Hj F IH]; [repeat constructor; exact H|]. destruct p as [|x p]; cbn [papp]; [destruct (_ && _); repeat constructor; auto|].
    constructor; [exact Hj|exact IH].
  Qed.
  Lemma fixed_gate0 b g : (b = true -> is_meas g = false) -> fixed b (fun qs m => (m, gate0 m g qs)).
  Proof.
    intros Hb. exists [(g, [])], [(g, [])]. split; [intros H; apply Hb in H; split; repeat constructor; exact H|]. intros m qs m' c _ _ E. injection E as _ E. unfold gate0 in E. destruct (get_inds m qs) as [is|]; [|discriminate]. cbn [bind] in E.
    destruct (mk g _ _) as [i|] eqn:Ei; [|discriminate]. cbn [bind] in E. injection E as <-. apply mk_sig in Ei. cbn. rewrite Ei. now destruct qs.
  Qed.
  Lemma fixed_gate1 b g f s : (b = true -> is_meas g = false /\ is_meas (fst s) = false) -> not_fusable (fst s) = false -> (forall m q i x, stp m = st -> f m q i = Ok x -> sig x = s) -> fixed b (fun qs m => (m, gate1 m g (f m) qs)).
  Proof.
    intros Hb N H. exists [(g, [])], (papp [(g, [])] s). split; [intros X; apply Hb in X as [X Y]; split; [|apply papp_nomeas; [|exact Y]]; repeat constructor; exact X|]. intros m qs m' c _ Es E. injection E as _ E. unfold gate1 in E. destruct (get_inds m qs) as [is|] eqn:Ei; [|discriminate]. cbn [bind] in E.
    destruct (mk g _ _) as [i|] eqn:Em; [|discriminate]. cbn [bind] in E. apply mk_sig in Em.
    apply (chans_prof _ s) in E; [|exact N|intros q j x; now apply H]. rewrite E, combine_shown by exact (mapM_len _ _ _ Ei). cbn [append prof map]. now rewrite Em.
  Qed.
  Lemma fixed_gate2 b g f s : (b = true -> is_meas g = false /\ is_meas (fst s) = false) -> not_fusable (fst s) = false -> (forall m q i x, stp m = st -> f m q i = Ok x -> sig x = s) -> fixed b (fun qs m => (m, gate2 m g (f m) qs)).
  Proof.
    intros Hb N H. exists [(g, [])], (papp [(g, [])] s). split; [intros X; apply Hb in X as [X Y]; split; [|apply papp_nomeas; [|exact Y]]; repeat constructor; exact X|]. intros m qs m' c _ Es E. injection E as _ E. unfold gate2 in E. destruct (Nat.odd _); [discriminate|].
    destruct (get_inds m qs) as [is|] eqn:Ei; [|discriminate]. cbn [bind] in E.
    destruct (mk g _ _) as [i|] eqn:Em; [|discriminate]. cbn [bind] in E. apply mk_sig in Em.
    destruct (grouper2 qs) as [qp|] eqn:Eq; [|discriminate]. cbn [bind] in E. destruct (grouper2 is) as [ip|] eqn:Ep; [|discriminate]. cbn [bind] in E.
    apply (chans2_prof _ s) in E; [|exact N|intros q j x; now apply H]. rewrite E. cbn [append prof map]. rewrite Em.
    rewrite <- (grouper_shown _ _ _ _ Eq). pose proof (mapM_len _ _ _ Ei) as Hl.
    destruct qp, ip; try reflexivity. exfalso. destruct qs as [|? [|? ?]], is as [|? [|? ?]]; cbn in *; try discriminate.
    match goal with H : (do t <- grouper2 ?r; _) = Ok [] |- _ => destruct (grouper2 r); discriminate H end.
  Qed.
  Lemma fixed_idle1 b f s : (b = true -> is_meas (fst s) = false) -> not_fusable (fst s) = false -> (forall m q i x, stp m = st -> f m q i = Ok x -> sig x = s) -> fixed b (fun qs m => (m, idle1 m (f m) qs)).
  Proof.
    intros Hb N H. exists [], [s]. split; [intros X; apply Hb in X; split; repeat constructor; exact X|]. intros m qs m' c _ Es E. injection E as _ E. unfold idle1 in E. destruct (get_inds m qs) as [is|] eqn:Ei; [|discriminate]. cbn [bind] in E.
    apply (chans_prof _ s) in E; [|exact N|intros q j x; now apply H]. now rewrite E, combine_shown by exact (mapM_len _ _ _ Ei).
  Qed.
  Lemma fixed_nil b : fixed b (fun qs m => (m, Ok [])).
  Proof. exists [], []. split; [split; constructor|]. intros m qs m' c _ _ [= _ <-]. now destruct qs. Qed.
  Lemma fixed_incoming b : fixed b (fun qs m => (m, incoming1 m qs)).
  Proof.
    set (a := num1 "idle_error_prob" [""%string]). exists [], (papp [(X_ERROR, a)] (Z_ERROR, a)). split; [split; repeat constructor|]. intros m qs m' c _ Es E. injection E as _ E. unfold incoming1 in E.
    destruct (get_inds m qs) as [is|] eqn:Ei; [|discriminate]. cbn [bind] in E. destruct (chans _ _ []) as [c1|] eqn:E1; [|discriminate]. cbn [bind] in E.
    apply (chans_prof _ (X_ERROR, a)) in E1; [|reflexivity|intros q j x; now apply chan1_sig]. apply (chans_prof _ (Z_ERROR, a)) in E; [|reflexivity|intros q j x; now apply chan1_sig].
    rewrite E, E1, !combine_shown by exact (mapM_len _ _ _ Ei). now destruct qs.
  Qed.
  Lemma add_meas_stp q m m' u : add_meas q m = (m', Ok u) -> stp m' = stp m.
  Proof. unfold add_meas. destruct (negb _); [discriminate|]. destruct (dget _ _); [|discriminate]. now intros [= <- _]. Qed.
  Lemma fixed_measure0 g : not_fusable g = false -> fixed false (measure0 g).
  Proof.
    intros N. exists [], [(g, [])]. split; [discriminate|]. intros m qs m' c _ Es E. unfold measure0 in E. eapply (sfold_prof (fun m => stp m = st) _ (g, [])) in E; [exact E|exact N| |exact Es].
    clear. intros m c q m' r Es E. apply sbind_ok in E as (m1 & u & E1 & E). apply sbind_ok in E as (m2 & i & E2 & E). unfold sread in E2. injection E2 as <- E2. injection E as <- <-.
    split; [rewrite (add_meas_stp _ _ _ _ E1); exact Es|]. exists i. split; [reflexivity|]. destruct (get_inds m1 [q]); [|discriminate]. cbn [bind] in E2. now apply mk_sig in E2.
  Qed.
  Lemma fixed_measure1 e g : not_fusable e = false -> not_fusable g = false -> fixed false (measure1 e g).
  Proof.
    intros N N'. set (a := num1 "meas_error_prob" [""%string]). exists [], (papp [(e, a)] (g, flip)). split; [discriminate|]. intros m qs m' c _ Es E. unfold measure1 in E.
    apply sbind_ok in E as (m1 & is & E1 & E). apply sbind_ok in E as (m2 & c1 & E2 & E). unfold sread in E1, E2. injection E1 as <- E1. injection E2 as <- E2.
    apply (chans_prof _ (e, a)) in E2; [|exact N|intros q j x; now apply chan1_sig].
    eapply (sfold_prof (fun m => stp m = st) _ (g, flip)) in E; [|exact N'| |exact Es].
    - rewrite E, E2, !combine_shown by exact (mapM_len _ _ _ E1). now destruct qs.
    - clear - U1. intros m c [q j] m' r Es E. apply sbind_ok in E as (m1 & u & E1 & E). apply sbind_ok in E as (m2 & i & E2 & E). unfold sread in E2. injection E2 as <- E2. injection E as <- <-.
      apply add_meas_stp in E1. cbn [fst snd] in *. split; [congruence|]. exists i. split; [reflexivity|]. eapply meas_sig; [|exact E2]. congruence.
  Qed.

  Definition silent (o : op) : bool := match o with OM | OMX | OMY | OMZ => false | _ => true end.
  Lemma apply_prof o : block_op o -> match k with Exper | Decoh _ => False | _ => True end -> fixed (silent o) (fun qs m => apply o qs m).
  Proof.
    intros B K.
    assert (X : forall b (f : list string -> model -> model * res circuit), fixed b f -> (forall qs m, kind m = k -> apply o qs m = f qs m) -> fixed b (fun qs m => apply o qs m)).
    { intros b f (p0 & p1 & Hb & H) E. exists p0, p1. split; [exact Hb|]. intros m qs m' c Ek Es Ea. rewrite E in Ea by exact Ek. eauto. }
    destruct k eqn:Ek; try contradiction; destruct o; try contradiction;
      (eapply X; [|intros qs m Em; unfold apply; rewrite Em; reflexivity]); cbn [circ_op biased_op noiseless_op silent];
      first [apply fixed_nil|apply fixed_incoming|apply fixed_measure0; reflexivity|apply fixed_measure1; reflexivity|apply fixed_gate0; intros _; reflexivity
        |eapply fixed_gate1; [| |intros m q i x; apply chan1_sig]; [intros _; split; reflexivity|reflexivity]|eapply fixed_gate2; [| |intros m q i x; apply chan2_sig]; [intros _; split; reflexivity|reflexivity]
        |eapply fixed_idle1; [| |intros m q i x; apply chan1_sig]; [intros _; reflexivity|reflexivity]
        |idtac].
    all: first [eapply fixed_gate1; [| |intros m q i x; apply bchan1_sig]; [intros _; split; reflexivity|reflexivity]|eapply fixed_gate2; [| |intros m q i x; apply bchan2_sig]; [intros _; split; reflexivity|reflexivity]
        |eapply fixed_idle1; [| |intros m q i x; apply bchan1_sig]; [intros _; reflexivity|reflexivity]].
  Qed.
End Uniform.

(** * Blocks *)
(* calls of the same operation, both on no qubit or both on some qubit *)
Definition like_call (c c' : call) : Prop :=
  match c, c' with
  | Call o qs, Call o' qs' => o = o' /\ (qs = [] <-> qs' = [])
  | CTick, CTick => True
  | _, _ => False
  end.
Definition alike (x y : res block) : Prop := exists b b', x = Ok b /\ y = Ok b' /\ Forall2 like_call b b'.
Fixpoint weave (A B : blocks) : blocks :=
  match A, B with a :: A, b :: B => a :: b :: weave A B | _, _ => [] end.
Definition of_block (c : call) : Prop := match c with Call o _ => block_op o | CTick => True end.

Section Blocks.
  Context (k : mkind) (st : setup).
  Hypothesis U1 : forall p q q', param st p [q] = param st p [q'].
  Hypothesis U2 : forall p q q' r r', param st p [q; q'] = param st p [r; r'].
  Hypothesis Hk : match k with Exper | Decoh _ => False | _ => True end.
  Lemma run_call_static c m m' x : run_call c m = (m', Ok x) -> same_static m m'.
  Proof. destruct c; cbn [run_call]; [apply apply_static|]. intros [= <- _]. apply same_static_refl. Qed.
  Lemma run_block_prof b b' : Forall2 like_call b b' -> Forall of_block b -> forall m n m' n' c c', kind m = k -> stp m = st -> kind n = k -> stp n = st ->
    run_block b m = (m', Ok c) -> run_block b' n = (n', Ok c') -> prof c = prof c'.
  Proof.
    induction 1 as [|x y b b' L F IH]; intros Fo m n m' n' c c' Km Sm Kn Sn E E'.
    - cbn in E, E'. now injection E as _ <-; injection E' as _ <-.
    - inversion Fo as [|? ? Fx Fb]; subst. cbn [run_block] in E, E'. apply sbind_ok in E as (m1 & c1 & E1 & E). apply sbind_ok in E' as (n1 & d1 & E1' & E').
      apply sbind_ok in E as (m2 & c2 & E2 & E). apply sbind_ok in E' as (n2 & d2 & E2' & E'). injection E as _ <-. injection E' as _ <-.
      rewrite !prof_app. f_equal.
      + destruct x as [o qs|], y as [o' qs'|]; try contradiction.
        * destruct L as [<- L]. destruct (apply_prof (kind m) (stp m) U1 U2 o Fx Hk) as (p0 & p1 & _ & P). cbn [run_call] in E1, E1'.
          rewrite (P _ _ _ _ eq_refl eq_refl E1), (P _ _ _ _ Kn Sn E1'). destruct qs, qs'; try reflexivity; exfalso; [now discriminate (proj1 L eq_refl)|now discriminate (proj2 L eq_refl)].
        * cbn in E1, E1'. now injection E1 as _ <-; injection E1' as _ <-.
      + apply run_call_static in E1, E1'. destruct E1 as (A1 & A2 & _), E1' as (B1 & B2 & _). eapply (IH Fb m1 n1); eauto; congruence.
  Qed.
  Lemma cat_length fuse c c' : prof c = prof c' -> length (cat fuse [] c) = length (cat fuse [] c').
  Proof.
    intros E. unfold cat. destruct fuse.
    - rewrite <- (map_length sig (appends [] c)), <- (map_length sig (appends [] c')). change (length (prof (appends [] c)) = length (prof (appends [] c'))). now rewrite !prof_appends, E.
    - cbn [app]. rewrite <- (map_length sig c), <- (map_length sig c'). change (length (prof c) = length (prof c')). now rewrite E.
  Qed.
  Lemma run_block_static b : forall m m' c, run_block b m = (m', Ok c) -> same_static m m'.
  Proof.
    induction b as [|x b IH]; intros m m' c E; cbn [run_block] in E; [injection E as <- _; apply same_static_refl|].
    apply sbind_ok in E as (m1 & c1 & E1 & E). apply sbind_ok in E as (m2 & c2 & E2 & E). injection E as <- _. eapply same_static_trans; [eapply run_call_static; eauto|eapply IH; eauto].
  Qed.
  Lemma zip_total fuse A B : Forall2 alike A B -> Forall (fun b => forall l, b = Ok l -> Forall of_block l) A -> forall n acc m m' x, (length A < n)%nat ->
    kind m = k -> stp m = st -> run_blocks (weave A B) m = (m', Ok x) -> exists c, zip_loop fuse n [A; B] acc m = (m', Ok c).
  Proof.
    induction 1 as [|a b A B (la & lb & -> & -> & L) F IH]; intros Fo n acc m m' x Hn Km Sm E.
    - cbn in E. injection E as <- _. destruct n; [lia|]. exists acc. reflexivity.
    - pose proof (Forall_inv Fo) as Fa. pose proof (Forall_inv_tail Fo) as Fb. cbv beta in Fa. destruct n as [|n]; [cbn in Hn; lia|]. cbn [length] in Hn. cbn [weave run_blocks] in E.
      apply sbind_ok in E as (m0 & ? & E0 & E). injection E0 as <- <-. apply sbind_ok in E as (m1 & c1 & E1 & E). apply sbind_ok in E as (m3 & y & E & E'). injection E' as <- _.
      apply sbind_ok in E as (m0 & ? & E0 & E). injection E0 as <- <-. apply sbind_ok in E as (m2 & c2 & E2 & E). apply sbind_ok in E as (m4 & z & E & E'). injection E' as <- _.
      assert (S1 := run_block_static _ _ _ _ E1). assert (S2 := run_block_static _ _ _ _ E2). destruct S1 as (K1 & P1 & _), S2 as (K2 & P2 & _).
      assert (Hp : prof c1 = prof c2) by (refine (run_block_prof la lb L _ m m1 m1 m2 c1 c2 _ _ _ _ E1 E2); [now apply Fa|congruence..]).
      set (M := merge_tick_blocks fuse [cat fuse [] c1; cat fuse [] c2]).
      assert (HM : exists r, M = Ok r).
      { unfold M, merge_tick_blocks. cbn [map]. rewrite (cat_length fuse c1 c2 Hp). unfold dedup at 1. cbn. rewrite !eqb_refl. cbn. eauto. }
      destruct HM as [r Er]. destruct (IH Fb n (add_step fuse acc r) m2 m4 z) as [c Ec]; [lia|congruence|congruence|exact E|]. exists c.
      cbn [zip_loop]. unfold sbind at 1. cbn [zip_next]. unfold slift at 1, sbind at 1. unfold sbind at 1. rewrite E1. unfold sbind at 1. unfold slift at 1, sbind at 1. unfold sbind at 1. rewrite E2.
      cbn [sbind sret]. unfold sbind, sret. fold M. rewrite Er. exact Ec.
  Qed.
End Blocks.
