(** Proofs about NoiseM.v. *)
From Coq Require Import QArith Qcanon.
From Verif Require Import Base Lib SetupM StimM NoiseM SpecNoise.
Open Scope Z_scope.

(** * append *)
Lemma append_app c i : 
  (append c i = c ++ [i]) \/
  (exists c' j, c = c' ++ [j] /\ nm i = nm j /\ ar i = ar j /\ not_fusable (nm i) = false /\
     append c i = c' ++ [Instr (nm j) (tg j ++ tg i) (ar j)]).
Proof.
  induction c as [|j c IH]; [now left|].
  destruct c as [|j' c].
  - cbn [append]. clear IH. destruct (eqb_spec (nm i) (nm j)) as [E1|N]; cbn [andb]; [|now left].
    destruct (eqb_spec (ar i) (ar j)) as [E2|N]; cbn [andb]; [|now left].
    destruct (not_fusable (nm i)) eqn:E3; cbn [negb]; [now left|].
    right. exists [], j. repeat split; assumption.
  - destruct IH as [IH|(c'&k&H1&H2&H3&H4&H5)].
    + left. change (append (j :: j' :: c) i) with (j :: append (j' :: c) i). now rewrite IH.
    + right. exists (j :: c'), k. rewrite H1 at 1. repeat split; auto.
      change (append (j :: j' :: c) i) with (j :: append (j' :: c) i). now rewrite H5.
Qed.

(* A view of a circuit that is additive under append *)
Definition additive {A} (f : instr -> list A) : Prop :=
  forall i j, nm i = nm j -> ar i = ar j -> not_fusable (nm i) = false ->
     instr_ok i = true -> instr_ok j = true ->
     f (Instr (nm j) (tg j ++ tg i) (ar j)) = f j ++ f i.

Definition ok_circ (c : circuit) : Prop := Forall (fun i => instr_ok i = true) c.

Lemma pairs_ok_app a b : pairs_ok a = true -> pairs_ok b = true -> pairs_ok (a ++ b) = true.
Proof.
  intros Ha Hb.
  assert (H : forall n a, (length a <= n)%nat -> pairs_ok a = true -> pairs_ok (a ++ b) = true).
  { clear a Ha. induction n as [|n IH]; intros [|x [|y r]] Hl Ha; simpl in *; auto; try lia; try discriminate.
    apply andb_true_iff in Ha as [H1 H2]. rewrite H1. simpl. apply IH; auto; lia. }
  eauto.
Qed.

Lemma ok_append c i : ok_circ c -> instr_ok i = true -> ok_circ (append c i).
Proof.
  intros Hc Hi. destruct (append_app c i) as [->|(c'&j&->&H2&H3&H4&->)].
  - apply Forall_app; split; auto.
  - apply Forall_app in Hc as [Hc Hj]. inversion Hj as [|? ? Hj' _]; subst.
    apply Forall_app; split; auto. constructor; [|constructor].
    unfold instr_ok in *; simpl. rewrite <- H2, <- H3 in *.
    apply andb_true_iff in Hi as [Hi1 Hi2]. apply andb_true_iff in Hj' as [Hj1 Hj2].
    apply andb_true_iff; split; auto.
    destruct (is_two (nm i)); simpl in *; auto. now apply pairs_ok_app.
Qed.

Lemma mk_ok g t a i : mk g t a = Ok i -> i = Instr g t a /\ instr_ok i = true.
Proof. unfold mk. destruct (instr_ok (Instr g t a)) eqn:E; [|discriminate]. intros [= <-]; auto. Qed.

Lemma view_append {A} (f : instr -> list A) c i :
  additive f -> ok_circ c -> instr_ok i = true ->
  flat_map f (append c i) = flat_map f c ++ f i.
Proof.
  intros Hf Hc Hi. destruct (append_app c i) as [->|(c'&j&->&H2&H3&H4&->)].
  - rewrite flat_map_app; simpl; now rewrite app_nil_r.
  - apply Forall_app in Hc as [Hc Hj]. inversion Hj as [|? ? Hj' _]; subst.
    rewrite !flat_map_app; simpl. rewrite !app_nil_r, <- app_assoc. f_equal. now apply Hf.
Qed.

Lemma additive_meas : additive instr_meas.
Proof. intros i j H1 H2 H3 _ _. unfold instr_meas; simpl. rewrite H1. now destruct (is_meas (nm j)). Qed.

Lemma even_pairs_ok l : pairs_ok l = true -> exists p, l = flat_map (fun x => [fst x; snd x]) p.
Proof.
  assert (H : forall n l, (length l <= n)%nat -> pairs_ok l = true ->
     exists p, l = flat_map (fun x => [fst x; snd x]) p).
  { clear l. induction n as [|n IH]; intros [|x [|y r]] Hl H; simpl in *; try lia; try discriminate;
      try (now exists []).
    apply andb_true_iff in H as [_ H]. destruct (IH r) as [p Hp]; [lia|auto|].
    exists ((x, y) :: p). simpl. now rewrite Hp. }
  eauto.
Qed.

Lemma pair_atoms_app g a b : pairs_ok a = true -> pair_atoms g (a ++ b) = pair_atoms g a ++ pair_atoms g b.
Proof.
  intros H. apply even_pairs_ok in H as [p ->].
  induction p as [|[x y] p IH]; simpl; [reflexivity|]. now rewrite IH.
Qed.
Lemma pairs_of_app {A} (p : list (A * A)) b :
  pairs_of (flat_map (fun x => [fst x; snd x]) p ++ b) =
  pairs_of (flat_map (fun x => [fst x; snd x]) p) ++ pairs_of b.
Proof. induction p as [|[x y] p IH]; simpl; [reflexivity|]. now rewrite IH. Qed.

Lemma two_ok i : instr_ok i = true -> is_two (nm i) = true -> pairs_ok (tg i) = true.
Proof. unfold instr_ok. intros H E. rewrite E in H. simpl in H. now apply andb_true_iff in H as [-> _]. Qed.

Definition atoms' (i : instr) := if is_annotation (nm i) then [] else instr_atoms i.
Lemma additive_atoms : additive atoms'.
Proof.
  intros i j H1 H2 H3 Hi Hj. unfold atoms', instr_atoms; simpl. rewrite H1.
  destruct (is_annotation (nm j)) eqn:Ea; [reflexivity|].
  destruct (is_noise (nm j) || eqb (nm j) GI) eqn:En; [reflexivity|].
  destruct (is_two (nm j)) eqn:E2.
  - apply pair_atoms_app. now apply two_ok.
  - apply map_app.
Qed.
Lemma additive_noise : additive instr_noise.
Proof.
  intros i j H1 H2 H3 Hi Hj. unfold instr_noise; simpl. rewrite H1, H2.
  destruct (is_noise (nm j)) eqn:En; [|reflexivity].
  destruct (is_two (nm j)) eqn:E2.
  - rewrite <- map_app. f_equal. pose proof (two_ok _ Hj E2) as P.
    apply even_pairs_ok in P as [p ->]. apply pairs_of_app.
  - now rewrite !map_app.
Qed.

(* no annotation in the circuit *)
Definition plain (c : circuit) : Prop := Forall (fun i => is_annotation (nm i) = false) c.
Lemma plain_append c i : plain c -> is_annotation (nm i) = false -> plain (append c i).
Proof.
  intros Hc Hi. destruct (append_app c i) as [->|(c'&j&->&H2&H3&H4&->)].
  - apply Forall_app; split; auto.
  - apply Forall_app in Hc as [Hc Hj]. apply Forall_app; split; auto. constructor; [|constructor].
    simpl. now rewrite <- H2.
Qed.
Lemma plain_ideal c : plain c -> ideal c = flat_map atoms' c.
Proof.
  unfold ideal. induction 1 as [|i c Hi Hc IH]; simpl; [reflexivity|].
  rewrite IH. unfold atoms'. now rewrite Hi.
Qed.

(** * Monads *)
Ltac dbind H :=
  let a := fresh "a" in let E := fresh "E" in
  apply bind_ok in H; destruct H as [a [E H]].

Lemma get_inds_F2 m qs is : get_inds m qs = Ok is -> Forall2 (fun q i => dget q (inds m) = Some i) qs is.
Proof.
  intros H; apply mapM_Forall2 in H. eapply Forall2_impl'; [|exact H].
  intros q i; unfold dget_err. destruct (dget q (inds m)); simpl; congruence.
Qed.

(** * The measurement record *)
Fixpoint positions {A} `{Eqb A} (x : A) (l : list A) (n : Z) : list Z :=
  match l with
  | [] => []
  | y :: r => if eqb x y then n :: positions x r (n + 1) else positions x r (n + 1)
  end.
Lemma positions_app {A} `{Eqb A} (x : A) l l' n :
  positions x (l ++ l') n = positions x l n ++ positions x l' (n + Z.of_nat (length l)).
Proof.
  revert n; induction l as [|y l IH]; intros n; simpl app; simpl positions.
  - simpl length. now rewrite Z.add_0_r.
  - rewrite IH. replace (n + 1 + Z.of_nat (length l)) with (n + Z.of_nat (length (y :: l))) by (simpl length; lia).
    now destruct (eqb x y).
Qed.
Lemma positions_length {A} `{Eqb A} (x : A) l n : length (positions x l n) = count x l.
Proof.
  revert n; induction l as [|y l IH]; intros n; simpl; [reflexivity|].
  destruct (eqb x y); simpl; now rewrite IH.
Qed.
Lemma positions_nth {A} `{Eqb A} (x : A) l n k p :
  nth_error (positions x l n) k = Some p ->
  n <= p < n + Z.of_nat (length l) /\
  nth_error l (Z.to_nat (p - n)) = Some x /\ count x (firstn (Z.to_nat (p - n)) l) = k.
Proof.
  revert n k; induction l as [|y l IH]; intros n k Hk; [destruct k; discriminate|].
  simpl positions in Hk. simpl length.
  assert (Hs : forall k', nth_error (positions x l (n + 1)) k' = Some p ->
      n <= p < n + Z.of_nat (S (length l)) /\
      nth_error (y :: l) (Z.to_nat (p - n)) = Some x /\
      count x (firstn (Z.to_nat (p - n)) (y :: l)) = ((if eqb x y then 1 else 0) + k')%nat).
  { intros k' E. destruct (IH _ _ E) as (H1 & H2 & H3).
    assert (Hz : Z.to_nat (p - n) = S (Z.to_nat (p - (n + 1)))) by lia.
    rewrite Hz. simpl. rewrite H3. split; [lia|auto]. }
  destruct (eqb_spec x y) as [->|N].
  - destruct k as [|k]; simpl in Hk.
    + injection Hk as <-. rewrite Z.sub_diag. simpl. split; [lia|auto].
    + apply Hs in Hk. exact Hk.
  - apply Hs in Hk. exact Hk.
Qed.
Lemma positions_cons_length {A} `{Eqb A} (x : A) l : length (positions x l 0) = count x l.
Proof. apply positions_length. Qed.

Definition wfm (m : model) : Prop := wf_inds (inds m) /\ dkeys (order m) = dkeys (inds m).
Definition Inv (m : model) (rec : list target) : Prop :=
  num m = Z.of_nat (length rec) /\
  (forall q i, dget q (inds m) = Some i -> dget q (order m) = Some (positions (TQ i) rec 0)).

Lemma inj_inds qi q q' i : wf_inds qi -> dget q qi = Some i -> dget q' qi = Some i -> q = q'.
Proof.
  intros [Hk Hv] H1 H2. apply dget_In in H1. apply dget_In in H2.
  unfold dvals in Hv. clear Hk. induction qi as [|[k v] qi IH]; [destruct H1|].
  simpl in Hv. inversion Hv as [|? ? Hni Hnd]; subst.
  destruct H1 as [E1|H1], H2 as [E2|H2]; auto.
  - congruence.
  - exfalso. injection E1 as -> ->. apply Hni. apply (in_map snd) in H2. exact H2.
  - exfalso. injection E2 as -> ->. apply Hni. apply (in_map snd) in H1. exact H1.
Qed.

Lemma add_meas_ok q m m' : add_meas q m = (m', Ok tt) ->
  kind m' = kind m /\ stp m' = stp m /\ inds m' = inds m.
Proof.
  unfold add_meas. destruct (negb (dmem q (inds m))); [discriminate|].
  destruct (dget q (order m)); [|discriminate]. intros [= <-]; auto.
Qed.

Lemma add_meas_inv q i m m' rec :
  wf_inds (inds m) -> Inv m rec -> dget q (inds m) = Some i ->
  add_meas q m = (m', Ok tt) -> Inv m' (rec ++ [TQ i]).
Proof.
  intros Hwf [Hn Ho] Hq H. pose proof (add_meas_ok _ _ _ H) as (_ & _ & Hi).
  unfold add_meas in H. destruct (negb (dmem q (inds m))); [discriminate|].
  rewrite (Ho _ _ Hq) in H. injection H as <-. split; simpl.
  - rewrite app_length; simpl; lia.
  - intros q' i' Hq'. rewrite dget_dset. rewrite positions_app. rewrite Z.add_0_l, <- Hn.
    destruct (eqb_spec q q') as [<-|N].
    + replace i' with i by congruence. cbn [positions]. now rewrite eqb_refl.
    + rewrite (Ho _ _ Hq'). cbn [positions].
      destruct (eqb_spec (TQ i') (TQ i)) as [[= ->]|N']; [|now rewrite app_nil_r].
      exfalso. apply N. eapply inj_inds; eauto.
Qed.

(* what a successful model call does to the state *)
Definition same_static (m m' : model) : Prop :=
  kind m' = kind m /\ stp m' = stp m /\ inds m' = inds m.
Lemma same_static_refl m : same_static m m. Proof. repeat split. Qed.
Lemma same_static_trans a b c : same_static a b -> same_static b c -> same_static a c.
Proof. unfold same_static; intuition congruence. Qed.

Fixpoint add_all (qs : list string) : ST model unit :=
  match qs with [] => sret tt | q :: r => sdo _ <- add_meas q; add_all r end.

Lemma add_all_static qs m m' : add_all qs m = (m', Ok tt) -> same_static m m'.
Proof.
  revert m; induction qs as [|q qs IH]; simpl; intros m H.
  - apply sret_ok in H as [-> _]. apply same_static_refl.
  - apply sbind_ok in H as (m1 & [] & H1 & H). apply add_meas_ok in H1.
    eapply same_static_trans; [exact H1|auto].
Qed.
Lemma add_all_inv qs is m m' rec :
  wf_inds (inds m) -> Inv m rec -> Forall2 (fun q i => dget q (inds m) = Some i) qs is ->
  add_all qs m = (m', Ok tt) -> Inv m' (rec ++ map TQ is).
Proof.
  intros Hwf HI HF. revert m rec Hwf HI HF. revert is.
  induction qs as [|q qs IH]; simpl; intros is m rec Hwf HI HF H.
  - inversion HF; subst. apply sret_ok in H as [-> _]. simpl. now rewrite app_nil_r.
  - inversion HF as [|? i ? is' Hq HF']; subst.
    apply sbind_ok in H as (m1 & [] & H1 & H).
    pose proof (add_meas_ok _ _ _ H1) as (K1 & K2 & K3).
    pose proof (add_meas_inv _ _ _ _ _ Hwf HI Hq H1) as HI1.
    simpl. replace (rec ++ TQ i :: map TQ is') with ((rec ++ [TQ i]) ++ map TQ is')
      by now rewrite <- app_assoc.
    eapply IH; [rewrite K3; exact Hwf|exact HI1|rewrite K3; exact HF'|exact H].
Qed.

(** * Circuits as lists of appended instructions *)
Definition good (j : instr) : Prop := instr_ok j = true /\ is_annotation (nm j) = false.
Definition built (c : circuit) (js : list instr) : Prop :=
  Forall good js /\ Forall good c /\
  forall A (f : instr -> list A), additive f -> flat_map f c = flat_map f js.

Lemma good_ok c : Forall good c -> ok_circ c.
Proof. apply Forall_impl. now intros i []. Qed.
Lemma good_plain c : Forall good c -> plain c.
Proof. apply Forall_impl. now intros i []. Qed.
Lemma good_append c i : Forall good c -> good i -> Forall good (append c i).
Proof.
  intros Hc [Hi1 Hi2].
  pose proof (ok_append c i (good_ok _ Hc) Hi1) as H1.
  pose proof (plain_append c i (good_plain _ Hc) Hi2) as H2.
  unfold ok_circ, plain in *. rewrite Forall_forall in *. intros j Hj. split; [now apply H1|now apply H2].
Qed.

Lemma built_nil : built [] [].
Proof. repeat split; constructor. Qed.
Lemma built_append c js i : built c js -> good i -> built (append c i) (js ++ [i]).
Proof.
  intros (H1 & H2 & H3) Hi. repeat split.
  - apply Forall_app; auto.
  - now apply good_append.
  - intros A f Hf. rewrite view_append by (auto using good_ok; now destruct Hi).
    rewrite (H3 _ _ Hf), flat_map_app. simpl. now rewrite app_nil_r.
Qed.
Lemma built_app c js c' js' : built c js -> built c' js' -> built (c ++ c') (js ++ js').
Proof.
  intros (H1 & H2 & H3) (H1' & H2' & H3'). repeat split; try (apply Forall_app; auto).
  intros A f Hf. rewrite !flat_map_app. now rewrite (H3 _ _ Hf), (H3' _ _ Hf).
Qed.
Lemma built_one i : good i -> built (append [] i) [i].
Proof. intros H. apply (built_append [] [] i built_nil H). Qed.

Lemma built_measured c js : built c js -> measured c = flat_map instr_meas js.
Proof. intros (_ & _ & H). apply H, additive_meas. Qed.
Lemma built_noise c js : built c js -> noise_of c = flat_map instr_noise js.
Proof. intros (_ & _ & H). apply H, additive_noise. Qed.
Lemma built_ideal c js : built c js -> ideal c = flat_map instr_atoms js.
Proof.
  intros (H1 & H2 & H). rewrite (plain_ideal c (good_plain _ H2)).
  fold (ideal js). rewrite (plain_ideal js (good_plain _ H1)). apply H, additive_atoms.
Qed.

Lemma mk_good g t a i : mk g t a = Ok i -> is_annotation g = false ->
  i = Instr g t a /\ good i.
Proof. intros H E. apply mk_ok in H as [-> H]. repeat split; auto. Qed.

(* a loop of appended channels *)
Lemma foldM_append {A} (f : A -> res instr) l c c' js0 :
  (forall x i, In x l -> f x = Ok i -> good i) -> built c js0 ->
  foldM (fun c x => do i <- f x; Ok (append c i)) l c = Ok c' ->
  exists js, Forall2 (fun x j => f x = Ok j) l js /\ built c' (js0 ++ js).
Proof.
  revert c js0; induction l as [|x l IH]; simpl; intros c js0 Hg Hb H.
  - injection H as <-. exists []. rewrite app_nil_r. auto.
  - apply bind_ok in H as [c1 [E H]]. apply bind_ok in E as [i [Ei E]]. injection E as <-.
    destruct (IH (append c i) (js0 ++ [i])) as [js [F B]]; auto.
    + intros; eapply Hg; eauto.
    + apply built_append; auto. eapply Hg; eauto.
    + exists (i :: js). split; [constructor; auto|]. now rewrite <- app_assoc in B.
Qed.

Definition noise_instr (j : instr) : Prop := is_noise (nm j) = true.
Lemma noise_no_atoms js : Forall noise_instr js -> flat_map instr_atoms js = [].
Proof.
  induction 1 as [|j js Hj _ IH]; simpl; [reflexivity|].
  unfold instr_atoms. rewrite Hj. simpl. exact IH.
Qed.
Lemma noise_no_meas js : Forall noise_instr js -> flat_map instr_meas js = [].
Proof.
  induction 1 as [|j js Hj _ IH]; simpl; [reflexivity|].
  unfold instr_meas. unfold noise_instr in Hj. destruct (nm j); try discriminate Hj; exact IH.
Qed.

Lemma chan1_shape m g p q i j : chan1 m g p q i = Ok j ->
  exists v x, mparam m p [q] = Ok v /\ as_num v = Ok x /\ j = Instr g [TQ i] [ANum x] /\ instr_ok j = true.
Proof.
  unfold chan1. intros H. dbind H. dbind H. apply mk_ok in H as [-> H]. eauto 8.
Qed.
Lemma chan2_shape m g p qq ii j : chan2 m g p qq ii = Ok j ->
  exists v x, mparam m p [fst qq; snd qq] = Ok v /\ as_num v = Ok x /\
    j = Instr g [TQ (fst ii); TQ (snd ii)] [ANum x] /\ instr_ok j = true.
Proof.
  unfold chan2. intros H. dbind H. dbind H. apply mk_ok in H as [-> H]. eauto 8.
Qed.
Definition noisy1 (f : string -> Z -> res instr) : Prop :=
  forall q i j, f q i = Ok j -> good j /\ noise_instr j.
Definition noisy2 (f : string * string -> Z * Z -> res instr) : Prop :=
  forall q i j, f q i = Ok j -> good j /\ noise_instr j.
Lemma chan1_noisy m g p : is_noise g = true -> noisy1 (chan1 m g p).
Proof.
  intros Hg q i j H. apply chan1_shape in H as (v & x & _ & _ & -> & Hok).
  repeat split; auto. simpl. now destruct g.
Qed.
Lemma chan2_noisy m g p : is_noise g = true -> noisy2 (chan2 m g p).
Proof.
  intros Hg q i j H. apply chan2_shape in H as (v & x & _ & _ & -> & Hok).
  repeat split; auto. simpl. now destruct g.
Qed.
Lemma bchan1_noisy m p : noisy1 (bchan1 m p).
Proof.
  intros q i j H. unfold bchan1 in H. dbind H. apply mk_good in H as [-> H]; [|reflexivity].
  now split.
Qed.
Lemma bchan2_noisy m p : noisy2 (bchan2 m p).
Proof.
  intros q i j H. unfold bchan2 in H. dbind H. apply mk_good in H as [-> H]; [|reflexivity].
  now split.
Qed.

Lemma Forall2_noise {A} (f : A -> res instr) l js :
  (forall x j, f x = Ok j -> noise_instr j) -> Forall2 (fun x j => f x = Ok j) l js -> Forall noise_instr js.
Proof. intros H; induction 1; constructor; eauto. Qed.

Lemma chans_shape f l c c' js0 : noisy1 f -> built c js0 -> chans f l c = Ok c' ->
  exists js, Forall2 (fun qi j => f (fst qi) (snd qi) = Ok j) l js /\
             Forall noise_instr js /\ built c' (js0 ++ js).
Proof.
  intros Hf Hb H. unfold chans in H.
  apply (foldM_append (fun qi => f (fst qi) (snd qi)) l c c' js0) in H; auto.
  - destruct H as [js [F B]]. exists js. repeat split; auto; try apply B.
    eapply (Forall2_noise (fun qi => f (fst qi) (snd qi))); [|exact F].
    intros x j Hj. now apply Hf in Hj.
  - intros x i _ Hx. now apply Hf in Hx.
Qed.
Lemma chans2_shape f l c c' js0 : noisy2 f -> built c js0 -> chans2 f l c = Ok c' ->
  exists js, Forall2 (fun qi j => f (fst qi) (snd qi) = Ok j) l js /\
             Forall noise_instr js /\ built c' (js0 ++ js).
Proof.
  intros Hf Hb H. unfold chans2 in H.
  apply (foldM_append (fun qi => f (fst qi) (snd qi)) l c c' js0) in H; auto.
  - destruct H as [js [F B]]. exists js. repeat split; auto; try apply B.
    eapply (Forall2_noise (fun qi => f (fst qi) (snd qi))); [|exact F].
    intros x j Hj. now apply Hf in Hj.
  - intros x i _ Hx. now apply Hf in Hx.
Qed.

Lemma gate1_shape m g f qs c : is_annotation g = false -> noisy1 f -> gate1 m g f qs = Ok c ->
  exists is js, get_inds m qs = Ok is /\
    Forall2 (fun qi j => f (fst qi) (snd qi) = Ok j) (combine qs is) js /\
    Forall noise_instr js /\ built c (Instr g (map TQ is) [] :: js).
Proof.
  intros Hg Hf H. unfold gate1 in H. dbind H. dbind H.
  apply mk_good in E0 as [-> Hgood]; auto.
  apply (chans_shape _ _ _ _ [Instr g (map TQ a) []]) in H; auto using built_one.
  destruct H as [js [F [N B]]]. exists a, js. auto.
Qed.
Lemma grouper2_combine {A B} (l : list A) (r : list B) pl pr :
  length l = length r -> grouper2 l = Ok pl -> grouper2 r = Ok pr -> length pl = length pr.
Proof.
  assert (H : forall n (l : list A) (r : list B) pl pr, (length l <= n)%nat ->
     length l = length r -> grouper2 l = Ok pl -> grouper2 r = Ok pr -> length pl = length pr).
  { clear. induction n as [|n IH]; intros [|x [|y l]] [|x' [|y' r]] pl pr Hl Hlr H1 H2;
      simpl in *; try lia; try discriminate; try (injection H1 as <-; injection H2 as <-; reflexivity).
    dbind H1. dbind H2. injection H1 as <-. injection H2 as <-. simpl. f_equal.
    eapply IH; eauto; lia. }
  eauto.
Qed.
Lemma gate2_shape m g f qs c : is_annotation g = false -> noisy2 f -> gate2 m g f qs = Ok c ->
  exists is qp ip js, get_inds m qs = Ok is /\ grouper2 qs = Ok qp /\ grouper2 is = Ok ip /\
    Forall2 (fun qi j => f (fst qi) (snd qi) = Ok j) (combine qp ip) js /\
    Forall noise_instr js /\ built c (Instr g (map TQ is) [] :: js) /\
    instr_ok (Instr g (map TQ is) []) = true.
Proof.
  intros Hg Hf H. unfold gate2 in H. destruct (Nat.odd (length qs)); [discriminate|].
  dbind H. dbind H. dbind H. dbind H.
  apply mk_good in E0 as [-> Hgood]; auto.
  apply (chans2_shape _ _ _ _ [Instr g (map TQ a) []]) in H; auto using built_one.
  destruct H as [js [F [N B]]]. exists a, a1, a2, js. repeat split; auto; try apply B. apply Hgood.
Qed.
Lemma idle1_shape m f qs c : noisy1 f -> idle1 m f qs = Ok c ->
  exists is js, get_inds m qs = Ok is /\
    Forall2 (fun qi j => f (fst qi) (snd qi) = Ok j) (combine qs is) js /\
    Forall noise_instr js /\ built c js.
Proof.
  intros Hf H. unfold idle1 in H. dbind H.
  apply (chans_shape _ _ _ _ []) in H; auto using built_nil.
  destruct H as [js [F [N B]]]. exists a, js. auto.
Qed.
Lemma gate0_shape m g qs c : is_annotation g = false -> gate0 m g qs = Ok c ->
  exists is, get_inds m qs = Ok is /\ built c [Instr g (map TQ is) []] /\
    c = [Instr g (map TQ is) []] /\ instr_ok (Instr g (map TQ is) []) = true.
Proof.
  intros Hg H. unfold gate0 in H. dbind H. dbind H. injection H as <-.
  apply mk_good in E0 as [-> Hgood]; auto. exists a. repeat split; auto using built_one; try apply Hgood.
  all: try (apply built_one; auto).
Qed.
Lemma idle_chan_shape m d q j : idle_chan m d q = Ok j -> good j /\ noise_instr j /\
  exists i, dget q (inds m) = Some i.
Proof.
  unfold idle_chan. intros H. dbind H. dbind H. dbind H. dbind H.
  destruct (negb _); [discriminate|]. dbind H. destruct (negb _); [discriminate|]. dbind H.
  apply mk_good in H as [-> Hg]; [|reflexivity]. repeat split; try apply Hg.
  unfold get_inds in E4. simpl in E4. dbind E4. unfold dget_err, of_opt in E5.
  destruct (dget q (inds m)) as [z|]; [eauto|discriminate].
Qed.
Lemma idle_dur_shape m d qs c : idle_dur m d qs = Ok c ->
  exists is js, get_inds m qs = Ok is /\ Forall noise_instr js /\ built c js.
Proof.
  intros H. unfold idle_dur in H.
  apply (foldM_append (idle_chan m d) qs [] c []) in H; auto using built_nil.
  - destruct H as [js [F B]].
    assert (Hd : exists is, Forall2 (fun q i => dget q (inds m) = Some i) qs is).
    { clear B. induction F as [|q j qs js Hq F IH]; [exists []; constructor|].
      apply idle_chan_shape in Hq as (_ & _ & i & Hi). destruct IH as [is His].
      exists (i :: is). constructor; auto. }
    destruct Hd as [is His]. exists is, js. repeat split; auto; try apply B.
    + apply Forall2_mapM. eapply Forall2_impl'; [|exact His]. intros q i E. unfold dget_err. now rewrite E.
    + eapply (Forall2_noise (idle_chan m d)); [|exact F]. intros x j Hj. now apply idle_chan_shape in Hj.
  - intros x i _ Hx. now apply idle_chan_shape in Hx.
Qed.
Lemma generic_op_shape m sym n g qs c : is_annotation g = false -> generic_op m sym n g qs = Ok c ->
  exists is js1 js2, get_inds m qs = Ok is /\ Forall noise_instr js1 /\ Forall noise_instr js2 /\
    built c (js1 ++ [Instr g (map TQ is) []] ++ js2) /\ instr_ok (Instr g (map TQ is) []) = true.
Proof.
  intros Hg H. unfold generic_op in H. destruct sym.
  - dbind H. dbind H. dbind H. dbind H. dbind H. injection H as <-.
    apply mk_good in E2 as [-> Hgood]; auto.
    apply idle_dur_shape in E0 as (is0 & js1 & _ & N1 & B1).
    apply idle_dur_shape in E3 as (is3 & js2 & _ & N2 & B2).
    exists a1, js1, js2. split; [auto|]. split; [auto|]. split; [auto|]. split; [|apply Hgood].
    rewrite app_assoc. apply built_app; auto. now apply built_append.
  - dbind H. dbind H. dbind H. dbind H. injection H as <-.
    apply mk_good in E1 as [-> Hgood]; auto.
    apply idle_dur_shape in E2 as (is3 & js2 & _ & N2 & B2).
    exists a0, [], js2. split; [auto|]. split; [auto|]. split; [auto|]. split; [|apply Hgood].
    apply (built_app (append [] (Instr g (map TQ a0) [])) [Instr g (map TQ a0) []]); auto. now apply built_one.
Qed.
Lemma incoming1_shape m qs c : incoming1 m qs = Ok c ->
  exists js, Forall noise_instr js /\ built c js.
Proof.
  intros H. unfold incoming1 in H. dbind H. dbind H.
  apply (chans_shape _ _ _ _ []) in E0; auto using built_nil, chan1_noisy.
  destruct E0 as [js [F [N B]]].
  apply (chans_shape _ _ _ _ js) in H; auto using chan1_noisy.
  destruct H as [js' [F' [N' B']]]. exists (js ++ js'). split; auto. now apply Forall_app.
Qed.

(* measurements *)
Definition meas_of (g : gname) (i : Z) (j : instr) : Prop := nm j = g /\ tg j = [TQ i] /\ good j.
Lemma meas_instr_shape m g q i j : is_meas g = true -> meas_instr m g q i = Ok j -> meas_of g i j.
Proof.
  intros Hg H. unfold meas_instr in H. dbind H.
  assert (is_annotation g = false) by now destruct g.
  destruct (truthy a).
  - dbind H. dbind H. apply mk_good in H as [-> Hj]; auto. repeat split; apply Hj.
  - apply mk_good in H as [-> Hj]; auto. repeat split; apply Hj.
Qed.

(* the measurement loops: record every qubit and append one measurement each *)
Lemma meas_loop {A} (qof : A -> string) (iof : A -> Z) (step : A -> model -> res instr) g l :
  forall c js0 m m' c',
  (forall x m1 i, same_static m m1 -> In x l -> step x m1 = Ok i -> meas_of g (iof x) i) ->
  built c js0 ->
  sfold (fun c x => sdo _ <- add_meas (qof x); sdo i <- sread (step x); sret (append c i)) l c m
    = (m', Ok c') ->
  add_all (map qof l) m = (m', Ok tt) /\
  exists js, Forall2 (fun x j => meas_of g (iof x) j) l js /\ built c' (js0 ++ js).
Proof.
  induction l as [|x l IH]; simpl; intros c js0 m m' c' Hs Hb H.
  - apply sret_ok in H as [-> <-]. split; [reflexivity|]. exists []. rewrite app_nil_r. auto.
  - apply sbind_ok in H as (m1 & c1 & H1 & H).
    apply sbind_ok in H1 as (m2 & [] & Ha & H1).
    apply sbind_ok in H1 as (m3 & i & Hr & H1).
    apply sread_ok in Hr as [-> Hi]. apply sret_ok in H1 as [-> <-].
    pose proof (add_meas_ok _ _ _ Ha) as Hst.
    assert (Hm : meas_of g (iof x) i) by (eapply Hs; eauto).
    destruct (IH (append c i) (js0 ++ [i]) m2 m' c') as [Hadd [js [F B]]]; auto.
    + intros y m1 j K1 K2 K3. apply (Hs y m1 j); auto. exact (same_static_trans _ _ _ Hst K1).
    + apply built_append; auto. apply Hm.
    + split.
      * unfold sbind at 1. now rewrite Ha.
      * exists (i :: js). split; [constructor; auto|]. now rewrite <- app_assoc in B.
Qed.

Lemma meas_of_meas g {A} (iof : A -> Z) l js : is_meas g = true ->
  Forall2 (fun x j => meas_of g (iof x) j) l js ->
  flat_map instr_meas js = map TQ (map iof l) /\
  flat_map instr_atoms js = map (A1 g) (map TQ (map iof l)) /\
  flat_map instr_noise js = [].
Proof.
  intros Hg; induction 1 as [|x j l js (E1 & E2 & _) _ IH]; simpl; [auto|].
  destruct IH as (I1 & I2 & I3). rewrite I1, I2, I3.
  unfold instr_meas, instr_atoms, instr_noise. rewrite E1, E2, Hg.
  destruct g; try discriminate Hg; auto.
Qed.

Lemma map_fst_combine {A B} (l : list A) (r : list B) : length l = length r -> map fst (combine l r) = l.
Proof. revert r; induction l as [|x l IH]; intros [|y r] H; simpl in *; try lia; auto. now rewrite IH by lia. Qed.
Lemma map_snd_combine {A B} (l : list A) (r : list B) : length l = length r -> map snd (combine l r) = r.
Proof. revert r; induction l as [|x l IH]; intros [|y r] H; simpl in *; try lia; auto. now rewrite IH by lia. Qed.
Lemma get_inds_length m qs is : get_inds m qs = Ok is -> length qs = length is.
Proof. intros H. apply get_inds_F2 in H. eapply Forall2_len; eauto. Qed.

Lemma measure1_shape e g qs m m' c : is_noise e = true -> is_meas g = true ->
  measure1 e g qs m = (m', Ok c) ->
  exists is jn jm, get_inds m qs = Ok is /\ add_all qs m = (m', Ok tt) /\
    Forall2 (fun qi j => chan1 m e "meas_error_prob" (fst qi) (snd qi) = Ok j) (combine qs is) jn /\
    Forall noise_instr jn /\
    Forall2 (fun i j => meas_of g i j) is jm /\ built c (jn ++ jm).
Proof.
  intros He Hg H. unfold measure1 in H.
  apply sbind_ok in H as (m1 & is & H1 & H). apply sread_ok in H1 as [-> H1].
  apply sbind_ok in H as (m1 & c1 & H2 & H). apply sread_ok in H2 as [-> H2].
  apply (chans_shape _ _ _ _ []) in H2; auto using built_nil, chan1_noisy.
  destruct H2 as [jn [F [N B]]].
  pose proof (get_inds_length _ _ _ H1) as Hl.
  apply (meas_loop fst snd (fun qi m => meas_instr m g (fst qi) (snd qi)) g _ _ jn) in H; auto.
  - destruct H as [Ha [jm [F2 B2]]]. rewrite map_fst_combine in Ha by auto.
    exists is, jn, jm. repeat split; auto; try apply B2.
    rewrite <- (map_snd_combine qs is Hl) at 1.
    clear -F2. induction F2; simpl; constructor; auto.
  - intros x m1 i _ _ Hx. eapply meas_instr_shape; eauto.
Qed.

Lemma sfold_ext {S A B} (f g : B -> A -> ST S B) l b s :
  (forall b x s, f b x s = g b x s) -> sfold f l b s = sfold g l b s.
Proof.
  intros E; revert b s; induction l as [|x l IH]; simpl; intros b s; [reflexivity|].
  unfold sbind. rewrite E. destruct (g b x s) as [s1 [b1|e]]; auto.
Qed.

(* loops over labels *)
Lemma meas_loop_labels (step : string -> model -> res instr) g qs :
  forall c js0 m m' c',
  (forall q m1 i, same_static m m1 -> step q m1 = Ok i ->
     exists z, dget q (inds m) = Some z /\ meas_of g z i) ->
  built c js0 ->
  sfold (fun c q => sdo _ <- add_meas q; sdo i <- sread (step q); sret (append c i)) qs c m
    = (m', Ok c') ->
  add_all qs m = (m', Ok tt) /\
  exists is jm, get_inds m qs = Ok is /\ Forall2 (fun i j => meas_of g i j) is jm /\
     built c' (js0 ++ jm).
Proof.
  induction qs as [|q qs IH]; simpl; intros c js0 m m' c' Hs Hb H.
  - apply sret_ok in H as [-> <-]. split; [reflexivity|]. exists [], []. rewrite app_nil_r.
    repeat split; auto; apply Hb.
  - apply sbind_ok in H as (m1 & c1 & H1 & H).
    apply sbind_ok in H1 as (m2 & [] & Ha & H1).
    apply sbind_ok in H1 as (m3 & i & Hr & H1).
    apply sread_ok in Hr as [-> Hi]. apply sret_ok in H1 as [-> <-].
    pose proof (add_meas_ok _ _ _ Ha) as Hst.
    destruct (Hs q m2 i Hst Hi) as [z [Hz Hm]].
    destruct (IH (append c i) (js0 ++ [i]) m2 m' c') as [Hadd [is [jm [G [F B]]]]]; auto.
    + intros q' m1 i' Hst' Hi'. destruct Hst as (K1 & K2 & K3). rewrite K3.
      eapply Hs; eauto. eapply same_static_trans; [|exact Hst']. repeat split; auto.
    + apply built_append; auto. apply Hm.
    + split.
      * unfold sbind at 1. now rewrite Ha.
      * exists (z :: is), (i :: jm). split; [|split; [constructor; auto|now rewrite <- app_assoc in B]].
        unfold get_inds in *. simpl. unfold dget_err at 1. rewrite Hz. simpl.
        destruct Hst as (K1 & K2 & K3). rewrite K3 in G. now rewrite G.
Qed.

Lemma measure0_shape g qs m m' c : is_meas g = true -> measure0 g qs m = (m', Ok c) ->
  exists is jm, get_inds m qs = Ok is /\ add_all qs m = (m', Ok tt) /\
    Forall2 (fun i j => meas_of g i j) is jm /\ built c jm.
Proof.
  intros Hg H. unfold measure0 in H.
  apply (meas_loop_labels (fun q m => do is <- get_inds m [q]; mk g (map TQ is) []) g qs [] []) in H;
    auto using built_nil.
  - destruct H as [Ha [is [jm [G [F B]]]]]. exists is, jm. auto.
  - intros q m1 i (K1 & K2 & K3) Hi. dbind Hi. unfold get_inds in E. simpl in E. dbind E.
    injection E as <-. unfold dget_err, of_opt in E0. rewrite K3 in E0.
    destruct (dget q (inds m)) as [z|]; [|discriminate]. injection E0 as <-. exists z. split; auto.
    simpl in Hi. apply mk_good in Hi as [-> Hgd]; [|now destruct g]. repeat split; apply Hgd.
Qed.
Lemma measure_decoh_shape sym n g qs m m' c : is_meas g = true ->
  measure_decoh sym n g qs m = (m', Ok c) ->
  exists is j1 jm j2, get_inds m qs = Ok is /\ add_all qs m = (m', Ok tt) /\
    Forall noise_instr j1 /\ Forall noise_instr j2 /\
    Forall2 (fun i j => meas_of g i j) is jm /\ built c (j1 ++ jm ++ j2).
Proof.
  intros Hg H. unfold measure_decoh in H. destruct sym.
  - apply sbind_ok in H as (m1 & d & H1 & H). apply sread_ok in H1 as [-> H1].
    apply sbind_ok in H as (m1 & c1 & H2 & H). apply sread_ok in H2 as [-> H2].
    apply sbind_ok in H as (m2 & c2 & H3 & H).
    apply sbind_ok in H as (m3 & c3 & H4 & H). apply sread_ok in H4 as [-> H4].
    apply sret_ok in H as [-> <-].
    apply idle_dur_shape in H2 as (i2 & j1 & _ & N1 & B1).
    apply idle_dur_shape in H4 as (i4 & j2 & _ & N2 & B2).
    apply (meas_loop_labels (fun q m => do is <- get_inds m [q]; meas_instr m g q (nth 0 is 0)) g qs c1 j1) in H3;
      auto.
    + destruct H3 as [Ha [is [jm [G [F B]]]]]. exists is, j1, jm, j2.
      repeat (split; [now auto|]). rewrite app_assoc. now apply built_app.
    + intros q m1 i (K1 & K2 & K3) Hi. dbind Hi. unfold get_inds in E. simpl in E. dbind E.
      injection E as <-. unfold dget_err, of_opt in E0. rewrite K3 in E0.
      destruct (dget q (inds m)) as [z|]; [|discriminate]. injection E0 as <-. exists z. split; auto.
      simpl in Hi. eapply meas_instr_shape; eauto.
  - apply sbind_ok in H as (m1 & d & H1 & H). apply sread_ok in H1 as [-> H1].
    destruct qs as [|q qs].
    + apply sret_ok in H as [-> <-]. exists [], [], [], []. repeat split; auto; constructor.
    + apply sbind_ok in H as (m2 & [] & _ & H). discriminate.
Qed.

(** * Every operation of every model *)
Definition measuring (o : op) : bool := match o with OM | OMX | OMY | OMZ => true | _ => false end.
(* the ideal instruction of an operation; BiasedCircuitNoiseModel.measure_y emits MX *)
Definition gate_of (k : mkind) (o : op) : option gname :=
  match o with
  | OX => Some GX | OZ => Some GZ | OH => Some GH | OS => Some GS | OSDAG => Some GSDAG
  | OCX => Some GCX | OCZ => Some GCZ | OSWAP => Some GSWAP
  | OM | OMZ => Some GM | OMX => Some GMX
  | OMY => match k with Biased => Some GMX | _ => Some GMY end
  | OR | ORZ => Some GR | ORX => Some GRX | ORY => Some GRY
  | OIDLE | OIDLED _ => Some GI
  | OINC => None
  end.
Definition charact (o : op) (qs : list string) (m m' : model) (c : circuit) : Prop :=
  (if measuring o then add_all qs m = (m', Ok tt) else m' = m) /\
  exists js, built c js /\
    match gate_of (kind m) o with
    | Some g => exists is, get_inds m qs = Ok is /\
        instr_ok (Instr g (map TQ is) []) = true /\
        flat_map instr_atoms js = instr_atoms (Instr g (map TQ is) []) /\
        flat_map instr_meas js = instr_meas (Instr g (map TQ is) [])
    | None => flat_map instr_atoms js = [] /\ flat_map instr_meas js = []
    end.

Lemma char_gate o qs m c g js1 js2 is :
  measuring o = false -> gate_of (kind m) o = Some g -> get_inds m qs = Ok is ->
  Forall noise_instr js1 -> Forall noise_instr js2 ->
  instr_ok (Instr g (map TQ is) []) = true ->
  built c (js1 ++ [Instr g (map TQ is) []] ++ js2) -> charact o qs m m c.
Proof.
  intros Ho Hg Hi N1 N2 Hok B. split; [now rewrite Ho|]. exists (js1 ++ [Instr g (map TQ is) []] ++ js2).
  split; auto. rewrite Hg. exists is. split; auto. split; auto.
  rewrite !flat_map_app, (noise_no_atoms js1 N1), (noise_no_atoms js2 N2), (noise_no_meas js1 N1), (noise_no_meas js2 N2). cbn [flat_map app]. rewrite !app_nil_r.
  split; reflexivity.
Qed.
Lemma char_meas o qs m m' c g js1 jm js2 is :
  measuring o = true -> gate_of (kind m) o = Some g -> is_meas g = true -> get_inds m qs = Ok is ->
  add_all qs m = (m', Ok tt) ->
  Forall noise_instr js1 -> Forall noise_instr js2 -> Forall2 (fun i j => meas_of g i j) is jm ->
  built c (js1 ++ jm ++ js2) -> charact o qs m m' c.
Proof.
  intros Ho Hg Hmg Hi Ha N1 N2 F B. split; [now rewrite Ho|]. exists (js1 ++ jm ++ js2).
  split; auto. rewrite Hg. exists is. split; auto.
  apply (meas_of_meas g (fun i => i)) in F; auto. destruct F as (F1 & F2 & _). rewrite map_id in *.
  split; [|split].
  - unfold instr_ok; simpl. destruct g; try discriminate Hmg; reflexivity.
  - rewrite !flat_map_app, (noise_no_atoms js1 N1), (noise_no_atoms js2 N2), F2. simpl. rewrite app_nil_r.
    unfold instr_atoms; simpl. destruct g; try discriminate Hmg; reflexivity.
  - rewrite !flat_map_app, (noise_no_meas js1 N1), (noise_no_meas js2 N2), F1. simpl. rewrite app_nil_r.
    unfold instr_meas; simpl. now rewrite Hmg.
Qed.
Lemma char_idle o qs m c js is : measuring o = false -> gate_of (kind m) o = Some GI ->
  get_inds m qs = Ok is -> Forall noise_instr js -> built c js -> charact o qs m m c.
Proof.
  intros Ho Hg Hi N B. split; [now rewrite Ho|]. exists js. split; auto. rewrite Hg.
  exists is. rewrite noise_no_atoms, noise_no_meas by auto. repeat split; auto.
Qed.
Lemma char_inc o qs m c js : measuring o = false -> gate_of (kind m) o = None ->
  Forall noise_instr js -> built c js -> charact o qs m m c.
Proof.
  intros Ho Hg N B. split; [now rewrite Ho|]. exists js. split; auto. rewrite Hg.
  now rewrite noise_no_atoms, noise_no_meas by auto.
Qed.

Lemma char_gate1 o qs m c g f : measuring o = false -> gate_of (kind m) o = Some g ->
  is_annotation g = false -> is_two g = false -> is_noise g = false -> is_meas g = false -> noisy1 f ->
  gate1 m g f qs = Ok c -> charact o qs m m c.
Proof.
  intros Ho Hg Ha H2 Hn Hm Hf H. apply gate1_shape in H; auto. destruct H as (is & js & Hi & _ & N & B).
  eapply (char_gate o qs m c g [] js); eauto.
  unfold instr_ok; simpl. now rewrite H2, Hn, Hm.
Qed.
Lemma char_gate2 o qs m c g f : measuring o = false -> gate_of (kind m) o = Some g ->
  is_annotation g = false -> noisy2 f ->
  gate2 m g f qs = Ok c -> charact o qs m m c.
Proof.
  intros Ho Hg Ha Hf H. apply gate2_shape in H; auto.
  destruct H as (is & qp & ip & js & Hi & _ & _ & _ & N & B & Hok).
  eapply (char_gate o qs m c g [] js); eauto.
Qed.
Lemma char_gate0 o qs m c g : measuring o = false -> gate_of (kind m) o = Some g ->
  is_annotation g = false -> gate0 m g qs = Ok c -> charact o qs m m c.
Proof.
  intros Ho Hg Ha H. apply gate0_shape in H; auto.
  destruct H as (is & Hi & B & _ & Hok). eapply (char_gate o qs m c g [] []); eauto.
Qed.
Lemma char_generic o qs m c sym n g : measuring o = false -> gate_of (kind m) o = Some g ->
  is_annotation g = false -> generic_op m sym n g qs = Ok c -> charact o qs m m c.
Proof.
  intros Ho Hg Ha H. apply generic_op_shape in H; auto.
  destruct H as (is & js1 & js2 & Hi & N1 & N2 & B & Hok).
  eapply (char_gate o qs m c g js1 js2); eauto.
Qed.
Lemma char_idle1 o qs m c f : measuring o = false -> gate_of (kind m) o = Some GI -> noisy1 f ->
  idle1 m f qs = Ok c -> charact o qs m m c.
Proof.
  intros Ho Hg Hf H. apply idle1_shape in H; auto.
  destruct H as (is & js & Hi & _ & N & B). eapply char_idle; eauto.
Qed.
Lemma char_idled o qs m c d : measuring o = false -> gate_of (kind m) o = Some GI ->
  idle_dur m d qs = Ok c -> charact o qs m m c.
Proof.
  intros Ho Hg H. apply idle_dur_shape in H; auto.
  destruct H as (is & js & Hi & N & B). eapply char_idle; eauto.
Qed.
Lemma char_measure1 o e g qs m m' c : measuring o = true -> gate_of (kind m) o = Some g ->
  is_meas g = true -> is_noise e = true -> measure1 e g qs m = (m', Ok c) -> charact o qs m m' c.
Proof.
  intros Ho Hg Hm He H. apply measure1_shape in H; auto.
  destruct H as (is & jn & jm & Hi & Ha & _ & N & F & B).
  eapply (char_meas o qs m m' c g jn jm []); eauto. now rewrite app_nil_r.
Qed.
Lemma char_measure0 o g qs m m' c : measuring o = true -> gate_of (kind m) o = Some g ->
  is_meas g = true -> measure0 g qs m = (m', Ok c) -> charact o qs m m' c.
Proof.
  intros Ho Hg Hm H. apply measure0_shape in H; auto.
  destruct H as (is & jm & Hi & Ha & F & B).
  eapply (char_meas o qs m m' c g [] jm []); eauto. now rewrite app_nil_r.
Qed.
Lemma char_measured o sym n g qs m m' c : measuring o = true -> gate_of (kind m) o = Some g ->
  is_meas g = true -> measure_decoh sym n g qs m = (m', Ok c) -> charact o qs m m' c.
Proof.
  intros Ho Hg Hm H. apply measure_decoh_shape in H; auto.
  destruct H as (is & j1 & jm & j2 & Hi & Ha & N1 & N2 & F & B).
  eapply (char_meas o qs m m' c g j1 jm j2); eauto.
Qed.

Lemma apply_char o qs m m' c : apply o qs m = (m', Ok c) -> charact o qs m m' c.
Proof.
  unfold apply. intros H.
  destruct (kind m) eqn:K; destruct o;
    first
    [ injection H as <- H; first
      [ discriminate H
      | subst c; eapply char_inc; [reflexivity|now rewrite K|constructor|apply built_nil]
      | apply incoming1_shape in H; destruct H as (js & N & B);
        eapply char_inc; [reflexivity|now rewrite K|eassumption|assumption]
      | refine (char_gate0 _ _ _ _ _ _ _ _ H); try reflexivity; rewrite K; reflexivity
      | refine (char_gate1 _ _ _ _ _ _ _ _ _ _ _ _ _ H); try reflexivity;
          first [rewrite K; reflexivity|apply chan1_noisy; reflexivity|apply bchan1_noisy]
      | refine (char_gate2 _ _ _ _ _ _ _ _ _ _ H); try reflexivity;
          first [rewrite K; reflexivity|apply chan2_noisy; reflexivity|apply bchan2_noisy]
      | refine (char_generic _ _ _ _ _ _ _ _ _ _ H); try reflexivity; rewrite K; reflexivity
      | refine (char_idle1 _ _ _ _ _ _ _ _ H); try reflexivity;
          first [rewrite K; reflexivity|apply chan1_noisy; reflexivity|apply bchan1_noisy]
      | refine (char_idled _ _ _ _ _ _ _ H); try reflexivity; rewrite K; reflexivity ]
    | refine (char_measure1 _ _ _ _ _ _ _ _ _ _ _ H); try reflexivity; rewrite K; reflexivity
    | refine (char_measure0 _ _ _ _ _ _ _ _ _ H); try reflexivity; rewrite K; reflexivity
    | refine (char_measured _ _ _ _ _ _ _ _ _ _ _ H); try reflexivity; rewrite K; reflexivity ].
Qed.

(** * C01, C02 *)
Lemma apply_static o qs m m' c : apply o qs m = (m', Ok c) -> same_static m m'.
Proof.
  intros H. apply apply_char in H as [H _]. destruct (measuring o).
  - now apply add_all_static in H.
  - subst. apply same_static_refl.
Qed.
Lemma apply_inv o qs m m' c rec : wf_inds (inds m) -> Inv m rec ->
  apply o qs m = (m', Ok c) -> Inv m' (rec ++ measured c).
Proof.
  intros Hwf HI H. apply apply_char in H as [H [js [B G]]].
  rewrite (built_measured _ _ B).
  destruct (gate_of (kind m) o) as [g|] eqn:Eg.
  - destruct G as (is & Hi & _ & _ & ->). unfold instr_meas; simpl.
    assert (Hm : is_meas g = measuring o)
      by (destruct o, (kind m); simpl in Eg; try discriminate Eg; injection Eg as <-; reflexivity).
    rewrite Hm. destruct (measuring o); [|subst; now rewrite app_nil_r].
    eapply add_all_inv; eauto. now apply get_inds_F2.
  - destruct G as [_ ->]. assert (measuring o = false) by (destruct o; try reflexivity; destruct (kind m); discriminate Eg).
    rewrite H0 in H. subst. now rewrite app_nil_r.
Qed.
Lemma history_inv m l m' c : history m l m' c ->
  forall rec, wf_inds (inds m) -> Inv m rec -> Inv m' (rec ++ measured c) /\ inds m' = inds m.
Proof.
  induction 1 as [m|m o qs m1 c1 l m2 c2 H1 H2 IH]; intros rec Hwf HI.
  - simpl. rewrite app_nil_r. auto.
  - pose proof (apply_static _ _ _ _ _ H1) as (K1 & K2 & K3).
    destruct (IH (rec ++ measured c1)) as [HI' E].
    + now rewrite K3.
    + eapply apply_inv; eauto.
    + split; [|congruence]. unfold measured in *. rewrite flat_map_app. now rewrite app_assoc.
Qed.
Lemma dget_map_nil (qi : dict string Z) q i : dget q qi = Some i ->
  dget q (map (fun kv => (fst kv, @nil Z)) qi) = Some [].
Proof.
  induction qi as [|[k v] qi IH]; simpl; [discriminate|]. destruct (eqb q k); auto.
Qed.
Lemma new_circuit_inv m : Inv (new_circuit m) [].
Proof. split; [reflexivity|]. simpl. intros q i. apply dget_map_nil. Qed.

Lemma py_nth_neg {A} (l : list A) k : 1 <= k <= Z.of_nat (length l) ->
  exists a, py_nth l (- k) = Ok a /\ nth_error l (length l - Z.to_nat k) = Some a.
Proof.
  intros Hk. unfold py_nth.
  replace (- k <? 0) with true by lia.
  replace ((- k + Z.of_nat (length l) <? 0) || (Z.of_nat (length l) <=? - k + Z.of_nat (length l)))
    with false by lia.
  replace (Z.to_nat (- k + Z.of_nat (length l))) with (length l - Z.to_nat k)%nat by lia.
  destruct (nth_error l (length l - Z.to_nat k)) as [a|] eqn:E.
  - exists a. auto.
  - apply nth_error_None in E. lia.
Qed.
Lemma py_nth_range {A} (l : list A) k :
  (- Z.of_nat (length l) <= k < Z.of_nat (length l) /\ exists a, py_nth l k = Ok a /\ In a l) \/
  (~ (- Z.of_nat (length l) <= k < Z.of_nat (length l)) /\ py_nth l k = Err IndexError).
Proof.
  unfold py_nth. destruct (k <? 0) eqn:E1.
  - destruct ((k + Z.of_nat (length l) <? 0) || (Z.of_nat (length l) <=? k + Z.of_nat (length l))) eqn:E2.
    + right. split; [lia|reflexivity].
    + left. split; [lia|]. destruct (nth_error l _) as [a|] eqn:E; simpl.
      * exists a; split; auto. eapply nth_error_In; eauto.
      * apply nth_error_None in E. lia.
  - destruct ((k <? 0) || (Z.of_nat (length l) <=? k)) eqn:E2.
    + right. split; [lia|reflexivity].
    + left. split; [lia|]. destruct (nth_error l _) as [a|] eqn:E; simpl.
      * exists a; split; auto. eapply nth_error_In; eauto.
      * apply nth_error_None in E. lia.
Qed.

Lemma count_firstn_skipn {A} `{Eqb A} (x : A) l n :
  count x l = (count x (firstn n l) + count x (skipn n l))%nat.
Proof. rewrite <- (firstn_skipn n l) at 1. apply count_app. Qed.

Lemma meas_target_correct m rec q i k :
  Inv m rec -> dget q (inds m) = Some i -> 1 <= k <= Z.of_nat (count (TQ i) rec) ->
  exists j, meas_target m q (- k) = Ok (TR (- j)) /\ kth_last rec (TQ i) k j.
Proof.
  intros [Hn Ho] Hq Hk. unfold meas_target, dget_err. rewrite (Ho _ _ Hq). cbn [of_opt bind].
  set (l := positions (TQ i) rec 0).
  assert (Hl : length l = count (TQ i) rec) by apply positions_length.
  rewrite Hl.
  replace ((Z.of_nat (count (TQ i) rec) <? - k) || (- k <? - Z.of_nat (count (TQ i) rec))) with false by lia.
  destruct (py_nth_neg l k) as [a [E1 E2]]; [lia|]. rewrite E1. cbn [bind].
  apply positions_nth in E2 as (H1 & H2 & H3). rewrite Z.sub_0_r in *. rewrite Z.add_0_l in H1.
  exists (num m - a). split; [f_equal; f_equal; lia|].
  rewrite Hn. unfold kth_last.
  replace (length rec - Z.to_nat (Z.of_nat (length rec) - a))%nat with (Z.to_nat a) by lia.
  split; [lia|]. split; auto.
  pose proof (count_firstn_skipn (TQ i) rec (Z.to_nat a)) as Hc. lia.
Qed.

Lemma C01_lemma m l m' c q i k :
  wf_inds (inds m) -> history (new_circuit m) l m' c -> dget q (inds m) = Some i ->
  1 <= k <= Z.of_nat (count (TQ i) (measured c)) ->
  exists j, meas_target m' q (- k) = Ok (TR (- j)) /\ kth_last (measured c) (TQ i) k j.
Proof.
  intros Hwf Hh Hq Hk. destruct (history_inv _ _ _ _ Hh [] Hwf (new_circuit_inv m)) as [HI E].
  simpl in HI, E. eapply meas_target_correct; eauto. now rewrite E.
Qed.

Lemma positions_bound {A} `{Eqb A} (x : A) l n p : In p (positions x l n) -> n <= p < n + Z.of_nat (length l).
Proof. intros Hp. apply In_nth_error in Hp as [k Hk]. now apply positions_nth in Hk as [? _]. Qed.

Lemma C02_lemma m l m' c q i k :
  wf_inds (inds m) -> history (new_circuit m) l m' c -> dget q (inds m) = Some i ->
  let n := Z.of_nat (count (TQ i) (measured c)) in
  (- n <= k < n -> exists r, meas_target m' q k = Ok (TR r) /\ - Z.of_nat (length (measured c)) <= r <= -1) /\
  (k < - n \/ k > n -> meas_target m' q k = Err ValueError) /\
  (k = n -> meas_target m' q k = Err IndexError).
Proof.
  intros Hwf Hh Hq n. destruct (history_inv _ _ _ _ Hh [] Hwf (new_circuit_inv m)) as [[Hn Ho] E].
  simpl in Hn, Ho, E. assert (Hq' : dget q (inds m') = Some i) by now rewrite E.
  unfold meas_target, dget_err. rewrite (Ho _ _ Hq'). cbn [of_opt bind].
  set (p := positions (TQ i) (measured c) 0).
  assert (Hl : length p = count (TQ i) (measured c)) by apply positions_length.
  destruct (py_nth_range p k) as [[H1 [a [E1 Ha]]]|[H1 E1]]; rewrite Hl in *; fold n in H1 |- *; rewrite E1; cbn [bind].
  - replace ((n <? k) || (k <? - n)) with false by lia. split; [|split; lia].
    intros _. exists (a - num m'). split; auto. apply positions_bound in Ha. lia.
  - split; [lia|]. split; intros Hk.
    + replace ((n <? k) || (k <? - n)) with true by lia. reflexivity.
    + replace ((n <? k) || (k <? - n)) with false by lia. reflexivity.
Qed.

(** * C17 *)
Lemma add_meas_noiseless q m m' : add_meas q m = (m', Ok tt) ->
  add_meas q (as_noiseless m) = (as_noiseless m', Ok tt).
Proof.
  unfold add_meas; simpl. destruct (negb (dmem q (inds m))); [discriminate|].
  destruct (dget q (order m)); [|discriminate]. intros [= <-]. reflexivity.
Qed.
Lemma measure0_complete g qs : is_meas g = true -> forall m m' is c,
  add_all qs m = (m', Ok tt) -> get_inds m qs = Ok is ->
  exists c', sfold (fun c q =>
           sdo _ <- add_meas q;
           sdo i <- sread (fun m => do is <- get_inds m [q]; mk g (map TQ is) []);
           sret (append c i)) qs c (as_noiseless m) = (as_noiseless m', Ok c').
Proof.
  intros Hg. induction qs as [|q qs IH]; simpl; intros m m' is c Ha Hi.
  - apply sret_ok in Ha as [-> _]. exists c. reflexivity.
  - apply sbind_ok in Ha as (m1 & [] & H1 & Ha).
    pose proof (add_meas_ok _ _ _ H1) as (K1 & K2 & K3).
    unfold get_inds in Hi. simpl in Hi. dbind Hi. dbind Hi.
    assert (Hi' : get_inds m1 qs = Ok a0) by (unfold get_inds; now rewrite K3).
    assert (Hstep : (sdo _ <- add_meas q;
           sdo i <- sread (fun m => do is <- get_inds m [q]; mk g (map TQ is) []);
           sret (append c i)) (as_noiseless m) = (as_noiseless m1, Ok (append c (Instr g [TQ a] [])))).
    { unfold sbind. rewrite (add_meas_noiseless _ _ _ H1). unfold sread, get_inds. simpl.
      rewrite K3, E. simpl. unfold mk.
      replace (instr_ok (Instr g [TQ a] [])) with true
        by (unfold instr_ok; destruct g; try discriminate Hg; reflexivity).
      reflexivity. }
    unfold sbind at 1. rewrite Hstep. eapply IH; eauto.
Qed.

Lemma C17_lemma m o qs m' c :
  apply o qs m = (m', Ok c) -> ~ (kind m = Biased /\ o = OMY) ->
  exists m0' c0,
    apply (without_duration o) qs (as_noiseless m) = (m0', Ok c0) /\
    noise_of c0 = [] /\ ideal c = ideal c0 /\ measured c = measured c0 /\
    order m' = order m0' /\ num m' = num m0'.
Proof.
  intros H Hb. apply apply_char in H as [Hs [js [B G]]].
  rewrite (built_ideal _ _ B), (built_measured _ _ B).
  assert (Hg : gate_of (kind m) o = gate_of Noiseless (without_duration o)).
  { destruct o, (kind m) eqn:K; try reflexivity. exfalso; apply Hb; auto. }
  rewrite Hg in G. destruct (measuring o) eqn:Hm.
  - (* measurements *)
    destruct (gate_of Noiseless (without_duration o)) as [g|] eqn:Eg; [|now destruct o].
    assert (Hmg : is_meas g = true) by (destruct o; try discriminate Hm; injection Eg as <-; reflexivity).
    destruct G as (is & Hi & Hok & G1 & G2).
    destruct (measure0_complete g qs Hmg m m' is [] Hs Hi) as [c0 Hc0].
    assert (Happ : apply (without_duration o) qs (as_noiseless m) = (as_noiseless m', Ok c0))
      by (destruct o; try discriminate Hm; injection Eg as <-; exact Hc0).
    exists (as_noiseless m'), c0. split; [exact Happ|].
    assert (Hsh := measure0_shape _ _ _ _ _ Hmg Hc0). destruct Hsh as (is' & jm & Hi' & _ & F & B').
    unfold get_inds in Hi, Hi'. simpl in Hi'. rewrite Hi in Hi'. injection Hi' as <-.
    apply (meas_of_meas g (fun i => i)) in F; auto. destruct F as (F1 & F2 & F3). rewrite map_id in *.
    rewrite (built_noise _ _ B'), (built_ideal _ _ B'), (built_measured _ _ B'), F1, F2, F3, G1, G2.
    repeat split; auto.
    + unfold instr_atoms. destruct g; try discriminate Hmg; reflexivity.
    + unfold instr_meas; simpl. now rewrite Hmg.
  - (* other operations *)
    subst m'. destruct (gate_of Noiseless (without_duration o)) as [g|] eqn:Eg.
    + destruct G as (is & Hi & Hok & G1 & G2).
      exists (as_noiseless m), [Instr g (map TQ is) []].
      assert (H0 : gate0 (as_noiseless m) g qs = Ok [Instr g (map TQ is) []]).
      { unfold gate0. change (get_inds (as_noiseless m) qs) with (get_inds m qs). rewrite Hi. simpl.
        unfold mk. rewrite Hok. reflexivity. }
      split.
      { destruct o; try discriminate Hm; try discriminate Eg; injection Eg as <-;
          unfold apply; simpl; now rewrite H0. }
      rewrite G1, G2. unfold noise_of, ideal, measured; simpl. rewrite !app_nil_r.
      repeat split; auto.
      destruct o; try discriminate Hm; try discriminate Eg; injection Eg as <-; reflexivity.
    + destruct o; try discriminate Eg. exists (as_noiseless m), []. destruct G as [-> ->].
      repeat split; reflexivity.
Qed.

(** * C18 *)
Lemma channel_noise (m : model) (e : gname) (p : string) qs is js :
  is_noise e = true -> is_two e = false -> get_inds m qs = Ok is ->
  Forall2 (fun qi j => chan1 m e p (fst qi) (snd qi) = Ok j) (combine qs is) js ->
  Forall2 (fun q a => channel_for m e p [q] a) qs (flat_map instr_noise js).
Proof.
  intros He H2 Hi F. apply get_inds_F2 in Hi. revert js F.
  induction Hi as [|q i qs is Hq Hi IH]; simpl; intros js F; inversion F as [|? j ? js' Hj F']; subst; simpl.
  - constructor.
  - simpl in Hj. apply chan1_shape in Hj as (v & x & Hv & Hx & -> & _).
    unfold instr_noise at 1; simpl. rewrite He, H2. simpl. constructor; auto.
    exists [i], v, x. repeat split; auto. unfold get_inds; simpl. unfold dget_err. now rewrite Hq.
Qed.
Lemma channel_noise2 (m : model) (e : gname) (p : string) qs is qp ip js :
  is_noise e = true -> is_two e = true -> get_inds m qs = Ok is ->
  grouper2 qs = Ok qp -> grouper2 is = Ok ip ->
  Forall2 (fun qi j => chan2 m e p (fst qi) (snd qi) = Ok j) (combine qp ip) js ->
  Forall2 (fun q a => channel_for m e p q a) (pairs_of qs) (flat_map instr_noise js).
Proof.
  intros He H2 Hi Hqp Hip. apply get_inds_F2 in Hi.
  assert (Hgen : forall n qs is qp ip js, (length qs <= n)%nat ->
     Forall2 (fun q i => dget q (inds m) = Some i) qs is ->
     grouper2 qs = Ok qp -> grouper2 is = Ok ip ->
     Forall2 (fun qi j => chan2 m e p (fst qi) (snd qi) = Ok j) (combine qp ip) js ->
     Forall2 (fun q a => channel_for m e p q a) (pairs_of qs) (flat_map instr_noise js)).
  { clear qs is qp ip js Hi Hqp Hip.
    induction n as [|n IH]; intros qs is qp ip js Hn Hi Hqp Hip F.
    - destruct qs; simpl in Hn; [|lia]. injection Hqp as <-. inversion F; subst. constructor.
    - destruct qs as [|q [|q' qs]]; [injection Hqp as <-; inversion F; subst; constructor|discriminate|].
      inversion Hi as [|? i ? is1 Hq Hi1]; subst. inversion Hi1 as [|? i' ? is2 Hq' Hi2]; subst.
      simpl in Hqp, Hip. dbind Hqp. dbind Hip. injection Hqp as <-. injection Hip as <-.
      simpl in F. inversion F as [|? j ? js' Hj F']; subst. simpl in Hj.
      apply chan2_shape in Hj as (v & x & Hv & Hx & -> & _).
      simpl. unfold instr_noise at 1; simpl. rewrite He, H2. simpl. constructor.
      + exists [i; i'], v, x. repeat split; auto.
        unfold get_inds; simpl. unfold dget_err. now rewrite Hq, Hq'.
      + eapply IH; eauto. simpl in Hn. lia. }
  eauto.
Qed.

Lemma C18_lemma1 m o qs m' c g p :
  kind m = Circ -> apply o qs m = (m', Ok c) -> channel1 o = Some (g, p) ->
  Forall2 (fun q a => channel_for m g p [q] a) qs (noise_of c).
Proof.
  intros K H Hc. unfold apply in H. rewrite K in H.
  destruct o; try discriminate Hc; injection Hc as <- <-;
  first
  [ injection H as <- H; first
    [ apply gate1_shape in H; [|reflexivity|apply chan1_noisy; reflexivity];
      destruct H as (is & js & Hi & F & N & B); rewrite (built_noise _ _ B); simpl;
      eapply channel_noise; eauto
    | apply idle1_shape in H; [|apply chan1_noisy; reflexivity];
      destruct H as (is & js & Hi & F & N & B); rewrite (built_noise _ _ B); simpl;
      eapply channel_noise; eauto ]
  | apply measure1_shape in H; [|reflexivity..];
    destruct H as (is & jn & jm & Hi & Ha & F & N & F2 & B); rewrite (built_noise _ _ B);
    apply (meas_of_meas _ (fun i => i)) in F2; [|reflexivity];
    destruct F2 as (_ & _ & F3); rewrite flat_map_app, F3, app_nil_r;
    eapply channel_noise; eauto ].
Qed.
Lemma C18_lemma2 m o qs m' c g p :
  kind m = Circ -> apply o qs m = (m', Ok c) -> channel2 o = Some (g, p) ->
  Forall2 (fun q a => channel_for m g p q a) (pairs_of qs) (noise_of c).
Proof.
  intros K H Hc. unfold apply in H. rewrite K in H.
  destruct o; try discriminate Hc; injection Hc as <- <-; injection H as <- H;
    (apply gate2_shape in H; [|reflexivity|apply chan2_noisy; reflexivity];
     destruct H as (is & qp & ip & js & Hi & Hq & Hp & F & N & B & _); rewrite (built_noise _ _ B); simpl;
     eapply channel_noise2; eauto).
Qed.
Lemma C18_lemma0 m o qs m' c :
  kind m = Circ -> apply o qs m = (m', Ok c) -> channel1 o = None -> channel2 o = None -> noise_of c = [].
Proof.
  intros K H H1 H2. unfold apply in H. rewrite K in H.
  destruct o; try discriminate; injection H as <- H; try discriminate H. now subst.
Qed.

(** * C49 *)
Lemma get_inds_unknown m qs : (exists q, In q qs /\ dmem q (inds m) = false) -> get_inds m qs = Err KeyError.
Proof.
  intros [q [Hq Hm]]. unfold get_inds. induction qs as [|q' qs IH]; [destruct Hq|]. simpl.
  destruct (dget q' (inds m)) as [i|] eqn:E; unfold dget_err at 1; rewrite E; simpl; [|reflexivity].
  destruct Hq as [->|Hq]; [unfold dmem in Hm; now rewrite E in Hm|].
  rewrite IH by auto. reflexivity.
Qed.
Lemma C49_lemma m o qs m' r :
  apply o qs m = (m', r) ->
  (measuring o = false -> m' = m) /\
  (measuring o = true -> kind m = Circ \/ kind m = Biased \/ kind m = Exper \/ kind m = Phenom ->
   (exists q, In q qs /\ dmem q (inds m) = false) -> m' = m /\ r = Err KeyError).
Proof.
  unfold apply. intros H. split.
  - intros Hm. destruct (kind m), o; try discriminate Hm; now injection H as <- _.
  - intros Hm Hk Hq. apply get_inds_unknown in Hq.
    assert (G : forall e g, measure1 e g qs m = (m, Err KeyError))
      by (intros; unfold measure1, sbind, sread; now rewrite Hq).
    destruct (kind m); try (intuition discriminate);
      destruct o; try discriminate Hm; rewrite G in H; injection H as <- <-; auto.
Qed.
Lemma C02_new_circuit m q k t : meas_target (new_circuit m) q k <> Ok t.
Proof.
  intros H. unfold meas_target, dget_err, new_circuit in H; simpl in H.
  destruct (dget q (map (fun kv => (fst kv, [])) (inds m))) as [l|] eqn:E; [|discriminate].
  apply dget_In, in_map_iff in E as [kv [[= _ <-] _]]. cbn [of_opt bind length] in H.
  destruct ((Z.of_nat 0 <? k) || (k <? - Z.of_nat 0)); [discriminate|].
  destruct (py_nth_range (@nil Z) k) as [[E _]|[_ E]]; [simpl in E; lia|].
  rewrite E in H. discriminate.
Qed.
