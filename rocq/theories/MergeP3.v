(** Proofs about the record of merged rounds (C44) and about the operations on one qubit (C64). *)
From Coq Require Import QArith Qcanon.
From Verif Require Import Base Lib StimM SetupM NoiseM SpecNoise NoiseP DetM LayoutM BlockM ExpM SpecTrack SpecExp TrackP LiftP ExpP ExpP13
  MergeM SpecMerge MergeP MergeP2.
Open Scope Z_scope.

(** * Names of a measuring block with uniform parameters *)
Definition ends_in (c : circuit) (g : gname) (a : list arg) : Prop := exists c0 t, c = c0 ++ [Instr g t a].
Definition ends_not (c : circuit) (g : gname) : Prop := forall c0 i, c = c0 ++ [i] -> nm i <> g.
Lemma append_last c0 j i : append (c0 ++ [j]) i =
  c0 ++ if eqb (nm i) (nm j) && eqb (ar i) (ar j) && negb (not_fusable (nm i)) then [Instr (nm j) (tg j ++ tg i) (ar j)] else [j; i].
Proof.
  induction c0 as [|x c0 IH]; [reflexivity|]. cbn [app]. destruct c0 as [|y c0].
  - cbn [app append] in *. reflexivity.
  - cbn [app]. cbn [app] in IH. rewrite <- IH. reflexivity.
Qed.
Lemma append_new c i : ends_not c (nm i) -> append c i = c ++ [i].
Proof.
  destruct c as [|x c] using rev_ind; intros E; [reflexivity|]. rewrite append_last. destruct (eqb_spec (nm i) (nm x)) as [H|].
  - exfalso. now apply (E c x).
  - cbn [andb]. now rewrite <- app_assoc.
Qed.
Lemma append_same c g t a i : nm i = g -> ar i = a -> not_fusable g = false -> append (c ++ [Instr g t a]) i = c ++ [Instr g (t ++ tg i) a].
Proof. intros E1 E2 F. rewrite append_last. cbn [nm ar tg]. rewrite E1, E2, !eqb_refl, F. reflexivity. Qed.
Lemma names_app a b : names (a ++ b) = names a ++ names b.
Proof. apply map_app. Qed.
(* a loop that appends instructions of one kind *)
Lemma grow_names {A} (l : list A) (g : gname) a : not_fusable g = false -> forall js c, Forall (fun j => nm j = g /\ ar j = a) js ->
  ends_not c g -> names (appends c js) = names c ++ match js with [] => [] | _ => [g] end.
Proof.
  intros F js c H E. destruct js as [|j js]; [now rewrite app_nil_r|]. inversion H as [|? ? [E1 E2] H']; subst. unfold appends. cbn [fold_left].
  rewrite append_new by exact E.
  assert (G : forall t, names (fold_left append js (c ++ [Instr (nm j) t (ar j)])) = names c ++ [nm j]).
  { clear E. induction js as [|k js IH]; intros t; cbn [fold_left]; [now rewrite names_app|]. inversion H' as [|? ? [K1 K2] H'']; subst.
    rewrite append_same by assumption. apply IH; [|exact H'']. constructor; [split; reflexivity|exact H'']. }
  destruct j as [gj tj aj]. apply G.
Qed.
Lemma foldM_appends {A} (f : A -> res instr) l : forall c c', foldM (fun c x => do i <- f x; Ok (append c i)) l c = Ok c' ->
  exists js, Forall2 (fun x j => f x = Ok j) l js /\ c' = appends c js.
Proof.
  induction l as [|x l IH]; intros c c' H; cbn in H.
  - injection H as <-. exists []. split; [constructor|reflexivity].
  - apply bind_ok in H as (c1 & E & H). apply bind_ok in E as (i & Ei & E). injection E as <-.
    destruct (IH _ _ H) as (js & F & ->). exists (i :: js). split; [now constructor|reflexivity].
Qed.
Definition onekind (f : string -> Z -> res instr) (g : gname) : Prop := exists a, forall q i j, f q i = Ok j -> nm j = g /\ ar j = a.
Lemma mparam_uniform m p q : uniform (stp m) -> mparam m p [q] = mparam m p [""%string].
Proof. intros U. apply U. Qed.
Lemma chan1_onekind m g p : uniform (stp m) -> onekind (chan1 m g p) g.
Proof.
  intros U. unfold onekind, chan1. destruct (mparam m p [""%string]) as [v|e] eqn:E; [destruct (as_num v) as [x|e] eqn:E2|].
  - exists [ANum x]. intros q i j H. rewrite (mparam_uniform m p q U), E in H. cbn in H. rewrite E2 in H. apply mk_ok in H as [-> _]. now split.
  - exists []. intros q i j H. rewrite (mparam_uniform m p q U), E in H. cbn in H. rewrite E2 in H. discriminate.
  - exists []. intros q i j H. rewrite (mparam_uniform m p q U), E in H. discriminate.
Qed.
Lemma bchan1_onekind m p : uniform (stp m) -> onekind (bchan1 m p) PAULI_CHANNEL_1.
Proof.
  intros U. unfold onekind, bchan1. assert (B : forall q, biased_probs m p [q] 1 = biased_probs m p [""%string] 1).
  { intros q. unfold biased_probs. now rewrite !(mparam_uniform m _ q U). }
  destruct (biased_probs m p [""%string] 1) as [a|e] eqn:E.
  - exists a. intros q i j H. rewrite B in H. apply mk_ok in H as [-> _]. now split.
  - exists []. intros q i j H. rewrite B in H. discriminate.
Qed.
Lemma meas_onekind m g : uniform (stp m) -> onekind (meas_instr m g) g.
Proof.
  intros U. unfold onekind, meas_instr. destruct (mparam m "assign_error_flag" [""%string]) as [v|e] eqn:E.
  2: { exists []. intros q i j H. rewrite (mparam_uniform m _ q U), E in H. discriminate. }
  destruct (truthy v) eqn:T.
  - destruct (chan1_onekind m g "assign_error_prob" U) as [a A]. exists a. intros q i j H.
    rewrite (mparam_uniform m "assign_error_flag" q U), E in H. cbn in H. rewrite T in H. now apply A in H.
  - exists []. intros q i j H. rewrite (mparam_uniform m "assign_error_flag" q U), E in H. cbn in H. rewrite T in H. apply mk_ok in H as [-> _]. now split.
Qed.
(* [appends c js] for a list of instructions of one kind, one per element of [l] *)
Definition opt_name {A} (l : list A) (g : gname) : list gname := match l with [] => [] | _ => [g] end.
Lemma onekind_names {A} f g (l : list A) (x : A -> string * Z) js c : onekind f g -> not_fusable g = false -> ends_not c g ->
  Forall2 (fun y j => f (fst (x y)) (snd (x y)) = Ok j) l js -> names (appends c js) = names c ++ opt_name l g.
Proof.
  intros [a K] F E H. rewrite (grow_names l g a F js c); [|clear E; induction H; constructor; eauto|exact E]. destruct H; reflexivity.
Qed.
Lemma ends_nil g : ends_not [] g.
Proof. intros c0 i H. now destruct c0. Qed.
Lemma ends_names c g : (forall l g', names c = l ++ [g'] -> g' <> g) -> ends_not c g.
Proof. intros H c0 i ->. eapply H. unfold names. rewrite map_app. reflexivity. Qed.
Lemma combine_len {A B} (l : list A) (r : list B) : length l = length r -> opt_name (combine l r) = opt_name l.
Proof. destruct l, r; try discriminate; reflexivity. Qed.
Lemma get_inds_len m qs is : get_inds m qs = Ok is -> length qs = length is.
Proof. unfold get_inds. intros H. apply mapM_Forall2 in H. induction H; cbn; congruence. Qed.

Lemma same_add m m' q r : add_meas q m = (m', Ok r) -> same_model m m'.
Proof. unfold add_meas. destruct (negb _); [discriminate|]. destruct (dget q (order m)); [|discriminate]. intros [= <- _]. now repeat split. Qed.
Lemma same_trans a b c : same_model a b -> same_model b c -> same_model a c.
Proof. unfold same_model. intuition congruence. Qed.
Lemma same_sym a b : same_model a b -> same_model b a.
Proof. unfold same_model. intuition congruence. Qed.
Lemma same_get_inds m m' qs : same_model m m' -> get_inds m qs = get_inds m' qs.
Proof. intros (_ & _ & E). unfold get_inds. now rewrite E. Qed.
Lemma same_meas m m' g q i : same_model m m' -> meas_instr m g q i = meas_instr m' g q i.
Proof. intros (_ & E & _). unfold meas_instr, mparam. now rewrite E. Qed.

(* the loop over the measured qubits *)
Lemma meas_loop {A} (lab : A -> string) (F : model -> A -> res instr) l : (forall m m' x, same_model m m' -> F m x = F m' x) ->
  forall m0 m c m' c', same_model m0 m ->
  sfold (fun c x => sdo _ <- add_meas (lab x); sdo i <- sread (fun m => F m x); sret (append c i)) l c m = (m', Ok c') ->
  same_model m0 m' /\ exists js, Forall2 (fun x j => F m0 x = Ok j) l js /\ c' = appends c js.
Proof.
  intros HF m0. induction l as [|x l IH]; intros m c m' c' S H; cbn [sfold] in H.
  - apply sret_ok in H as [-> <-]. split; [exact S|]. exists []. split; [constructor|reflexivity].
  - apply sbind_ok in H as (m1 & c1 & H1 & H). apply sbind_ok in H1 as (m2 & u & Ha & H1). apply sbind_ok in H1 as (m3 & i & Hi & H1).
    apply sread_ok in Hi as [-> Hi]. apply sret_ok in H1 as [-> <-].
    pose proof (same_trans _ _ _ S (same_add _ _ _ _ Ha)) as S2.
    destruct (IH _ _ _ _ S2 H) as [S3 (js & Fj & ->)]. split; [exact S3|]. exists (i :: js). split; [|reflexivity].
    constructor; [|exact Fj]. now rewrite (HF _ _ _ S2).
Qed.

Lemma measure1_names e g qs m m' c : uniform (stp m) -> not_fusable e = false -> not_fusable g = false -> e <> g ->
  measure1 e g qs m = (m', Ok c) -> same_model m m' /\ names c = opt_name qs e ++ opt_name qs g.
Proof.
  intros U Fe Fg D H. unfold measure1 in H. apply sbind_ok in H as (m1 & is & H1 & H). apply sread_ok in H1 as [-> Hi].
  apply sbind_ok in H as (m1 & c1 & H1 & H). apply sread_ok in H1 as [-> H1].
  apply (meas_loop fst (fun m x => meas_instr m g (fst x) (snd x)) _ (fun m m' x => same_meas m m' g (fst x) (snd x)) m) in H; [|apply same_refl].
  destruct H as [S (js & Fj & ->)]. split; [exact S|].
  unfold chans in H1. apply (foldM_appends (fun qi => chan1 m e "meas_error_prob" (fst qi) (snd qi))) in H1 as (ks & Fk & ->).
  pose proof (onekind_names _ e _ (fun x => x) ks [] (chan1_onekind m e _ U) Fe (ends_nil _) Fk) as N1.
  cbn [names map app] in N1. rewrite (combine_len _ _ (get_inds_len _ _ _ Hi)) in N1.
  rewrite (onekind_names _ g _ (fun x => x) js _ (meas_onekind m g U) Fg (ends_names _ _ ltac:(intros l g' E; rewrite N1 in E; destruct qs;
    [now destruct l|destruct l as [|? [|? ?]]; [injection E as <-; exact D|discriminate|discriminate]])) Fj).
  now rewrite N1, (combine_len _ _ (get_inds_len _ _ _ Hi)).
Qed.
Lemma measure0_names g qs m m' c : not_fusable g = false -> measure0 g qs m = (m', Ok c) -> same_model m m' /\ names c = opt_name qs g.
Proof.
  intros F H. unfold measure0 in H.
  apply (meas_loop (fun q => q) (fun m q => do is <- get_inds m [q]; mk g (map TQ is) [])) with (m0 := m) in H; [| |apply same_refl].
  - destruct H as [S (js & Fj & ->)]. split; [exact S|].
    rewrite (grow_names qs g [] F js []); [|clear - Fj; induction Fj as [|q j l js H]; constructor; [|assumption]|apply ends_nil].
    + destruct Fj; reflexivity.
    + apply bind_ok in H as (is & _ & H). apply mk_ok in H as [-> _]. now split.
  - intros a b x E. now rewrite (same_get_inds _ _ _ E).
Qed.
Lemma idle1_names m f g qs c : onekind f g -> not_fusable g = false -> idle1 m f qs = Ok c -> names c = opt_name qs g.
Proof.
  intros K F H. unfold idle1 in H. apply bind_ok in H as (is & Hi & H). unfold chans in H.
  apply (foldM_appends (fun qi => f (fst qi) (snd qi))) in H as (ks & Fk & ->).
  rewrite (onekind_names _ g _ (fun x => x) ks [] K F (ends_nil _) Fk). now rewrite (combine_len _ _ (get_inds_len _ _ _ Hi)).
Qed.
Lemma gate0_names m g qs c : gate0 m g qs = Ok c -> names c = [g].
Proof. unfold gate0. intros H. apply bind_ok in H as (is & _ & H). apply bind_ok in H as (i & E & H). apply mk_ok in E as [-> _]. now injection H as <-. Qed.

Definition readout_table (k : mkind) : list (list gname) :=
  match k with
  | Circ => [[]; [DEPOLARIZE1]; [X_ERROR; GM]; [X_ERROR; GM; DEPOLARIZE1]]
  | Biased => [[]; [PAULI_CHANNEL_1]; [X_ERROR; GM]; [X_ERROR; GM; PAULI_CHANNEL_1]]
  | Noiseless | Incoming => [[GI]; [GM; GI]]
  | Phenom => [[GI]; [X_ERROR; GM; GI]]
  | Decoh _ | Exper => []
  end.
Lemma readout_names m b m' c : uniform (stp m) -> readout_calls b -> run_block b m = (m', Ok c) -> In (names c) (readout_table (kind m)).
Proof.
  intros U (a & d & ->) H. cbn [run_block] in H. apply sbind_ok in H as (m1 & c1 & H1 & H). apply sbind_ok in H as (m2 & y & H2 & H).
  apply sret_ok in H as [-> <-]. apply sbind_ok in H2 as (m3 & c2 & H2 & H). apply sbind_ok in H as (m4 & z & H & H3). apply sret_ok in H as [-> <-].
  apply sret_ok in H3 as [-> <-]. rewrite app_nil_r. cbn [run_call] in H1, H2. rewrite names_app.
  pose proof (apply_static _ _ _ _ _ H1) as (S0 & _ & _).
  assert (S1 : kind m1 = kind m) by congruence. clear S0. unfold apply in H1, H2. rewrite S1 in H2.
  destruct (kind m) eqn:K.
  1,2,7: apply measure1_names in H1; [|exact U|reflexivity|reflexivity|discriminate]; destruct H1 as [S ->];
         pose proof S as (K1 & K2 & _); apply pair_ok in H2 as [_ H2]; cbn in H2;
         rewrite K2 in U.
  - apply (idle1_names _ _ DEPOLARIZE1) in H2; [|now apply chan1_onekind|reflexivity]. rewrite H2. destruct a, d; cbn; auto 6.
  - apply (idle1_names _ _ PAULI_CHANNEL_1) in H2; [|now apply bchan1_onekind|reflexivity]. rewrite H2. destruct a, d; cbn; auto 6.
  - apply gate0_names in H2. rewrite H2. destruct a; cbn; auto.
  -  apply pair_ok in H2 as [_ H2]. discriminate.
  - apply pair_ok in H2 as [_ H2]. discriminate.
  - apply measure0_names in H1; [|reflexivity]. destruct H1 as [_ ->]. apply pair_ok in H2 as [_ H2].
    apply gate0_names in H2. rewrite H2. destruct a; cbn; auto.
  - apply measure0_names in H1; [|reflexivity]. destruct H1 as [_ ->]. apply pair_ok in H2 as [_ H2].
    apply gate0_names in H2. rewrite H2. destruct a; cbn; auto.
Qed.

(* the table tells the blocks apart by their length *)
Lemma table_inj k a b : In a (readout_table k) -> In b (readout_table k) -> length a = length b -> a = b.
Proof. destruct k; cbn; intros A B L; repeat (destruct A as [<-|A]; [repeat (destruct B as [<-|B]; [first [reflexivity|discriminate L]|]); contradiction|]); contradiction. Qed.
Lemma table_meas k a : In a (readout_table k) -> (length (filter is_meas a) <= 1)%nat.
Proof. destruct k; cbn; intros A; repeat (destruct A as [<-|A]; [cbn; lia|]); contradiction. Qed.
(* instructions of different names are not fused *)
Lemma appends_distinct l : forall c, NoDup (names (c ++ l)) -> appends c l = c ++ l.
Proof.
  induction l as [|i l IH]; intros c N; [now rewrite app_nil_r|]. unfold appends. cbn [fold_left]. rewrite append_new.
  - fold (appends (c ++ [i]) l). rewrite IH; rewrite <- app_assoc; [reflexivity|exact N].
  - intros c0 j -> E. rewrite !names_app in N. cbn [names map] in N. rewrite <- app_assoc in N. apply NoDup_remove_2 in N. apply N. rewrite E.
    apply in_or_app. right. now left.
Qed.
Lemma table_nodup k a : In a (readout_table k) -> NoDup a.
Proof.
  destruct k; cbn; intros A; repeat (destruct A as [<-|A]; [repeat constructor; cbn; intuition discriminate|]); contradiction.
Qed.
Lemma cat_table fuse k c : In (names c) (readout_table k) -> cat fuse [] c = c.
Proof. intros H. unfold cat. destruct fuse; [|reflexivity]. apply (appends_distinct c []). cbn [app]. eapply table_nodup; eauto. Qed.

(** * One step of the generators *)
Inductive ran : model -> list block -> model -> list circuit -> Prop :=
| ran_nil m : ran m [] m []
| ran_cons m b bs m1 c m2 cs : run_block b m = (m1, Ok c) -> ran m1 bs m2 cs -> ran m (b :: bs) m2 (c :: cs).
Lemma zip_next_inv fuse its : forall m m' x, zip_next fuse its m = (m', Ok x) ->
  exists bs raw m1, ran m bs m1 raw /\
    match x with
    | Some (cs, rs) => m1 = m' /\ cs = map (cat fuse []) raw /\ its = map (fun p => Ok (fst p) :: snd p) (combine bs rs) /\ length bs = length rs
    | None => m1 = m' /\ exists pre rest, its = pre ++ [] :: rest /\ Forall2 (fun b it => exists r, it = Ok b :: r) bs pre
    end.
Proof.
  induction its as [|it its IH]; intros m m' x H; cbn in H.
  - apply sret_ok in H as [-> <-]. exists [], [], m. repeat split; constructor.
  - destruct it as [|b r].
    + apply sret_ok in H as [-> <-]. exists [], [], m. split; [constructor|]. split; [reflexivity|]. exists [], its. split; [reflexivity|constructor].
    + apply sbind_ok in H as (mm & b1 & H1 & H). unfold slift in H1. injection H1 as <- ->.
      apply sbind_ok in H as (m2 & c & H2 & H). apply sbind_ok in H as (m3 & y & H3 & H). apply sret_ok in H as [-> <-].
      apply IH in H3 as (bs & raw & m1 & R & D). exists (b1 :: bs), (c :: raw), m1. split; [econstructor; eauto|].
      destruct y as [[cs rs]|].
      * destruct D as (-> & -> & -> & L). repeat split; cbn; congruence.
      * destruct D as (-> & pre & rest & -> & F). split; [reflexivity|]. exists ((Ok b1 :: r) :: pre), rest. split; [reflexivity|]. constructor; eauto.
Qed.
Lemma block_static b : forall m m' c, run_block b m = (m', Ok c) -> same_model m m'.
Proof.
  induction b as [|x b IH]; intros m m' c H; cbn in H.
  - apply sret_ok in H as [-> _]. apply same_refl.
  - apply sbind_ok in H as (m1 & c1 & H1 & H). apply sbind_ok in H as (m2 & c2 & H2 & H). apply sret_ok in H as [-> _].
    apply IH in H2. refine (same_trans _ _ _ _ H2). destruct x as [o qs|]; cbn in H1.
    + apply apply_static in H1 as (A & B & C). now repeat split.
    + apply sret_ok in H1 as [-> _]. apply same_refl.
Qed.
Lemma block_inv b : forall m m' c rec, wf_inds (inds m) -> Inv m rec -> run_block b m = (m', Ok c) -> Inv m' (rec ++ measured c).
Proof.
  induction b as [|x b IH]; intros m m' c rec W I H; cbn in H.
  - apply sret_ok in H as [-> <-]. now rewrite app_nil_r.
  - apply sbind_ok in H as (m1 & c1 & H1 & H). apply sbind_ok in H as (m2 & c2 & H2 & H). apply sret_ok in H as [-> <-].
    rewrite measured_app', app_assoc. destruct x as [o qs|]; cbn in H1.
    2: { apply sret_ok in H1 as [-> <-]. cbn. rewrite app_nil_r. eauto. }
    + pose proof (apply_static _ _ _ _ _ H1) as (_ & _ & E). eapply IH; [|eapply apply_inv; eauto|exact H2]. now rewrite <- E || now rewrite E.
Qed.
Lemma ran_inv m bs m' raw : ran m bs m' raw -> same_model m m' /\ forall rec, wf_inds (inds m) -> Inv m rec -> Inv m' (rec ++ flat_map measured raw).
Proof.
  induction 1 as [m|m b bs m1 c m2 cs H R [S IH]]; [split; [apply same_refl|]; intros; cbn; now rewrite app_nil_r|].
  pose proof (block_static _ _ _ _ H) as S1. split; [eapply same_trans; eauto|]. intros rec W I. cbn. rewrite app_assoc. apply IH.
  - destruct S1 as (_ & _ & <-). exact W.
  - eapply block_inv; eauto.
Qed.
Lemma ran_each m bs m' raw : ran m bs m' raw -> Forall2 (fun b c => exists m1 m2, same_model m m1 /\ run_block b m1 = (m2, Ok c)) bs raw.
Proof.
  induction 1 as [m|m b bs m1 c m2 cs H R IH]; constructor.
  - exists m, m1. split; [apply same_refl|exact H].
  - pose proof (block_static _ _ _ _ H) as S. clear - S IH. induction IH as [|x y l r (a & d & S2 & E)]; constructor; [|assumption].
    exists a, d. split; [eapply same_trans; eauto|exact E].
Qed.

Lemma append_names c i g : In g (names (append c i)) -> In g (names c) \/ g = nm i.
Proof.
  destruct (append_app c i) as [->|(c'&j&->&H2&H3&H4&->)]; rewrite !names_app; cbn [names map nm]; intros H; apply in_app_or in H as [H|[<-|[]]]; auto.
  - left. apply in_or_app. now left.
Qed.
Lemma cat_names fuse a b g : In g (names (cat fuse a b)) -> In g (names a) \/ In g (names b).
Proof.
  unfold cat. destruct fuse; [|rewrite names_app; apply in_app_or]. revert a. induction b as [|i b IH]; intros a H; [now left|].
  unfold appends in H. cbn [fold_left] in H. destruct (IH _ H) as [K|K]; [|right; now right]. apply append_names in K as [K| ->]; [now left|right; now left].
Qed.
Lemma fold_cat_names fuse l g : forall acc, In g (names (fold_left (cat fuse) l acc)) -> In g (names acc) \/ exists b, In b l /\ In g (names b).
Proof.
  induction l as [|b l IH]; intros acc H; cbn in H; [now left|]. destruct (IH _ H) as [K|(b' & B & K)].
  - apply cat_names in K as [K|K]; [now left|]. right. exists b. split; [now left|exact K].
  - right. exists b'. split; [now right|exact K].
Qed.
Lemma merge_tick_names fuse bs c g : merge_tick_blocks fuse bs = Ok c -> In g (names c) -> exists b, In b bs /\ In g (names b).
Proof.
  intros H K. destruct (merge_tick_inv _ _ _ H) as (n & Ne & Len & ->). apply fold_cat_names in K as [[]|(b & B & K)].
  unfold slices in B. apply in_flat_map in B as (t & _ & B). apply in_map_iff in B as (b' & <- & B). exists b'. split.
  - now apply (Permutation_in _ (group_perm bs)).
  - unfold names in *. apply in_map_iff in K as (i & <- & K). apply in_map. now apply (slice_incl t).
Qed.
Lemma merge_tick_quiet fuse bs c : merge_tick_blocks fuse bs = Ok c -> (forall b, In b bs -> measured b = []) -> measured c = [].
Proof.
  intros H K. destruct (merge_tick_inv _ _ _ H) as (n & Ne & Len & ->). rewrite fold_cat_measured. cbn. apply flat_map_nil'. intros s B.
  unfold slices in B. apply in_flat_map in B as (t & _ & B). apply in_map_iff in B as (b' & <- & B).
  specialize (K b' (Permutation_in _ (group_perm bs) B)). unfold measured in *. apply flat_map_nil'. intros i Hi. apply slice_incl in Hi.
  destruct (instr_meas i) as [|x l] eqn:E; [reflexivity|]. assert (In x []) as []. rewrite <- K. apply in_flat_map. exists i. rewrite E. split; [exact Hi|now left].
Qed.
Lemma quiet_block b : forall m m' c, quiet_calls b -> run_block b m = (m', Ok c) -> measured c = [].
Proof.
  induction b as [|x b IH]; intros m m' c Q H; cbn in H; inversion Q as [|? ? Qx Qb]; subst.
  - now apply sret_ok in H as [-> <-].
  - apply sbind_ok in H as (m1 & c1 & H1 & H). apply sbind_ok in H as (m2 & c2 & H2 & H). apply sret_ok in H as [-> <-].
    rewrite measured_app', (IH _ _ _ Qb H2), app_nil_r. destruct x as [o qs|]; [|destruct Qx]. cbn in H1.
    apply apply_char in H1 as [H1 [js [B G]]]. rewrite (built_measured _ _ B). assert (M : measuring o = false) by (cbn in Qx; destruct o; try reflexivity; contradiction).
    destruct (gate_of (kind m) o) as [g|] eqn:Eg; [|now destruct G as [_ ->]].
    destruct G as (is & _ & _ & _ & ->). unfold instr_meas; cbn [nm tg].
    assert (is_meas g = false) as ->; [|reflexivity]. destruct o, (kind m); cbn in Eg; try discriminate Eg; injection Eg as <-; try reflexivity; discriminate M.
Qed.
Lemma tick_or fuse acc c : measured (add_step fuse acc c) = measured acc ++ measured c \/ exists r, names c = TICK :: r /\ measured (add_step fuse acc c) = measured acc.
Proof.
  destruct c as [|i c]; cbn [add_step]; [left; apply cat_measured|]. destruct (eqb_spec (nm i) TICK) as [E|]; [|left; apply cat_measured].
  right. exists (names c). split; [cbn; now rewrite E|]. rewrite measured_append'. unfold instr_meas. rewrite E. now rewrite app_nil_r.
Qed.
Lemma table_tick k a : In a (readout_table k) -> ~ In TICK a.
Proof. destruct k; cbn; intros A B; repeat (destruct A as [<-|A]; [cbn in B; intuition discriminate|]); contradiction. Qed.
(* the three kinds of steps *)
Definition step_kind (bs : list block) : Prop :=
  (forall b, In b bs -> b = [CTick]) \/ (forall b, In b bs -> quiet_calls b) \/ (forall b, In b bs -> readout_calls b).
Lemma step_measured fuse m bs m' raw c acc : uniform (stp m) -> ran m bs m' raw -> step_kind bs ->
  merge_tick_blocks fuse (map (cat fuse []) raw) = Ok c -> measured (add_step fuse acc c) = measured acc ++ flat_map measured raw.
Proof.
  intros U R K H. pose proof (ran_each _ _ _ _ R) as E.
  assert (Q : (forall x, In x raw -> measured x = []) -> measured (add_step fuse acc c) = measured acc ++ flat_map measured raw).
  { intros Z. rewrite (flat_map_nil' measured raw Z), app_nil_r. assert (measured c = []) as M.
    { apply (merge_tick_quiet _ _ _ H). intros b B. apply in_map_iff in B as (x & <- & B). rewrite cat_measured. cbn. now apply Z. }
    destruct (tick_or fuse acc c) as [-> |(r & _ & ->)]; [rewrite M; apply app_nil_r|reflexivity]. }
  assert (L : forall x, In x raw -> exists b m1 m2, In b bs /\ same_model m m1 /\ run_block b m1 = (m2, Ok x)).
  { clear - E. induction E as [|b x bs raw (m1 & m2 & S & B) E IH]; intros y []; [subst; exists b, m1, m2; repeat split; try apply S; [now left|exact B]|].
    destruct (IH y H) as (b' & a & d & I & J). exists b', a, d. split; [now right|exact J]. }
  destruct K as [K|[K|K]].
  - apply Q. intros x Hx. destruct (L x Hx) as (b & m1 & m2 & B & _ & B2). rewrite (K b B) in B2. cbn in B2. now injection B2 as _ <-.
  - apply Q. intros x Hx. destruct (L x Hx) as (b & m1 & m2 & B & _ & B2). eapply quiet_block; eauto.
  - assert (T : forall x, In x raw -> In (names x) (readout_table (kind m))).
    { intros x Hx. destruct (L x Hx) as (b & m1 & m2 & B & (S1 & S2 & _) & B2). rewrite S1. eapply readout_names; eauto. now rewrite <- S2. }
    assert (C : map (cat fuse []) raw = raw).
    { rewrite <- map_id. apply map_ext_in. intros x Hx. eapply cat_table; eauto. }
    rewrite C in H. destruct (merge_tick_inv _ _ _ H) as (n & Ne & Len & _). destruct raw as [|x0 raw']; [contradiction|].
    assert (N : forall b, In b (x0 :: raw') -> names b = names x0).
    { intros b B. apply (table_inj (kind m)); [now apply T|apply T; now left|]. unfold names. rewrite !map_length, (Len b B). symmetry. apply Len. now left. }
    rewrite <- (merge_tick_measured fuse _ _ _ H N (table_meas (kind m) _ (T x0 (or_introl eq_refl)))).
    destruct (tick_or fuse acc c) as [-> |(r & Nc & _)]; [reflexivity|]. exfalso.
    destruct (merge_tick_names fuse _ c TICK H ltac:(rewrite Nc; now left)) as (b & B & G). exact (table_tick _ _ (T b B) G).
Qed.

(** * The loop *)
Lemma lockstep_next bs rs : length bs = length rs -> lockstep (map (fun p => Ok (fst p) :: snd p) (combine bs rs)) -> step_kind bs /\ lockstep rs.
Proof.
  intros L (n & Ln & K).
  assert (I : forall b, In b bs -> exists r, In (Ok b :: r) (map (fun p => Ok (fst p) :: snd p) (combine bs rs))).
  { clear - L. revert rs L. induction bs as [|b bs IH]; intros [|r rs] L x Hx; try discriminate L; cbn in Hx; try contradiction; destruct Hx as [<-|Hx].
    - exists r. now left.
    - injection L as L. destruct (IH rs L x Hx) as (r' & I). exists r'. now right. }
  assert (J : forall r, In r rs -> exists b, In (Ok b :: r) (map (fun p => Ok (fst p) :: snd p) (combine bs rs))).
  { clear - L. revert rs L. induction bs as [|b bs IH]; intros [|r rs] L x Hx; try discriminate L; cbn in Hx; try contradiction; destruct Hx as [<-|Hx].
    - exists b. now left.
    - injection L as L. destruct (IH rs L x Hx) as (r' & I). exists r'. now right. }
  split.
  - destruct (K O) as [H|[H|H]]; [left|right; left|right; right]; intros b Hb; destruct (I b Hb) as (r & Hr); exact (H _ b Hr eq_refl).
  - exists (pred n). split.
    + apply Forall_forall. intros r Hr. destruct (J r Hr) as (b & Hb). rewrite Forall_forall in Ln. specialize (Ln _ Hb). cbn in Ln. lia.
    + intros j. destruct (K (S j)) as [H|[H|H]]; [left|right; left|right; right]; intros r b Hr Hn; destruct (J r Hr) as (b' & Hb'); exact (H _ b Hb' Hn).
Qed.
Lemma zip_loop_inv fuse n : forall its acc m m' c, uniform (stp m) -> lockstep its -> wf_inds (inds m) -> zip_loop fuse n its acc m = (m', Ok c) ->
  same_model m m' /\ forall rec, Inv m (rec ++ measured acc) -> Inv m' (rec ++ measured c).
Proof.
  induction n as [|n IH]; intros its acc m m' c U K W H; cbn [zip_loop] in H.
  - apply sret_ok in H as [-> <-]. split; [apply same_refl|auto].
  - apply sbind_ok in H as (m1 & x & Hz & H). apply zip_next_inv in Hz as (bs & raw & m1' & R & D). destruct x as [[cs rs]|].
    + destruct D as (-> & -> & -> & L). apply lockstep_next in K as [K K']; [|exact L].
      apply sbind_ok in H as (m2 & st & Hm & H). unfold slift in Hm. injection Hm as <- Hm.
      destruct (ran_inv _ _ _ _ R) as [S I]. pose proof S as (S1 & S2 & S3). rewrite S2 in U. rewrite S3 in W.
      destruct (IH _ _ _ _ _ U K' W H) as [S' I']. split; [eapply same_trans; eauto|]. intros rec HI. apply I'.
      rewrite (step_measured fuse m bs m1 raw st acc); [|now rewrite S2|exact R|exact K|exact Hm].
      rewrite app_assoc. apply I; [now rewrite S3|exact HI].
    + destruct D as (-> & pre & rest & -> & F). apply sret_ok in H as [-> <-]. destruct K as (k & Ln & _).
      assert (k = 0)%nat as -> by (apply Forall_app in Ln as [_ Ln]; inversion Ln; subst; reflexivity).
      destruct pre as [|x pre]; [|inversion F as [|? ? ? ? [r ->]]; subst; apply Forall_inv in Ln; discriminate Ln].
      inversion F; subst. inversion R; subst. split; [apply same_refl|auto].
Qed.
Lemma merged_inv fuse its m m' c : uniform (stp m) -> lockstep its -> wf_inds (inds m) -> merged_blocks fuse its m = (m', Ok c) ->
  same_model m m' /\ forall rec, Inv m rec -> Inv m' (rec ++ measured c).
Proof.
  intros U K W H. unfold merged_blocks in H. destruct its as [|i its].
  - apply sret_ok in H as [-> <-]. split; [apply same_refl|]. intros rec. cbn. now rewrite app_nil_r.
  - apply zip_loop_inv in H as [S I]; auto. split; [exact S|]. intros rec HI. apply I. cbn. now rewrite app_nil_r.
Qed.

Lemma zip_loop_static fuse n : forall its acc m m' c, zip_loop fuse n its acc m = (m', Ok c) -> same_model m m'.
Proof.
  induction n as [|n IH]; intros its acc m m' c H; cbn [zip_loop] in H.
  - apply sret_ok in H as [-> _]. apply same_refl.
  - apply sbind_ok in H as (m1 & x & Hz & H). apply zip_next_inv in Hz as (bs & raw & m1' & R & D). apply ran_inv in R as [S _]. destruct x as [[cs rs]|].
    + destruct D as (-> & _). apply sbind_ok in H as (m2 & st & Hm & H). unfold slift in Hm. injection Hm as <- Hm. eapply same_trans; eauto.
    + destruct D as (-> & _). apply sret_ok in H as [-> _]. exact S.
Qed.
Lemma merged_static fuse its m m' c : merged_blocks fuse its m = (m', Ok c) -> same_model m m'.
Proof. destruct its; intros H; [apply sret_ok in H as [-> _]; apply same_refl|eapply zip_loop_static; exact H]. Qed.

(** * C44 *)
Lemma round_inv fuse it ls reset dets w w' c : uniform (stp (fst w)) -> wf_inds (inds (fst w)) ->
  lockstep (map (fun kl => it (fst kl) (snd kl) reset) (enumerate ls)) ->
  merge_qec_rounds fuse it ls reset dets w = (w', Ok c) ->
  same_model (fst w) (fst w') /\ forall rec, Inv (fst w) rec -> Inv (fst w') (rec ++ measured c).
Proof.
  intros U W K H. unfold merge_qec_rounds in H. apply sbind_ok in H as (w1 & ok & H1 & H). unfold slift in H1. injection H1 as <- _.
  destruct (negb ok); [discriminate|]. apply sbind_ok in H as (w2 & c1 & H1 & H). apply onm_ok in H1 as (m2 & H1 & ->).
  apply sbind_ok in H as (w3 & d & H2 & H). apply ond_ok in H2 as (d3 & H2 & ->). apply sret_ok in H as [-> <-]. cbn [fst snd] in *.
  apply merged_inv in H1 as [S I]; auto. split; [exact S|]. intros rec HI. rewrite cat_measured, (measured_ann d), app_nil_r; [now apply I|].
  eapply build_anc_ann; exact H2.
Qed.
Lemma observables_ann lrs m os : all_observables lrs m = Ok os -> annotations os.
Proof.
  unfold all_observables. intros H. apply bind_ok in H as (l & H & E). injection E as <-. apply mapM_Forall2 in H. unfold annotations.
  induction H as [|[k [l0 rb]] o lrs' os' H _ IH]; [constructor|]. cbn. apply Forall_app. split; [|exact IH]. cbn in H. apply mapM_Forall2 in H.
  clear - H. induction H as [|x y l l' H _ IH]; constructor; [|exact IH].
  apply bind_ok in H as (qs & _ & H). apply bind_ok in H as (ts & _ & H). now injection H as <-.
Qed.
Lemma meas_inv fuse it ls rots reset dets w w' c : uniform (stp (fst w)) -> wf_inds (inds (fst w)) ->
  lockstep (map (fun klr => it (fst klr) (fst (snd klr)) (snd (snd klr))) (enumerate (combine ls rots))) ->
  merge_log_meas fuse it ls rots reset dets w = (w', Ok c) ->
  same_model (fst w) (fst w') /\ forall rec, Inv (fst w) rec -> Inv (fst w') (rec ++ measured c).
Proof.
  intros U W K H. unfold merge_log_meas in H. destruct (negb _); [discriminate|].
  apply sbind_ok in H as (w1 & ok & H1 & H). unfold slift in H1. injection H1 as <- _.
  destruct (negb ok); [discriminate|]. apply sbind_ok in H as (w2 & c1 & H1 & H). apply onm_ok in H1 as (m2 & H1 & ->).
  apply sbind_ok in H as (w4 & [st su] & H3 & H). unfold slift in H3. injection H3 as <- _.
  apply sbind_ok in H as (w3 & d & H2 & H). apply ond_ok in H2 as (d3 & H2 & ->).
  apply sbind_ok in H as (w5 & os & H4 & H). apply onm_ok in H4 as (m5 & H4 & ->). apply sread_ok in H4 as [-> H4].
  apply sret_ok in H as [-> <-]. cbn [fst snd] in *.
  apply merged_inv in H1 as [S I]; auto. split; [exact S|]. intros rec HI.
  assert (measured (appends (cat fuse c1 d) os) = measured c1) as ->; [|now apply I].
  rewrite measured_appends', cat_measured, (measured_ann d), (measured_ann os), !app_nil_r; [reflexivity|eapply observables_ann; exact H4|eapply build_data_ann; exact H2].
Qed.
Lemma round_static fuse it ls reset dets w w' c : merge_qec_rounds fuse it ls reset dets w = (w', Ok c) -> same_model (fst w) (fst w').
Proof.
  intros H. unfold merge_qec_rounds in H. apply sbind_ok in H as (w1 & ok & H1 & H). unfold slift in H1. injection H1 as <- _.
  destruct (negb ok); [discriminate|]. apply sbind_ok in H as (w2 & c1 & H1 & H). apply onm_ok in H1 as (m2 & H1 & ->).
  apply sbind_ok in H as (w3 & d & H2 & H). apply ond_ok in H2 as (d3 & H2 & ->). apply sret_ok in H as [-> <-]. cbn [fst snd] in *.
  eapply merged_static; exact H1.
Qed.
Lemma meas_static fuse it ls rots reset dets w w' c : merge_log_meas fuse it ls rots reset dets w = (w', Ok c) -> same_model (fst w) (fst w').
Proof.
  intros H. unfold merge_log_meas in H. destruct (negb _); [discriminate|].
  apply sbind_ok in H as (w1 & ok & H1 & H). unfold slift in H1. injection H1 as <- _.
  destruct (negb ok); [discriminate|]. apply sbind_ok in H as (w2 & c1 & H1 & H). apply onm_ok in H1 as (m2 & H1 & ->).
  apply sbind_ok in H as (w4 & [st su] & H3 & H). unfold slift in H3. injection H3 as <- _.
  apply sbind_ok in H as (w3 & d & H2 & H). apply ond_ok in H2 as (d3 & H2 & ->).
  apply sbind_ok in H as (w5 & os & H4 & H). apply onm_ok in H4 as (m5 & H4 & ->). apply sread_ok in H4 as [-> H4].
  apply sret_ok in H as [-> <-]. cbn [fst snd] in *. eapply merged_static; exact H1.
Qed.
Lemma past_inv fuse m c : past fuse m c -> uniform (stp m) -> wf_inds (inds m) /\ Inv m (measured c).
Proof.
  assert (T : forall a b : model, same_model a b -> uniform (stp b) -> uniform (stp a)) by (intros a b (_ & E & _); now rewrite E).
  assert (V : forall a b : model, same_model a b -> wf_inds (inds a) -> wf_inds (inds b)) by (intros a b (_ & _ & E); now rewrite E).
  induction 1 as [m W|m c o qs m' c1 P IH H|w c it ls reset dets w' c1 P IH K H|w c it ls rots reset dets w' c1 P IH K H]; intros U; rewrite ?measured_app'.
  - split; [exact W|apply new_circuit_inv].
  - pose proof (apply_static _ _ _ _ _ H) as S. assert (S' : same_model m m') by (destruct S as (A & B & C); now repeat split).
    destruct (IH (T _ _ S' U)) as [W I]. split; [eapply V; eauto|]. eapply apply_inv; eauto.
  - assert (Un : uniform (stp (fst w))) by (eapply T; [eapply round_static; exact H|exact U]).
    destruct (IH Un) as [W I]. destruct (round_inv _ _ _ _ _ _ _ _ Un W K H) as [S G]. split; [eapply V; eauto|now apply G].
  - assert (Un : uniform (stp (fst w))) by (eapply T; [eapply meas_static; exact H|exact U]).
    destruct (IH Un) as [W I]. destruct (meas_inv _ _ _ _ _ _ _ _ _ Un W K H) as [S G]. split; [eapply V; eauto|now apply G].
Qed.
Lemma C44_lemma fuse m c q i k : past fuse m c -> uniform (stp m) -> dget q (inds m) = Some i ->
  1 <= k <= Z.of_nat (count (TQ i) (measured c)) -> exists j, meas_target m q (- k) = Ok (TR (- j)) /\ kth_last (measured c) (TQ i) k j.
Proof. intros P U. destruct (past_inv _ _ _ P U) as [_ I]. now apply meas_target_correct. Qed.
