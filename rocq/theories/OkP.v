(** No operation of a ready noise model raises. *)
From Coq Require Import QArith Qcanon Lqa.
From Verif Require Import Base Lib StimM SetupM NoiseM SpecNoise NoiseP LayoutM DetM GenM BlockM ExpM ProbP SpecOk.
Open Scope Z_scope.

Lemma mapM_total {A B} (f : A -> res B) l : (forall x, In x l -> exists y, f x = Ok y) -> exists r, mapM f l = Ok r.
Proof.
  induction l as [|x l IH]; intros H; [now exists []|]. cbn [mapM]. destruct (H x) as [y ->]; [now left|]. cbn [bind].
  destruct IH as [r ->]; [intros z Hz; apply H; now right|]. cbn [bind]. eauto.
Qed.
Lemma foldM_total {A B} (f : B -> A -> res B) l : (forall b x, In x l -> exists y, f b x = Ok y) -> forall b, exists r, foldM f l b = Ok r.
Proof.
  induction l as [|x l IH]; intros H b; [now exists b|]. cbn [foldM]. destruct (H b x) as [y ->]; [now left|]. cbn [bind].
  apply IH. intros z w Hz. apply H. now right.
Qed.

(** * Instructions *)
Lemma prob_ok_intro x : (Q2Qc 0 <= x)%Qc -> (x <= Q2Qc 1)%Qc -> prob_ok x = true.
Proof.
  intros A B. unfold prob_ok. apply andb_true_iff. split; apply Qle_bool_iff; unfold Qcle in *.
  - exact A.
  - exact B.
Qed.
Lemma mk_plain g t : is_two g = false -> exists i, mk g t [] = Ok i.
Proof. intros H. unfold mk, instr_ok. cbn [nm tg ar num_args flat_map forallb sumQ fold_right]. rewrite H. change (prob_ok (Q2Qc 0)) with true. destruct (is_noise g || is_meas g); cbn; eauto. Qed.
Lemma mk_two g t : is_noise g = false -> is_meas g = false -> pairs_ok t = true -> exists i, mk g t [] = Ok i.
Proof. intros H H' E. unfold mk, instr_ok. cbn [nm tg ar]. rewrite H, H', E, orb_true_r. cbn. eauto. Qed.
Lemma sum_one x : sumQ [x] = x.
Proof. unfold sumQ. cbn [fold_right]. apply Qcplus_0_r. Qed.
Lemma mk_prob g t x : (is_two g = true -> pairs_ok t = true) -> prob_ok x = true -> exists i, mk g t [ANum x] = Ok i.
Proof.
  intros H E. unfold mk, instr_ok. cbn [nm tg ar num_args flat_map app]. rewrite sum_one. cbn [forallb]. rewrite E.
  destruct (is_two g); [rewrite H by reflexivity|]; cbn; destruct (is_noise g || is_meas g); cbn; eauto.
Qed.
Lemma mk_probs g t xs : (is_two g = true -> pairs_ok t = true) -> Forall (fun x => prob_ok x = true) xs -> prob_ok (sumQ xs) = true ->
  exists i, mk g t (map ANum xs) = Ok i.
Proof.
  intros H E F. unfold mk, instr_ok. cbn [nm tg ar].
  assert (N : num_args (map ANum xs) = xs) by (unfold num_args; clear; induction xs; cbn; congruence). rewrite N.
  assert (Fa : forallb prob_ok xs = true) by (apply forallb_forall; rewrite Forall_forall in E; exact E).
  rewrite Fa, F. destruct (is_two g); [rewrite H by reflexivity|]; cbn; destruct (is_noise g || is_meas g); cbn; eauto.
Qed.

(** * Calls *)
Section Ready.
  Context (qi : dict string Z).
  Hypothesis W : SpecNoise.wf_inds qi.
  (* the pairs of a list *)
  Fixpoint spairs (l : list string) : Prop :=
    match l with [] => True | [_] => False | a :: b :: r => a <> b /\ spairs r end.
  Definition two_op (o : op) : bool := match o with OCX | OCZ | OSWAP => true | _ => false end.
  Definition block_op (o : op) : Prop :=
    match o with OMX | OMY | OMZ | ORX | ORY | ORZ | OIDLED _ => False | _ => True end.
  Definition fine (o : op) (qs : list string) : Prop := block_op o /\ incl qs (dkeys qi) /\ (two_op o = true -> spairs qs).

  Lemma known q : In q (dkeys qi) -> exists i, dget q qi = Some i.
  Proof. intros H. destruct (dget q qi) eqn:E; [eauto|]. apply dget_None in E. contradiction. Qed.
  Lemma inds_total m qs : inds m = qi -> incl qs (dkeys qi) -> exists is, get_inds m qs = Ok is.
  Proof.
    intros E H. apply mapM_total. intros q Hq. rewrite E. apply H in Hq. apply known in Hq as [i Hi]. unfold dget_err. rewrite Hi. cbn. eauto.
  Qed.
  Lemma inds_pairs m qs is : inds m = qi -> get_inds m qs = Ok is -> spairs qs -> pairs_ok (map TQ is) = true.
  Proof.
    intros E H. unfold get_inds in H. apply mapM_Forall2 in H. revert is H.
    induction qs as [qs IH] using (well_founded_induction (well_founded_ltof _ (@length string))). intros is H S.
    destruct H as [|a i qs is Ha H]; [reflexivity|]. destruct H as [|b j qs is Hb H]; [destruct S|]. destruct S as [S1 S2].
    cbn [map pairs_ok]. apply andb_true_iff. split.
    - apply negb_true_iff, eqb_neq. intros [= ->]. apply S1. rewrite E in Ha, Hb. unfold dget_err in Ha, Hb.
      destruct (dget a qi) eqn:Ea; cbn in Ha; [|discriminate]. destruct (dget b qi) eqn:Eb; cbn in Hb; [|discriminate].
      injection Ha as ->. injection Hb as ->. eapply inj_inds; eauto.
    - apply (IH qs); auto. unfold ltof. cbn. lia.
  Qed.
  Lemma combine_known m qs is q i : get_inds m qs = Ok is -> In (q, i) (combine qs is) -> In q qs /\ dget q (inds m) = Some i.
  Proof.
    intros H. unfold get_inds in H. apply mapM_Forall2 in H. induction H as [|a b qs is Ha _ IH]; intros I; [destruct I|].
    destruct I as [[= <- <-]|I]; [|split; [right|]; now apply IH]. split; [now left|]. unfold dget_err in Ha. destruct (dget a (inds m)); cbn in Ha; congruence.
  Qed.
  Lemma chans_total f l c : (forall q i, In (q, i) l -> exists x, f q i = Ok x) -> exists r, chans f l c = Ok r.
  Proof. intros H. unfold chans. apply foldM_total. intros b [q i] Hi. cbn [fst snd]. destruct (H q i Hi) as [x ->]. cbn. eauto. Qed.
  Lemma chan1_total m g p q i : is_two g = false -> gives_prob (stp m) p [q] -> exists x, chan1 m g p q i = Ok x.
  Proof.
    intros H (x & E & A & B). unfold chan1, mparam. rewrite E. cbn [bind as_num]. apply mk_prob; [congruence|now apply prob_ok_intro].
  Qed.
  Lemma chan2_total m g p q q' i j : i <> j -> gives_prob (stp m) p [q; q'] -> exists x, chan2 m g p (q, q') (i, j) = Ok x.
  Proof.
    intros H (x & E & A & B). unfold chan2, mparam. cbn [fst snd]. rewrite E. cbn [bind as_num]. apply mk_prob; [|now apply prob_ok_intro].
    intros _. cbn [pairs_ok]. rewrite (proj2 (eqb_neq (TQ i) (TQ j))) by congruence. reflexivity.
  Qed.
  (* the biased probabilities *)
  Lemma sumQ_ge l y : Forall (fun y => (Q2Qc 0 <= y)%Qc) l -> In y l -> (y <= sumQ l)%Qc.
  Proof.
    induction 1 as [|x l Hx F IH]; intros I; [destruct I|]. unfold sumQ in *. cbn [fold_right].
    assert (N : (Q2Qc 0 <= fold_right Qcplus (Q2Qc 0) l)%Qc).
    { clear -F. induction F as [|x l Hx F IH]; [apply Qcle_refl|]. cbn [fold_right]. rewrite <- (Qcplus_0_l (Q2Qc 0)). now apply Qcplus_le_compat. }
    destruct I as [->|I].
    - rewrite <- (Qcplus_0_r y) at 1. apply Qcplus_le_compat; [apply Qcle_refl|exact N].
    - rewrite <- (Qcplus_0_l y). apply Qcplus_le_compat; [exact Hx|now apply IH].
  Qed.
  Lemma sumQ_scale x l : sumQ (map (fun y => (x * y)%Qc) l) = (x * sumQ l)%Qc.
  Proof. induction l as [|y l IH]; unfold sumQ in *; cbn [map fold_right]; [now rewrite Qcmult_0_r|]. rewrite IH. ring. Qed.
  Lemma biased_total m p qs n : (1 <= n)%nat -> gives_prob (stp m) p qs -> gives_bias (stp m) qs ->
    exists xs, biased_probs m p qs n = Ok (map ANum xs) /\ Forall (fun x => prob_ok x = true) xs /\ prob_ok (sumQ xs) = true.
  Proof.
    intros Hn (x & E & A & B) (P & f & HP & E1 & E2 & Hf). unfold biased_probs, mparam. rewrite E, E1, E2. cbn [bind as_num].
    destruct (biased_lemma P f n) as (l & y & -> & _ & S & F & _); auto.
    { unfold is_pauli. destruct HP as [<-|[<-|[<-|[]]]]; auto. }
    cbn [bind]. exists (map (fun y => (x * y)%Qc) l). split; [now rewrite map_map|]. split.
    - apply Forall_forall. intros z Hz. apply in_map_iff in Hz as (y' & <- & Hy).
      pose proof (sumQ_ge l y' F Hy) as Le. rewrite S in Le. rewrite Forall_forall in F. specialize (F _ Hy). cbn beta in F. apply prob_ok_intro.
      + rewrite <- (Qcmult_0_l y'). now apply Qcmult_le_compat_r.
      + apply Qcle_trans with (1 * y')%Qc; [now apply Qcmult_le_compat_r|]. now rewrite Qcmult_1_l.
    - rewrite sumQ_scale, S, Qcmult_1_r. now apply prob_ok_intro.
  Qed.
  Lemma bchan1_total m p q i : gives_prob (stp m) p [q] -> gives_bias (stp m) [q] -> exists x, bchan1 m p q i = Ok x.
  Proof.
    intros H B. unfold bchan1. destruct (biased_total m p [q] 1 ltac:(lia) H B) as (xs & -> & F & S). cbn [bind]. now apply mk_probs.
  Qed.
  Lemma bchan2_total m p q q' i j : i <> j -> gives_prob (stp m) p [q; q'] -> gives_bias (stp m) [q; q'] ->
    exists x, bchan2 m p (q, q') (i, j) = Ok x.
  Proof.
    intros N H B. unfold bchan2. cbn [fst snd]. destruct (biased_total m p [q; q'] 2 ltac:(lia) H B) as (xs & -> & F & S). cbn [bind].
    apply mk_probs; auto. intros _. cbn [pairs_ok]. rewrite (proj2 (eqb_neq (TQ i) (TQ j))) by congruence. reflexivity.
  Qed.

  Section Model.
    Context (m : model).
    Hypothesis E : inds m = qi.
    Lemma gate1_total g f qs : is_two g = false -> incl qs (dkeys qi) ->
      (forall q i, In q (dkeys qi) -> exists x, f q i = Ok x) -> exists c, gate1 m g f qs = Ok c.
    Proof.
      intros G H F. unfold gate1. destruct (inds_total m qs E H) as [is Hi]. rewrite Hi. cbn [bind].
      destruct (mk_plain g (map TQ is) G) as [i ->]. cbn [bind]. apply chans_total. intros q j I.
      apply (combine_known _ _ _ _ _ Hi) in I as [I _]. auto.
    Qed.
    Lemma gate0_total g qs : is_noise g = false -> is_meas g = false -> incl qs (dkeys qi) -> (is_two g = true -> spairs qs) ->
      exists c, gate0 m g qs = Ok c.
    Proof.
      intros N M H S. unfold gate0. destruct (inds_total m qs E H) as [is Hi]. rewrite Hi. cbn [bind].
      destruct (is_two g) eqn:T.
      - destruct (mk_two g (map TQ is) N M) as [i ->]; [eapply inds_pairs; eauto|]. cbn. eauto.
      - destruct (mk_plain g (map TQ is) T) as [i ->]. cbn. eauto.
    Qed.
    Lemma idle1_total f qs : incl qs (dkeys qi) -> (forall q i, In q (dkeys qi) -> exists x, f q i = Ok x) -> exists c, idle1 m f qs = Ok c.
    Proof.
      intros H F. unfold idle1. destruct (inds_total m qs E H) as [is Hi]. rewrite Hi. cbn [bind]. apply chans_total. intros q j I.
      apply (combine_known _ _ _ _ _ Hi) in I as [I _]. auto.
    Qed.
    Lemma grouped qs is : get_inds m qs = Ok is -> spairs qs -> Nat.odd (length qs) = false /\
      exists qp ip, grouper2 qs = Ok qp /\ grouper2 is = Ok ip /\
        forall q q' i j, In ((q, q'), (i, j)) (combine qp ip) -> In q qs /\ In q' qs /\ i <> j.
    Proof.
      intros H. unfold get_inds in H. apply mapM_Forall2 in H. revert is H.
      induction qs as [qs IH] using (well_founded_induction (well_founded_ltof _ (@length string))). intros is H S.
      destruct H as [|a i qs is Ha H]; [split; [reflexivity|]; exists [], []; repeat split; destruct H|].
      destruct H as [|b j qs is Hb H]; [destruct S|]. destruct S as [S1 S2].
      destruct (IH qs ltac:(unfold ltof; cbn; lia) is H S2) as (O & qp & ip & E1 & E2 & C). split; [exact O|].
      exists ((a, b) :: qp), ((i, j) :: ip). cbn [grouper2]. rewrite E1, E2. cbn [bind]. split; [reflexivity|]. split; [reflexivity|].
      intros q q' i' j' [I|I].
      - injection I as <- <- <- <-. split; [now left|]. split; [right; now left|]. intros <-. apply S1. rewrite E in Ha, Hb. unfold dget_err in Ha, Hb.
        destruct (dget a qi) eqn:Ea; cbn in Ha; [|discriminate]. destruct (dget b qi) eqn:Eb; cbn in Hb; [|discriminate].
        injection Ha as ->. injection Hb as ->. eapply inj_inds; eauto.
      - apply C in I as (I1 & I2 & I3). split; [right; now right|]. split; [right; now right|exact I3].
    Qed.
    Lemma gate2_total g f qs : is_noise g = false -> is_meas g = false -> incl qs (dkeys qi) -> spairs qs ->
      (forall q q' i j, In q (dkeys qi) -> In q' (dkeys qi) -> i <> j -> exists x, f (q, q') (i, j) = Ok x) -> exists c, gate2 m g f qs = Ok c.
    Proof.
      intros N M H S F. unfold gate2. destruct (inds_total m qs E H) as [is Hi]. destruct (grouped qs is Hi S) as (-> & qp & ip & E1 & E2 & C).
      rewrite Hi. cbn [bind]. destruct (mk_two g (map TQ is) N M) as [i ->]; [eapply inds_pairs; eauto|]. cbn [bind]. rewrite E1, E2. cbn [bind].
      unfold chans2. apply foldM_total. intros c [[q q'] [i1 i2]] I. cbn [fst snd]. apply C in I as (I1 & I2 & I3).
      destruct (F q q' i1 i2) as [x ->]; auto. cbn. eauto.
    Qed.
    Lemma incoming_total qs : incl qs (dkeys qi) -> (forall q, In q (dkeys qi) -> gives_prob (stp m) "idle_error_prob" [q]) -> exists c, incoming1 m qs = Ok c.
    Proof.
      intros H F. unfold incoming1. destruct (inds_total m qs E H) as [is Hi]. rewrite Hi. cbn [bind].
      assert (G : forall g c, is_two g = false -> exists r, chans (chan1 m g "idle_error_prob") (combine qs is) c = Ok r).
      { intros g c Hg. apply chans_total. intros q j I. apply (combine_known _ _ _ _ _ Hi) in I as [I _]. apply chan1_total; auto. }
      destruct (G X_ERROR [] eq_refl) as [c ->]. cbn [bind]. now apply G.
    Qed.
  End Model.

  (* measurements change the record *)
  Lemma add_meas_total m q : inds m = qi -> In q (dkeys qi) -> incl (dkeys qi) (dkeys (order m)) ->
    exists m', add_meas q m = (m', Ok tt) /\ same_static m m' /\ incl (dkeys qi) (dkeys (order m')).
  Proof.
    intros E H O. unfold add_meas. rewrite E. rewrite (proj2 (dmem_In q qi) H). cbn [negb].
    destruct (dget q (order m)) as [l|] eqn:G; [|apply dget_None in G; destruct (G (O q H))].
    eexists. split; [reflexivity|]. split; [repeat split; cbn; congruence|]. cbn [order]. intros x Hx. rewrite dkeys_dset.
    destruct (dmem q (order m)); [now apply O|]. apply in_or_app. left. now apply O.
  Qed.
  Definition recording (m : model) : Prop := incl (dkeys qi) (dkeys (order m)).
  Lemma static_trans m m1 m2 : same_static m m1 -> same_static m1 m2 -> same_static m m2.
  Proof. intros (A & B & C) (A' & B' & C'). repeat split; congruence. Qed.
  Lemma sfold_total {A} (f : circuit -> A -> ST model circuit) l : forall m c, recording m ->
    (forall m' c x, same_static m m' -> recording m' -> In x l -> exists m2 r, f c x m' = (m2, Ok r) /\ same_static m' m2 /\ recording m2) ->
    exists m' r, sfold f l c m = (m', Ok r).
  Proof.
    induction l as [|x l IH]; intros m c O F; [cbn; unfold sret; eauto|]. cbn [sfold]. unfold sbind.
    destruct (F m c x (same_static_refl m) O) as (m1 & r & -> & S & O1); [now left|].
    apply IH; [exact O1|]. intros m' c' y S' O' Hy. apply F; [eapply static_trans; eauto|exact O'|now right].
  Qed.
  Lemma meas_instr_total m g q i : is_two g = false -> gives_flag (stp m) q -> exists x, meas_instr m g q i = Ok x.
  Proof.
    intros G (b & E & H). unfold meas_instr, mparam. rewrite E. cbn [bind truthy]. destruct b; [|now apply mk_plain].
    destruct (H eq_refl) as (x & -> & A & B). cbn [bind as_num]. apply mk_prob; [congruence|now apply prob_ok_intro].
  Qed.
  Lemma measure0_total m g qs : is_two g = false -> inds m = qi -> recording m -> incl qs (dkeys qi) -> exists m' c, measure0 g qs m = (m', Ok c).
  Proof.
    intros G E O H. unfold measure0. apply sfold_total; [exact O|]. intros m' c q (_ & _ & S) O' Hq. unfold sbind.
    destruct (add_meas_total m' q) as (m1 & -> & S1 & O1); [congruence|auto|exact O'|]. unfold sread.
    destruct (inds_total m1 [q]) as [is ->]; [destruct S1 as (_ & _ & S1); congruence|intros x [<-|[]]; auto|]. cbn [bind].
    destruct (mk_plain g (map TQ is) G) as [i ->]. unfold sret. eauto.
  Qed.
  Lemma measure1_total m e g qs : is_two e = false -> is_two g = false -> inds m = qi -> recording m -> incl qs (dkeys qi) ->
    (forall q, In q (dkeys qi) -> gives_prob (stp m) "meas_error_prob" [q] /\ gives_flag (stp m) q) ->
    exists m' c, measure1 e g qs m = (m', Ok c).
  Proof.
    intros Ge G E O H F. unfold measure1. unfold sbind at 1, sread at 1. destruct (inds_total m qs E H) as [is Hi]. rewrite Hi.
    unfold sbind at 1, sread at 1.
    destruct (chans_total (chan1 m e "meas_error_prob") (combine qs is) []) as [c ->].
    { intros q i I. apply (combine_known _ _ _ _ _ Hi) in I as [I _]. apply chan1_total; [exact Ge|]. apply F. auto. }
    apply sfold_total; [exact O|]. intros m' c' [q i] (S1 & S2 & S) O' Hq. cbn [fst snd]. unfold sbind.
    apply (combine_known _ _ _ _ _ Hi) in Hq as [Hq _].
    destruct (add_meas_total m' q) as (m1 & -> & S' & O1); [congruence|auto|exact O'|]. unfold sread.
    destruct (meas_instr_total m1 g q i G) as [x ->]; [|unfold sret; eauto]. destruct S' as (_ & S' & _). rewrite S', S2. apply F. auto.
  Qed.

  Lemma apply_total m o qs : inds m = qi -> recording m -> ready m -> fine o qs -> exists m' c, apply o qs m = (m', Ok c).
  Proof.
    intros E O R (B & H & S). unfold ready in R. rewrite E in R. unfold apply.
    destruct (kind m) eqn:K; try contradiction.
    all: try (destruct o; try contradiction; first [apply measure0_total; auto; fail|apply measure1_total; auto; tauto|idtac];
      match goal with |- exists m' c, (_, ?x) = (m', Ok c) => enough (exists c, x = Ok c) as [c ->] by eauto end).
    all: cbn [circ_op biased_op noiseless_op]; try (eexists; reflexivity).
    all: try (apply incoming_total; tauto).
    all: try (apply gate0_total; auto; intros Q; apply S; first [reflexivity|discriminate Q]; fail).
    all: try (destruct R as ((R1 & R2) & R3); first
      [apply gate1_total; auto; intros q i Hq; destruct (R1 q Hq) as [P1 P2]; apply chan1_total; auto; apply P1; unfold one_qubit_params; simpl; tauto
      |apply idle1_total; auto; intros q i Hq; destruct (R1 q Hq) as [P1 P2]; apply chan1_total; auto; apply P1; unfold one_qubit_params; simpl; tauto
      |apply gate2_total; auto; intros q q' i j Hq Hq' Hij; apply chan2_total; auto; apply R2; auto; unfold two_qubit_params; simpl; tauto]; fail).
    all: destruct R as ((R1 & R2) & R3 & R4 & R5); first
      [apply gate1_total; auto; intros q i Hq; destruct (R1 q Hq) as [P1 P2]; first [apply chan1_total; auto; fail|apply bchan1_total; auto; apply P1; unfold one_qubit_params; simpl; tauto]
      |apply idle1_total; auto; intros q i Hq; destruct (R1 q Hq) as [P1 P2]; apply bchan1_total; auto; apply P1; unfold one_qubit_params; simpl; tauto
      |apply gate2_total; auto; intros q q' i j Hq Hq' Hij; apply bchan2_total; auto; apply R2; auto; unfold two_qubit_params; simpl; tauto].
  Qed.

  (** * Blocks *)
  Definition fine_call (c : call) : Prop := match c with Call o qs => fine o qs | CTick => True end.
  Definition fine_block (b : res (list call)) : Prop := exists l, b = Ok l /\ Forall fine_call l.
  Lemma recording_of m rec : inds m = qi -> Inv m rec -> recording m.
  Proof.
    intros E [_ I] q H. apply known in H as [i H]. rewrite E in I. apply I in H. now apply dget_Some_key in H.
  Qed.
  Lemma ready_static m m' : same_static m m' -> ready m -> ready m'.
  Proof. intros (A & B & C). unfold ready. now rewrite A, B, C. Qed.
  Lemma run_block_total b : forall m rec, inds m = qi -> Inv m rec -> ready m -> Forall fine_call b ->
    exists m' c, run_block b m = (m', Ok c) /\ same_static m m' /\ Inv m' (rec ++ measured c).
  Proof.
    induction b as [|c b IH]; intros m rec E I R F.
    - exists m, []. split; [reflexivity|]. split; [apply same_static_refl|]. cbn. now rewrite app_nil_r.
    - inversion F as [|? ? F1 F2]; subst. cbn [run_block].
      assert (G : exists m1 x, run_call c m = (m1, Ok x) /\ same_static m m1 /\ Inv m1 (rec ++ measured x)).
      { destruct c as [o qs|].
        - cbn [run_call]. destruct (apply_total m o qs E) as (m1 & x & H); auto; [eapply recording_of; eauto|]. exists m1, x. split; [exact H|].
          split; [eapply apply_static; eauto|]. eapply apply_inv; eauto. now rewrite E.
        - exists m, tick. split; [reflexivity|]. split; [apply same_static_refl|]. cbn. now rewrite app_nil_r. }
      destruct G as (m1 & x & H1 & S1 & I1). destruct (IH m1 (rec ++ measured x)) as (m2 & y & H2 & S2 & I2).
      + destruct S1 as (_ & _ & S1). congruence.
      + exact I1.
      + eapply ready_static; eauto.
      + exact F2.
      + exists m2, (x ++ y). unfold sbind. rewrite H1, H2. split; [reflexivity|]. split; [eapply static_trans; eauto|].
        unfold measured in *. rewrite flat_map_app, app_assoc. exact I2.
  Qed.
  Lemma run_blocks_total bl : forall m rec, inds m = qi -> Inv m rec -> ready m -> Forall fine_block bl ->
    exists m' c, run_blocks bl m = (m', Ok c) /\ same_static m m' /\ Inv m' (rec ++ measured c).
  Proof.
    induction bl as [|b bl IH]; intros m rec E I R F.
    - exists m, []. split; [reflexivity|]. split; [apply same_static_refl|]. cbn. now rewrite app_nil_r.
    - inversion F as [|? ? (l & -> & F1) F2]; subst. cbn [run_blocks]. unfold slift, sbind at 1.
      destruct (run_block_total l m rec E I R F1) as (m1 & x & H1 & S1 & I1). destruct (IH m1 (rec ++ measured x)) as (m2 & y & H2 & S2 & I2).
      + destruct S1 as (_ & _ & S1). congruence.
      + exact I1.
      + eapply ready_static; eauto.
      + exact F2.
      + exists m2, (x ++ y). unfold sbind. rewrite H1, H2. split; [reflexivity|]. split; [eapply static_trans; eauto|].
        unfold measured in *. rewrite flat_map_app, app_assoc. exact I2.
  Qed.
End Ready.
