(** Proofs for Props_Number.v (C84). *)
From Coq Require Import QArith Qcanon.
From Verif Require Import Base StimM SetupM MatM NoiseM LayoutM DetM BlockM ExpM MergeM SpecDet SpecFresh SpecNumber Lib.
Open Scope Z_scope.

Definition rmap {A B} (g : A -> B) (x : res A) : res B := match x with Ok a => Ok (g a) | Err e => Err e end.
Lemma rmap_id {A} (x : res A) : rmap (fun a => a) x = x. Proof. now destruct x. Qed.
Lemma bind_rmap {A B C D} (g : A -> C) (h : B -> D) (x : res A) (y : res C) k l :
  y = rmap g x -> (forall a, x = Ok a -> l (g a) = rmap h (k a)) -> bind y l = rmap h (bind x k).
Proof. intros -> H. destruct x; simpl; auto. Qed.
Lemma foldM_rmap {A B C D} (g : B -> D) (k : A -> C) (f : B -> A -> res B) (f' : D -> C -> res D) l :
  (forall b a, In a l -> f' (g b) (k a) = rmap g (f b a)) -> forall b, foldM f' (map k l) (g b) = rmap g (foldM f l b).
Proof.
  induction l as [|a l IH]; intros H b; simpl; [reflexivity|].
  apply (bind_rmap g); [apply H; left; reflexivity|]. intros b1 _. apply IH. intros; apply H; right; assumption.
Qed.
Lemma mapM_rmap {A B C D} (g : B -> D) (k : A -> C) (f : A -> res B) (f' : C -> res D) l :
  (forall a, In a l -> f' (k a) = rmap g (f a)) -> mapM f' (map k l) = rmap (map g) (mapM f l).
Proof.
  induction l as [|a l IH]; intros H; simpl; [reflexivity|].
  apply (bind_rmap g); [apply H; left; reflexivity|]. intros b _.
  apply (bind_rmap (map g)); [apply IH; intros; apply H; right; assumption|]. reflexivity.
Qed.

Section Number.
  Context (f : Z -> Z).
  Notation rt := (renumber_target f).
  Notation ri := (renumber_instr f).
  Notation rc := (renumber f).

  (** * Circuits *)
  Lemma append_rc c i : append (rc c) (ri i) = rc (append c i).
  Proof.
    induction c as [|j c IH]; [reflexivity|]. destruct c as [|j' c].
    - cbn [append renumber map renumber_instr nm ar tg].
      destruct (eqb (nm i) (nm j) && eqb (ar i) (ar j) && negb (not_fusable (nm i))); [|reflexivity].
      cbn [map]. unfold renumber_instr. cbn [nm ar tg]. now rewrite map_app.
    - change (ri j :: append (rc (j' :: c)) (ri i) = ri j :: rc (append (j' :: c) i)). now rewrite IH.
  Qed.
  Lemma appends_rc l : forall c, appends (rc c) (map ri l) = rc (appends c l).
  Proof.
    induction l as [|i l IH]; intros c; [reflexivity|]. unfold appends. cbn [map fold_left]. rewrite append_rc.
    apply IH.
  Qed.
  Lemma rc_app a b : rc (a ++ b) = rc a ++ rc b. Proof. apply map_app. Qed.
  Lemma cat_rc fuse a b : cat fuse (rc a) (rc b) = rc (cat fuse a b).
  Proof. unfold cat. destruct fuse; [apply appends_rc|symmetry; apply rc_app]. Qed.

  (** * The instructions of the noise model *)
  Section Model.
    Context (m m' : model) (H : renumbered f m m').
    Let known (i : Z) : Prop := exists q, dget q (inds m) = Some i.
    Lemma inj_known i j : known i -> known j -> f i = f j -> i = j.
    Proof. intros [q Hq] [r Hr]. destruct H as (_ & _ & _ & _ & _ & X). eapply X; eauto. Qed.
    Lemma stp_eq : stp m' = stp m. Proof. apply H. Qed.
    Lemma mparam_eq p qs : mparam m' p qs = mparam m p qs.
    Proof. unfold mparam. now rewrite stp_eq. Qed.
    Lemma mdur_eq g : mdur m' g = mdur m g.
    Proof. unfold mdur. now rewrite stp_eq. Qed.
    Lemma pairs_rt n : forall is, (length is <= n)%nat -> Forall known is -> pairs_ok (map TQ (map f is)) = pairs_ok (map TQ is).
    Proof.
      induction n as [|n IH]; intros [|a [|b is]] L K; simpl in L; try reflexivity; try lia.
      inversion K as [|? ? Ka K1]; subst. inversion K1 as [|? ? Kb K2]; subst.
      change (negb (eqb (TQ (f a)) (TQ (f b))) && pairs_ok (map TQ (map f is)) = negb (eqb (TQ a) (TQ b)) && pairs_ok (map TQ is)).
      rewrite IH by (assumption || lia). f_equal. f_equal.
      destruct (eqb_spec (TQ (f a)) (TQ (f b))) as [E|E], (eqb_spec (TQ a) (TQ b)) as [E1|E1]; try reflexivity; exfalso.
      - injection E as E. apply E1. f_equal. now apply inj_known.
      - injection E1 as ->. now apply E.
    Qed.
    Lemma mk_rt g is a : Forall known is -> mk g (map TQ (map f is)) a = rmap ri (mk g (map TQ is) a).
    Proof.
      intros K. unfold mk, instr_ok. cbn [nm tg ar]. rewrite (pairs_rt (length is)) by auto.
      destruct (_ && _)%bool; [|reflexivity]. cbn [rmap]. unfold renumber_instr. cbn [nm tg ar]. rewrite !map_map. reflexivity.
    Qed.
    Lemma get_known qs is : get_inds m qs = Ok is -> Forall known is.
    Proof.
      intros E. apply mapM_Forall2 in E. induction E as [|q i qs is E _ IH]; constructor; [|exact IH].
      exists q. unfold dget_err in E. destruct (dget q (inds m)); [injection E as ->; reflexivity|discriminate].
    Qed.
    Lemma get_rt qs : get_inds m' qs = rmap (map f) (get_inds m qs).
    Proof.
      unfold get_inds. rewrite <- (map_id qs) at 1. apply mapM_rmap. intros q _. unfold dget_err.
      destruct H as (_ & _ & _ & X & _). rewrite X. now destruct (dget q (inds m)).
    Qed.
    Lemma get_one q is : get_inds m [q] = Ok is -> exists i, is = [i] /\ known i.
    Proof.
      intros E. pose proof (get_known _ _ E) as K. apply mapM_Forall2 in E. inversion E as [|? i ? r ? T]; subst. inversion T; subst.
      exists i. split; [reflexivity|]. now inversion K.
    Qed.
    (* a function from a qubit to an instruction *)
    Definition same1 (h h' : string -> Z -> res instr) : Prop := forall q i, known i -> h' q (f i) = rmap ri (h q i).
    Definition same2 (h h' : string * string -> Z * Z -> res instr) : Prop :=
      forall qq ii, known (fst ii) -> known (snd ii) -> h' qq (f (fst ii), f (snd ii)) = rmap ri (h qq ii).
    Lemma one_rt g i a : known i -> mk g [TQ (f i)] a = rmap ri (mk g [TQ i] a).
    Proof. intros K. apply (mk_rt g [i]). auto. Qed.
    Lemma two_rt g i j a : known i -> known j -> mk g [TQ (f i); TQ (f j)] a = rmap ri (mk g [TQ i; TQ j] a).
    Proof. intros K L. apply (mk_rt g [i; j]). auto. Qed.
    Lemma chan1_rt g p : same1 (chan1 m g p) (chan1 m' g p).
    Proof.
      intros q i K. unfold chan1. rewrite mparam_eq. destruct (mparam m p [q]) as [v|]; [|reflexivity]. cbn [bind].
      destruct (as_num v); [|reflexivity]. now apply one_rt.
    Qed.
    Lemma chan2_rt g p : same2 (chan2 m g p) (chan2 m' g p).
    Proof.
      intros q i K L. unfold chan2. rewrite mparam_eq. destruct (mparam m p _) as [v|]; [|reflexivity]. cbn [bind].
      destruct (as_num v); [|reflexivity]. now apply two_rt.
    Qed.
    Lemma biased_eq p qs n : biased_probs m' p qs n = biased_probs m p qs n.
    Proof. unfold biased_probs. now rewrite !mparam_eq. Qed.
    Lemma bchan1_rt p : same1 (bchan1 m p) (bchan1 m' p).
    Proof.
      intros q i K. unfold bchan1. rewrite biased_eq. destruct (biased_probs _ _ _ _); [|reflexivity]. now apply one_rt.
    Qed.
    Lemma bchan2_rt p : same2 (bchan2 m p) (bchan2 m' p).
    Proof.
      intros q i K L. unfold bchan2. rewrite biased_eq. destruct (biased_probs _ _ _ _); [|reflexivity]. now apply two_rt.
    Qed.
    Lemma meas_rt g : same1 (meas_instr m g) (meas_instr m' g).
    Proof.
      intros q i K. unfold meas_instr. rewrite !mparam_eq. destruct (mparam m "assign_error_flag" _) as [v|]; [|reflexivity].
      cbn [bind]. destruct (truthy v); [|now apply one_rt]. destruct (mparam m _ _) as [x|]; [|reflexivity]. cbn [bind].
      destruct (as_num x); [|reflexivity]. now apply one_rt.
    Qed.
    Lemma combine_rt (qs : list string) is : combine qs (map f is) = map (fun qi => (fst qi, f (snd qi))) (combine qs is).
    Proof. revert is. induction qs as [|q qs IH]; intros [|i is]; simpl; [reflexivity..|]. now rewrite IH. Qed.
    Lemma chans_rt h h' qs is c : same1 h h' -> Forall known is ->
      chans h' (combine qs (map f is)) (rc c) = rmap rc (chans h (combine qs is) c).
    Proof.
      intros S1 K. rewrite combine_rt. unfold chans. apply foldM_rmap. intros b [q i] Hin. cbn [fst snd].
      apply (bind_rmap ri); [apply S1|intros j _; cbn [rmap]; now rewrite append_rc].
      apply in_combine_r in Hin. rewrite Forall_forall in K. auto.
    Qed.
    Lemma grouper_rt n : forall is, (length is <= n)%nat ->
      grouper2 (map f is) = rmap (map (fun ii => (f (fst ii), f (snd ii)))) (grouper2 is).
    Proof.
      induction n as [|n IH]; intros [|a [|b is]] L; simpl in L; try reflexivity; try lia.
      simpl. apply (bind_rmap (map (fun ii => (f (fst ii), f (snd ii))))); [apply IH; lia|]. reflexivity.
    Qed.
    Lemma grouper_known n : forall is ip, (length is <= n)%nat -> Forall known is -> grouper2 is = Ok ip ->
      Forall (fun ii => known (fst ii) /\ known (snd ii)) ip.
    Proof.
      induction n as [|n IH]; intros [|a [|b is]] ip L K E; simpl in L, E; try lia; try discriminate;
        try (injection E as <-; constructor).
      inversion K as [|? ? Ka K1]; subst. inversion K1 as [|? ? Kb K2]; subst.
      destruct (grouper2 is) as [t|] eqn:G; [|discriminate]. injection E as <-. constructor; [auto|].
      apply (IH is); auto; lia.
    Qed.
    Lemma gate1_rt g h h' qs : same1 h h' -> gate1 m' g h' qs = rmap rc (gate1 m g h qs).
    Proof.
      intros S1. unfold gate1. apply (bind_rmap (map f)); [apply get_rt|]. intros is E. pose proof (get_known _ _ E) as K.
      apply (bind_rmap ri); [now apply mk_rt|]. intros i _. change (append [] (ri i)) with (rc (append [] i)). now apply chans_rt.
    Qed.
    Lemma gate2_rt g h h' qs : same2 h h' -> gate2 m' g h' qs = rmap rc (gate2 m g h qs).
    Proof.
      intros S1. unfold gate2. destruct (Nat.odd _); [reflexivity|].
      apply (bind_rmap (map f)); [apply get_rt|]. intros is E. pose proof (get_known _ _ E) as K.
      apply (bind_rmap ri); [now apply mk_rt|]. intros i _.
      apply (bind_rmap (fun x => x)); [symmetry; apply rmap_id|]. intros qp _.
      apply (bind_rmap (map (fun ii => (f (fst ii), f (snd ii))))); [eapply grouper_rt; reflexivity|]. intros ip Ei.
      pose proof (grouper_known _ _ _ (le_n _) K Ei) as Kp.
      change (append [] (ri i)) with (rc (append [] i)). unfold chans2.
      assert (C : combine qp (map (fun ii => (f (fst ii), f (snd ii))) ip)
                  = map (fun qi => (fst qi, (f (fst (snd qi)), f (snd (snd qi))))) (combine qp ip)).
      { clear. revert ip. induction qp as [|q qp IH]; intros [|i ip]; simpl; [reflexivity..|]. now rewrite IH. }
      rewrite C. apply foldM_rmap. intros b [q ii] Hin. cbn [fst snd].
      apply in_combine_r in Hin. rewrite Forall_forall in Kp. destruct (Kp _ Hin) as [K1 K2].
      apply (bind_rmap ri); [now apply S1|intros j _; cbn [rmap]; now rewrite append_rc].
    Qed.
    Lemma idle1_rt h h' qs : same1 h h' -> idle1 m' h' qs = rmap rc (idle1 m h qs).
    Proof.
      intros S1. unfold idle1. apply (bind_rmap (map f)); [apply get_rt|]. intros is E. change (@nil instr) with (rc []) at 1.
      apply chans_rt; [exact S1|now apply get_known in E].
    Qed.
    Lemma gate0_rt g qs : gate0 m' g qs = rmap rc (gate0 m g qs).
    Proof.
      unfold gate0. apply (bind_rmap (map f)); [apply get_rt|]. intros is E. pose proof (get_known _ _ E) as K.
      apply (bind_rmap ri); [now apply mk_rt|]. reflexivity.
    Qed.
    Lemma incoming_rt qs : incoming1 m' qs = rmap rc (incoming1 m qs).
    Proof.
      unfold incoming1. apply (bind_rmap (map f)); [apply get_rt|]. intros is E. pose proof (get_known _ _ E) as K.
      apply (bind_rmap rc); [|intros c _; apply chans_rt; [apply chan1_rt|exact K]].
      change (@nil instr) with (rc []) at 1. apply chans_rt; [apply chan1_rt|exact K].
    Qed.
    Lemma idle_chan_rt d q : idle_chan m' d q = rmap ri (idle_chan m d q).
    Proof.
      unfold idle_chan. rewrite !mparam_eq. destruct (mparam m "T1" _) as [v1|]; [|reflexivity].
      destruct (mparam m "T2" _) as [v2|]; [|reflexivity]. cbn [bind].
      destruct (as_num v1) as [t1|]; [|reflexivity]. destruct (as_num v2) as [t2|]; [|reflexivity]. cbn [bind].
      destruct (negb _); [reflexivity|]. destruct (as_num d); [|reflexivity]. cbn [bind]. destruct (negb _); [reflexivity|].
      apply (bind_rmap (map f)); [apply get_rt|]. intros is E. apply mk_rt. now apply get_known in E.
    Qed.
    Lemma idle_dur_rt d qs : idle_dur m' d qs = rmap rc (idle_dur m d qs).
    Proof.
      unfold idle_dur. change (@nil instr) with (rc []) at 1. rewrite <- (map_id qs) at 1. apply foldM_rmap. intros b q _.
      apply (bind_rmap ri); [apply idle_chan_rt|]. intros i _. cbn [rmap]. now rewrite append_rc.
    Qed.
    Lemma half_eq n : half_dur m' n = half_dur m n.
    Proof. unfold half_dur. now rewrite mdur_eq. Qed.
    Lemma generic_rt sym n g qs : generic_op m' sym n g qs = rmap rc (generic_op m sym n g qs).
    Proof.
      unfold generic_op. rewrite half_eq, mdur_eq. destruct sym.
      - destruct (half_dur m n) as [d|]; [|reflexivity]. cbn [bind].
        apply (bind_rmap rc); [apply idle_dur_rt|]. intros c1 _.
        apply (bind_rmap (map f)); [apply get_rt|]. intros is E. pose proof (get_known _ _ E) as K.
        apply (bind_rmap ri); [now apply mk_rt|]. intros i _.
        apply (bind_rmap rc); [apply idle_dur_rt|]. intros c2 _. cbn [rmap]. now rewrite append_rc, rc_app.
      - destruct (mdur m n) as [d|]; [|reflexivity]. cbn [bind].
        apply (bind_rmap (map f)); [apply get_rt|]. intros is E. pose proof (get_known _ _ E) as K.
        apply (bind_rmap ri); [now apply mk_rt|]. intros i _.
        apply (bind_rmap rc); [apply idle_dur_rt|]. intros c2 _. cbn [rmap]. now rewrite rc_app.
    Qed.
    Lemma circ_rt o qs : circ_op m' o qs = rmap rc (circ_op m o qs).
    Proof.
      destruct o; simpl; first [reflexivity|apply gate1_rt, chan1_rt|apply gate2_rt, chan2_rt|apply idle1_rt, chan1_rt].
    Qed.
    Lemma biased_rt o qs : biased_op m' o qs = rmap rc (biased_op m o qs).
    Proof.
      destruct o; simpl; first [reflexivity|apply gate1_rt, chan1_rt|apply gate1_rt, bchan1_rt|apply gate2_rt, bchan2_rt|apply idle1_rt, bchan1_rt].
    Qed.
    Lemma exper_rt o qs : exper_op m' o qs = rmap rc (exper_op m o qs).
    Proof.
      destruct o; simpl; first [reflexivity|apply gate1_rt, chan1_rt|apply gate2_rt, chan2_rt|apply idle_dur_rt].
    Qed.
    Lemma decoh_rt sym o qs : decoh_op m' sym o qs = rmap rc (decoh_op m sym o qs).
    Proof. destruct o; simpl; first [reflexivity|apply generic_rt|apply idle_dur_rt]. Qed.
    Lemma noiseless_rt inc o qs : noiseless_op m' inc o qs = rmap rc (noiseless_op m inc o qs).
    Proof. destruct o; simpl; try destruct inc; first [reflexivity|apply gate0_rt|apply incoming_rt]. Qed.
    Lemma mem_keys q : mem q (dkeys (inds m')) = mem q (dkeys (inds m)).
    Proof.
      destruct H as (_ & _ & _ & X & _). specialize (X q).
      destruct (mem q (dkeys (inds m'))) eqn:E1, (mem q (dkeys (inds m))) eqn:E2; try reflexivity; exfalso.
      - apply mem_In, dmem_In in E1. apply mem_not_In in E2. rewrite <- dget_None in E2. unfold dmem in E1. rewrite X, E2 in E1. discriminate.
      - apply mem_In, dmem_In in E2. apply mem_not_In in E1. rewrite <- dget_None in E1. unfold dmem in E2. rewrite E1 in X.
        destruct (dget q (inds m)); discriminate.
    Qed.
    Lemma superset_rt l : strict_superset l (dkeys (inds m')) = strict_superset l (dkeys (inds m)).
    Proof.
      unfold strict_superset. f_equal; [|f_equal].
      - apply eq_true_iff_eq. rewrite !subset_spec. unfold incl.
        split; intros Y q Hq; apply Y; rewrite <- mem_In in *; [rewrite mem_keys|rewrite <- mem_keys]; exact Hq.
      - unfold subset. induction l as [|q l IH]; simpl; [reflexivity|]. now rewrite mem_keys, IH.
    Qed.
    Lemma coords_rt cs : NoiseM.qubit_coords m' cs = rmap rc (NoiseM.qubit_coords m cs).
    Proof.
      unfold NoiseM.qubit_coords. rewrite superset_rt. destruct (strict_superset _ _); [reflexivity|].
      change (@nil instr) with (rc []) at 1. rewrite <- (map_id cs) at 1. apply foldM_rmap. intros b [q x] _. cbn [fst snd].
      apply (bind_rmap f). { unfold dget_err. destruct H as (_ & _ & _ & X & _). rewrite X. now destruct (dget q (inds m)). }
      intros i _. cbn [rmap]. now rewrite <- append_rc.
    Qed.
    Lemma target_eq q k : meas_target m' q k = meas_target m q k.
    Proof. destruct H as (_ & _ & X & _ & Y & _). unfold meas_target, dget_err. now rewrite X, Y. Qed.
    Lemma target_tr q k t : meas_target m q k = Ok t -> rt t = t.
    Proof.
      unfold meas_target. intros E. apply bind_ok in E. destruct E as (l & _ & E). cbv zeta in E. destruct (_ || _)%bool; [discriminate|].
      apply bind_ok in E. destruct E as (a & _ & [= <-]). reflexivity.
    Qed.
  End Model.
End Number.
