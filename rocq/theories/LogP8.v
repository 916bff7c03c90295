(** Proofs about the transversal gates, part 8: CNOT between two layouts of equal size. *)
From Coq Require Import QArith Qcanon.
From Verif Require Import Base Lib StimM NoiseM DetM LayoutM SpecLayout LayoutP LayoutP2 SetupP GenM GenP SpecGen GeomP BlockM SpecTrack TrackP
  RoundP LiftP SpecLog LogM LogP LogP2 LogP3 LogP4 LogP5 LogP6 LogP7.
Open Scope Z_scope.

Definition qsum (l : list Qc) : Qc := fold_right Qcplus 0%Qc l.
Lemma qsum_perm l l' : Permutation l l' -> qsum l = qsum l'.
Proof. induction 1 as [|x a b _ IH|x y a|a b c _ I1 _ I2]; [reflexivity|cbn; unfold qsum in IH; now rewrite IH|cbn; ring|congruence]. Qed.
Lemma qsum_sub {A} (f g : A -> Qc) l : qsum (map (fun x => f x - g x)%Qc l) = (qsum (map f l) - qsum (map g l))%Qc.
Proof. induction l as [|x l IH]; cbn; [ring|]. unfold qsum in IH. rewrite IH. ring. Qed.
Lemma qsum_add {A} (f : A -> Qc) k l : qsum (map (fun x => f x + k)%Qc l) = (qsum (map f l) + zq (Z.of_nat (length l)) * k)%Qc.
Proof.
  induction l as [|x l IH]; [change (zq (Z.of_nat (length (@nil A)))) with 0%Qc; cbn [map qsum fold_right]; ring|]. cbn [map qsum fold_right length]. fold (qsum (map (fun x => f x + k)%Qc l)). fold (qsum (map f l)).
  rewrite IH, Nat2Z.inj_succ, <- Z.add_1_l, zq_add. change (zq 1) with 1%Qc. ring.
Qed.
Lemma qsum_const {A} k (l : list A) : qsum (map (fun _ => k) l) = (zq (Z.of_nat (length l)) * k)%Qc.
Proof.
  induction l as [|x l IH]; [change (zq (Z.of_nat (length (@nil A)))) with 0%Qc; cbn [map qsum fold_right]; ring|]. cbn [map qsum fold_right length]. fold (qsum (map (fun _ => k) l)).
  rewrite IH, Nat2Z.inj_succ, <- Z.add_1_l, zq_add. change (zq 1) with 1%Qc. ring.
Qed.

(** * The attributes *)
Lemma alone_get qs : forall d d', foldM (fun d a => Ok (dset a [a] d)) qs d = Ok d' ->
  forall a : string, dget a d' = if mem a qs then Some [a] else dget a d.
Proof.
  induction qs as [|q qs IH]; intros d d' H a; cbn [foldM bind] in H; [injection H as <-; reflexivity|].
  rewrite (IH _ _ H a), mem_cons, dget_dset. destruct (mem a qs); [now rewrite orb_true_r|]. rewrite orb_false_r.
  destruct (eqb_spec q a) as [->|N]; [now rewrite eqb_refl|]. destruct (eqb_spec a q); [congruence|reflexivity].
Qed.
Lemma paired_get (f : dict string string) qs : forall d d', foldM (fun d a => do b <- dget_err a f; Ok (dset a [a; b] d)) qs d = Ok d' ->
  forall a, dget a d' = if mem a qs then Some [a; odef a (dget a f)] else dget a d.
Proof.
  induction qs as [|q qs IH]; intros d d' H a; cbn [foldM] in H; [injection H as <-; reflexivity|].
  apply bind_ok in H as [d1 [H1 H]]. apply bind_ok in H1 as [b [Eb H1]]. injection H1 as <-.
  rewrite (IH _ _ H a), mem_cons, dget_dset. destruct (mem a qs); [now rewrite orb_true_r|]. rewrite orb_false_r.
  unfold dget_err in Eb. destruct (eqb_spec q a) as [->|N].
  - rewrite eqb_refl. destruct (dget a f); [|discriminate]. now injection Eb as ->.
  - destruct (eqb_spec a q); [congruence|reflexivity].
Qed.
Lemma new_stab_keys l gate nd : new_stab_dict l gate = Ok nd -> NoDup (dkeys nd).
Proof.
  unfold new_stab_dict. intros H. apply bind_ok in H as [qs [_ H]].
  assert (G : forall qs d nd, NoDup (dkeys d) -> foldM (fun d a => do v <- lparam l gate a; if is_none v then Err ValueError
           else do n <- pget "new_stab_gen" v; do x <- as_str_list n; Ok (dset a x d)) qs d = Ok nd -> NoDup (dkeys nd)).
  { clear. induction qs as [|q qs IH]; intros d nd N H; cbn [foldM] in H; [now injection H as <-|].
    apply bind_ok in H as [d1 [H1 H]]. apply (IH d1 nd); [|exact H]. apply bind_ok in H1 as [v [_ H1]]. destruct (is_none v); [discriminate|].
    apply bind_ok in H1 as [n [_ H1]]. apply bind_ok in H1 as [x [_ H1]]. injection H1 as <-. now apply NoDup_dset. }
  apply (G qs []) with (2 := H). constructor.
Qed.
Lemma choose_in lc lt monos m : choose_mapping lc lt monos = Ok (Some m) -> In m monos /\ exists base, forall ct, In ct m -> vector lc lt ct = Ok base.
Proof.
  unfold choose_mapping.
  assert (Par : forall base m, all_parallel lc lt base m = Ok true -> forall ct, In ct m -> vector lc lt ct = Ok base).
  { intros base. induction m0 as [|x m0 IH]; intros H ct I; [destruct I|]. cbn [all_parallel] in H. apply bind_ok in H as [v [Ev H]].
    destruct (eqb_spec v base) as [->|]; [|discriminate]. destruct I as [<-|I]; [exact Ev|now apply IH]. }
  assert (G : forall ms acc, foldM (fun acc m => match m with [] => Err StopIteration
      | ct :: _ => do base <- vector lc lt ct; do ok <- all_parallel lc lt base m; Ok (if ok : bool then Some m else acc) end) ms acc = Ok (Some m) ->
    acc = Some m \/ In m ms /\ exists base, forall ct, In ct m -> vector lc lt ct = Ok base).
  { induction ms as [|x ms IH]; intros acc H; cbn [foldM] in H; [injection H as ->; now left|].
    apply bind_ok in H as [acc1 [H1 H]]. destruct (IH _ H) as [E|[I B]]; [|right; split; [now right|exact B]]. subst acc1.
    destruct x as [|ct x]; [discriminate|]. apply bind_ok in H1 as [base [Eb H1]]. apply bind_ok in H1 as [ok [Eo H1]].
    destruct ok; [|injection H1 as ->; now left]. injection H1 as <-. right. split; [now left|]. exists base. now apply Par. }
  intros H. destruct (G _ _ H) as [E|K]; [discriminate|exact K].
Qed.

(** * The circuit *)
Definition cnot_op (dc dt : list string) (fwd bwd : string -> string) (P : pauli string) : pauli string :=
  Pauli (fun q => xorb (px P q) (mem q dt && px P (bwd q))) (fun q => xorb (pz P q) (mem q dc && pz P (fwd q))).
Section Track.
  Context (ord : nat -> list string -> list string) (ordp : nat -> list (string * string) -> list (string * string)).
  Hypothesis Hordp : forall n s, Permutation (ordp n s) s.
  Context (lc lt : layout) (dc dt : list string) (gate : string) (fwd bwd : string -> string).
  Hypothesis Hdc : get_role lc "data" = Ok dc.
  Hypothesis Hdt : get_role lt "data" = Ok dt.
  Hypothesis Hg : cnot_label lc lt = Ok gate.
  Hypothesis Hc : trans_code_ok lc = true.
  Hypothesis Ht : trans_code_ok lt = true.
  Hypothesis Hf : forall q, In q dc -> In (fwd q) dt /\ bwd (fwd q) = q.
  Hypothesis Hb : forall q, In q dt -> In (bwd q) dc /\ fwd (bwd q) = q.
  Hypothesis Hdis : forall q, In q dc -> ~ In q dt.
  Hypothesis Ha : forall q, In q dc -> lparam lc gate q = Ok (PDict [("cnot", PStr (fwd q))]).
  Lemma cnot_track sel P : ok_blocks (trans_cnot_blocks ord ordp lc lt) /\
    bk (lg_blocks (trans_cnot_blocks ord ordp lc lt)) sel P (cnot_op dc dt fwd bwd P).
  Proof.
    unfold trans_cnot_blocks. rewrite Hc, Ht, Hdc, Hdt, Hg. cbn [negb bind].
    assert (E : mapM (fun q => do v <- lparam lc gate q; if is_none v then Err ValueError else
        do t <- pget "cnot" v; match t with PStr b => Ok (q, b) | _ => Err Unmodelled end) dc = Ok (map (fun q => (q, fwd q)) dc)).
    { assert (G : forall qs, incl qs dc -> mapM (fun q => do v <- lparam lc gate q; if is_none v then Err ValueError else
        do t <- pget "cnot" v; match t with PStr b => Ok (q, b) | _ => Err Unmodelled end) qs = Ok (map (fun q => (q, fwd q)) qs)); [|apply G, incl_refl].
      induction qs as [|q qs IH]; intros I; [reflexivity|]. cbn [mapM map]. rewrite Ha by (apply I; now left). cbn [bind is_none pget].
      unfold dget_err. cbn [dget]. rewrite eqb_refl. cbn [of_opt bind]. rewrite IH by (intros x Hx; apply I; now right). reflexivity. }
    rewrite E. cbn [bind generator]. split.
    - unfold ok_blocks, tick_block. repeat constructor.
    - unfold tick_block. cbn [lg_blocks lg_block flat_map lg_call std_gate is_two app]. rewrite !app_nil_r. rewrite pair_gates_flat.
      set (ps := ordp 0%nat _).
      assert (Np : NoDup ps) by (eapply Permutation_NoDup; [symmetry; apply Hordp|apply dedup_NoDup]).
      assert (Ip : forall x, In x ps <-> In (fst x) dc /\ snd x = fwd (fst x)).
      { intros [x y]. cbn [fst snd]. unfold ps. split.
        - intros I. eapply Permutation_in in I; [|apply Hordp]. apply (proj1 (dedup_In _ _)) in I. apply in_map_iff in I as (q & [= <- <-] & I). auto.
        - intros [I ->]. eapply Permutation_in; [symmetry; apply Hordp|]. apply (proj2 (dedup_In _ _)). apply in_map_iff. eauto. }
      eapply bk_eq; [apply bk_CX|apply peq_refl|].
      { intros p p' Hp Hp' Eq. apply Ip in Hp as [Hp _]. apply Ip in Hp' as [Hp' Es]. rewrite Es in Eq. rewrite Eq in Hp.
        apply (Hdis _ Hp). now apply Hf. }
      intros q. unfold cnot_op. cbn [px pz]. split; f_equal; unfold cx_x, cx_z.
      + destruct (mem q dt) eqn:M.
        * apply mem_In in M. destruct (Hb q M) as [I Eq]. rewrite (xor_unique ps _ (bwd q, q) Np).
          -- cbn [fst snd]. now rewrite eqb_refl.
          -- apply Ip. cbn [fst snd]. auto.
          -- intros [x y] Hy N. cbn [fst snd]. apply Ip in Hy as [Hx Ey]. cbn [fst snd] in *. destruct (eqb_spec y q) as [E'|]; [|reflexivity]. exfalso.
             apply N. subst y. rewrite <- E'. f_equal. symmetry. now apply Hf.
        * apply xorl_false. intros v Hv. apply in_map_iff in Hv as ([x y] & <- & Hy). cbn [fst snd]. apply Ip in Hy as [Hx Ey]. cbn [fst snd] in *.
          destruct (eqb_spec y q) as [->|]; [|reflexivity]. exfalso. apply Hf in Hx as [Hx _]. rewrite <- Ey in Hx. apply mem_In in Hx. congruence.
      + destruct (mem q dc) eqn:M.
        * apply mem_In in M. rewrite (xor_unique ps _ (q, fwd q) Np).
          -- cbn [fst snd]. now rewrite eqb_refl.
          -- apply Ip. cbn [fst snd]. auto.
          -- intros [x y] Hy N. cbn [fst snd]. apply Ip in Hy as [Hx Ey]. cbn [fst snd] in *. destruct (eqb_spec x q) as [E'|]; [|reflexivity]. exfalso.
             apply N. now subst.
        * apply xorl_false. intros v Hv. apply in_map_iff in Hv as ([x y] & <- & Hy). cbn [fst snd]. apply Ip in Hy as [Hx Ey]. cbn [fst snd] in *.
          destruct (eqb_spec x q) as [->|]; [|reflexivity]. exfalso. apply mem_In in Hx. congruence.
  Qed.
End Track.
