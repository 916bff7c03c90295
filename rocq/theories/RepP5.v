(** The transversal gates on generators and operators. *)
From Coq Require Import QArith Qcanon.
From Verif Require Import Base Lib StimM SetupM NoiseM SpecNoise NoiseP LayoutM SpecLayout LayoutP MatM MatP DetM SpecDet DetP DetCountP DetLinP DetDetP
  SpecGen GeomP BlockM LogM SpecLog ExpM SpecTrack TrackP LiftP ExpP ExpP2 ExpP5 ActP RoundP RepP RepP2 RepP3 LogP LogP2 LogP4.
Open Scope Z_scope.

(** * The matrix of an update *)
Lemma qsum_sub {A} (f g : A -> Qc) l : qsum (map (fun k => f k - g k)%Qc l) = (qsum (map f l) - qsum (map g l))%Qc.
Proof. induction l as [|x l IH]; cbn [map qsum fold_right]; [ring|]. unfold qsum in *. cbn [map fold_right]. rewrite IH. ring. Qed.
Lemma dmat_out nd a x : dget a nd = None -> dmat nd a x = eqb a x.
Proof. intros E. unfold dmat. now rewrite E. Qed.
Lemma dmat_some nd a v x : dget a nd = Some v -> dmat nd a x = mem x v.
Proof. intros E. unfold dmat. now rewrite E. Qed.
Lemma mem1 (x a : string) : mem x [a] = eqb a x.
Proof. cbn. rewrite orb_false_r. apply eqb_sym. Qed.
Lemma mem2 (x a b : string) : mem x [a; b] = eqb a x || eqb b x.
Proof. cbn. rewrite orb_false_r. now rewrite (eqb_sym x a), (eqb_sym x b). Qed.
Lemma xor_two (x a b : string) : b <> a -> eqb a x || eqb b x = xorb (eqb a x) (eqb b x).
Proof. intros N. destruct (eqb_spec a x), (eqb_spec b x); try reflexivity. congruence. Qed.
Lemma xorl_pick ls a (f : string -> bool) : NoDup ls -> In a ls -> xorl (map (fun k => eqb a k && f k) ls) = f a.
Proof. intros N H. rewrite <- (xorl_single a f ls N H). apply DetP.xorl_ext. intros k _. now rewrite (eqb_sym k a). Qed.
Lemma shape_invol ls nd : NoDup ls -> shape nd -> (forall a, dmem a nd = true -> In a ls) -> invol ls (dmat nd).
Proof.
  intros N S K. assert (Kn : forall a v, dget a nd = Some v -> In a ls) by (intros a v E; apply K; unfold dmem; now rewrite E).
  constructor.
  - intros a x Ha Hx. destruct (dget a nd) as [v|] eqn:E.
    + destruct (S a v E) as [-> |[(b & Ne & -> & Eb)|(b & -> & Eb)]].
      * rewrite (DetP.xorl_ext _ (fun k => eqb a k && dmat nd k x)) by (intros k _; now rewrite (dmat_some nd a _ k E), mem1).
        rewrite xorl_pick, (dmat_some nd a _ x E), mem1 by assumption. reflexivity.
      * rewrite (DetP.xorl_ext _ (fun k => xorb (eqb a k && dmat nd k x) (eqb b k && dmat nd k x))).
        2:{ intros k _. rewrite (dmat_some nd a _ k E), mem2, xor_two by exact Ne. destruct (eqb a k), (eqb b k), (dmat nd k x); reflexivity. }
        rewrite RoundP.xorl_map_xorb, !xorl_pick by eauto. rewrite (dmat_some nd a _ x E), (dmat_some nd b _ x Eb), mem1, mem2, xor_two by exact Ne.
        destruct (eqb a x), (eqb b x); reflexivity.
      * rewrite (DetP.xorl_ext _ (fun k => eqb b k && dmat nd k x)) by (intros k _; now rewrite (dmat_some nd a _ k E), mem1).
        rewrite xorl_pick by eauto. now rewrite (dmat_some nd b _ x Eb), mem1.
    + rewrite (DetP.xorl_ext _ (fun k => eqb a k && dmat nd k x)) by (intros k _; now rewrite (dmat_out nd a k E)).
      rewrite xorl_pick by assumption. now apply dmat_out.
  - exists (fun a x => match dget a nd with
                       | Some [c] => q_of_bool (eqb c x)
                       | Some [c; b] => q_of_bool (eqb c x) - q_of_bool (eqb b x)
                       | _ => q_of_bool (eqb a x) end)%Qc. split.
    + intros a x Ha Hx. destruct (dget a nd) as [v|] eqn:E.
      * destruct (S a v E) as [-> |[(b & Ne & -> & Eb)|(b & -> & Eb)]].
        -- rewrite (qsum_eye ls a (fun k => q_of_bool (dmat nd k x))) by assumption. now rewrite (dmat_some nd a _ x E), mem1.
        -- rewrite (qsum_ext _ (fun k => q_of_bool (eqb a k) * q_of_bool (dmat nd k x) - q_of_bool (eqb b k) * q_of_bool (dmat nd k x))%Qc).
           2:{ intros k _. ring. }
           rewrite qsum_sub, (qsum_eye ls a (fun k => q_of_bool (dmat nd k x))), (qsum_eye ls b (fun k => q_of_bool (dmat nd k x))) by eauto.
           rewrite (dmat_some nd a _ x E), (dmat_some nd b _ x Eb), mem1, mem2. destruct (eqb_spec a x), (eqb_spec b x); cbn [orb q_of_bool]; try ring. congruence.
        -- rewrite (qsum_eye ls b (fun k => q_of_bool (dmat nd k x))) by eauto. now rewrite (dmat_some nd b _ x Eb), mem1.
      * rewrite (qsum_eye ls a (fun k => q_of_bool (dmat nd k x))) by assumption. now rewrite (dmat_out nd a x E).
    + intros a x Ha Hx. destruct (dget a nd) as [v|] eqn:E.
      * rewrite (dmat_some nd a _ x E). destruct (S a v E) as [-> |[(b & Ne & -> & Eb)|(b & -> & Eb)]]; rewrite ?mem1, ?mem2, ?nz_bool; try reflexivity.
        destruct (eqb_spec a x), (eqb_spec b x); try congruence; reflexivity.
      * rewrite nz_bool. symmetry. now apply dmat_out.
Qed.
Lemma shape_closed nd a x : shape nd -> dmem a nd = true -> dmat nd a x = true -> dmem x nd = true.
Proof.
  intros S M E. unfold dmem in M. destruct (dget a nd) as [v|] eqn:Ea; [|discriminate]. rewrite (dmat_some nd a _ x Ea) in E. unfold dmem.
  destruct (S a v Ea) as [-> |[(b & Ne & -> & Eb)|(b & -> & Eb)]]; rewrite ?mem1, ?mem2 in E.
  - destruct (eqb_spec a x) as [<-|]; [now rewrite Ea|discriminate].
  - destruct (eqb_spec a x) as [<-|]; [now rewrite Ea|]. destruct (eqb_spec b x) as [<-|]; [now rewrite Eb|discriminate].
  - destruct (eqb_spec b x) as [<-|]; [now rewrite Eb|discriminate].
Qed.

(** * Operators *)
Definition form (data : list string) (P Q : pauli string) : bool :=
  xorl (map (fun q => xorb (px P q && pz Q q) (pz P q && px Q q)) data).
Record good_op (data : list string) (op : pauli string -> pauli string) : Prop := {
  go_peq : forall p q, peq p q -> peq (op p) (op q);
  go_add : forall p q, peq (op (padd p q)) (padd (op p) (op q));
  go_out : forall p q, ~ In q data -> px (op p) q = px p q /\ pz (op p) q = pz p q;
  go_none : forall p q, (forall x, In x data -> px p x = false /\ pz p x = false) -> In q data -> px (op p) q = false /\ pz (op p) q = false;
  go_two : forall p, peq (op (op p)) p;
  go_form : NoDup data -> forall p q, form data (op p) (op q) = form data p q }.

Lemma pairing_perm data pf : pairing data pf -> NoDup data -> Permutation (map (fun q => odef q (pf q)) data) data.
Proof.
  intros H N. assert (Inj : forall x y, In x data -> In y data -> odef x (pf x) = odef y (pf y) -> x = y).
  { intros x y Hx Hy E. destruct (pf x) as [bx|] eqn:Ex, (pf y) as [b|] eqn:Ey; cbn [odef] in E.
    - subst bx. apply H in Ex as (_ & _ & Ex & _), Ey as (_ & _ & Ey & _). congruence.
    - subst bx. apply H in Ex as (_ & _ & Ex & _). congruence.
    - subst b. apply H in Ey as (_ & _ & Ey & _). congruence.
    - exact E. }
  apply NoDup_Permutation_bis.
  - clear H. induction N as [|x l Hx N IH]; [constructor|]. cbn [map]. constructor.
    + intros Hi. apply in_map_iff in Hi as (y & E & Hy). apply Inj in E; [|now right|now left]. now subst y.
    + apply IH. intros y z Hy Hz. apply Inj; now right.
  - rewrite map_length. lia.
  - intros x Hi. apply in_map_iff in Hi as (y & <- & Hy). destruct (pf y) eqn:E; [|exact Hy]. now apply H in E.
Qed.
Lemma xorl_perm (f : string -> bool) a b : Permutation a b -> xorl (map f a) = xorl (map f b).
Proof.
  induction 1 as [|x a b _ IH|x y a|a b c _ IH1 _ IH2]; [reflexivity| | |congruence].
  - cbn [map]. now rewrite !GeomP.xorl_cons, IH.
  - cbn [map]. rewrite !GeomP.xorl_cons. destruct (f x), (f y), (xorl (map f a)); reflexivity.
Qed.
Lemma pairing_sum data pf f : pairing data pf -> NoDup data -> xorl (map (fun q => f (odef q (pf q))) data) = xorl (map f data).
Proof. intros H N. rewrite <- (xorl_perm f _ _ (pairing_perm data pf H N)), map_map. reflexivity. Qed.
Lemma s_op_good data pf loc : pairing data pf -> good_op data (s_op data pf loc).
Proof.
  intros H. constructor.
  - intros p q E x. cbn [s_op px pz]. destruct (E x) as [-> ->]. split; [reflexivity|]. f_equal. f_equal. destruct (pf x) as [b|]; [|reflexivity]. apply E.
  - intros p q x. cbn [s_op padd px pz]. split; [reflexivity|]. destruct (pf x) as [b|]; destruct (pz p x), (pz q x), (px p x), (px q x), (mem x data), (is_s (loc x));
      try destruct (px p b), (px q b); reflexivity.
  - intros p q Hq. cbn [s_op px pz]. split; [reflexivity|]. rewrite (mem_not q data Hq). cbn [andb]. destruct (pf q) eqn:E; [apply H in E; tauto|].
    now rewrite !xorb_false_r.
  - intros p q Z Hq. cbn [s_op px pz]. destruct (Z q Hq) as [-> ->]. split; [reflexivity|]. rewrite andb_false_r, xorb_false_l, xorb_false_r.
    destruct (pf q) as [b|] eqn:E; [|reflexivity]. apply H in E as (_ & E & _). now apply Z.
  - intros p q. cbn [s_op px pz]. split; [reflexivity|]. destruct (pf q) as [b|]; destruct (pz p q), (px p q), (mem q data && is_s (loc q)); try destruct (px p b); reflexivity.
  - intros N p q. unfold form. cbn [s_op px pz].
    set (F := fun x => match pf x with Some b => px p x && px q b | None => false end).
    set (G := fun x => match pf x with Some b => px p b && px q x | None => false end).
    rewrite (DetP.xorl_ext _ (fun x => xorb (xorb (px p x && pz q x) (pz p x && px q x)) (xorb (F x) (G x)))).
    2:{ intros x _. unfold F, G. destruct (pf x) as [b|]; destruct (pz p x), (pz q x), (px p x), (px q x), (mem x data && is_s (loc x)); try destruct (px p b), (px q b); reflexivity. }
    rewrite RoundP.xorl_map_xorb. replace (xorl (map (fun x => xorb (F x) (G x)) data)) with false; [apply xorb_false_r|].
    rewrite RoundP.xorl_map_xorb, <- (pairing_sum data pf G H N).
    rewrite (DetP.xorl_ext (fun x => G (odef x (pf x))) F); [now rewrite xorb_nilpotent|].
    intros x _. unfold F, G. destruct (pf x) as [b|] eqn:E; cbn [odef]; [|now rewrite E]. apply H in E as (_ & _ & -> & _). reflexivity.
Qed.
Lemma h_op_good data pf : pairing data pf -> good_op data (h_op data pf).
Proof.
  intros H.
  assert (Two : forall q, odef (odef q (pf q)) (pf (odef q (pf q))) = q).
  { intros q. destruct (pf q) as [b|] eqn:E; cbn [odef]; [|now rewrite E]. apply H in E as (_ & _ & -> & _). reflexivity. }
  assert (In' : forall q, mem (odef q (pf q)) data = mem q data).
  { intros q. destruct (pf q) as [b|] eqn:E; [|reflexivity]. cbn [odef]. apply H in E as (E1 & E2 & _). apply mem_In in E1, E2. congruence. }
  assert (Out : forall q, ~ In q data -> odef q (pf q) = q).
  { intros q Hq. destruct (pf q) eqn:E; [apply H in E; tauto|reflexivity]. }
  constructor.
  - intros p q E x. unfold h_op, had. cbn [px pz]. destruct (E (odef x (pf x))) as [-> ->]. auto.
  - intros p q x. unfold h_op, had. cbn [px pz padd]. destruct (mem x data); auto.
  - intros p q Hq. unfold h_op, had. cbn [px pz]. rewrite (mem_not q data Hq), (Out q Hq). auto.
  - intros p q Z Hq. unfold h_op, had. cbn [px pz]. rewrite (proj2 (mem_In q data) Hq).
    destruct (Z (odef q (pf q))) as [-> ->]; [|auto]. apply mem_In. rewrite In'. now apply mem_In.
  - intros p q. unfold h_op, had. cbn [px pz]. rewrite In', Two. destruct (mem q data); auto.
  - intros N p q. unfold form. rewrite <- (pairing_sum data pf (fun x => xorb (px p x && pz q x) (pz p x && px q x)) H N).
    apply DetP.xorl_ext. intros x Hx. unfold h_op, had. cbn [px pz]. rewrite (proj2 (mem_In x data) Hx).
    apply xorb_comm.
Qed.

(** * Operators and generators *)
Section Ops.
  Context (st : stabilizers) (ancs data : list string) (op : pauli string -> pauli string) (nd : dict string (list string)).
  Context (bl : (nat -> list string -> list string) -> (nat -> list (string * string) -> list (string * string)) -> blocks).
  Hypothesis Na : NoDup ancs.
  Hypothesis Nd : NoDup data.
  Hypothesis Hda : forall q, In q data -> ~ In q ancs.
  Hypothesis Hst : forall a, In a ancs -> NoDup (fst (st a)) /\ NoDup (snd (st a)) /\ incl (fst (st a)) data /\ incl (snd (st a)) data.
  Hypothesis A : label_act bl st ancs op nd.
  Hypothesis G : good_op data op.
  Lemma nd_dom a v : dget a nd = Some v -> In a ancs.
  Proof. intros E. apply (la_dom _ _ _ _ _ A). unfold dmem. now rewrite E. Qed.
  Lemma nd_in a v : dget a nd = Some v -> incl v ancs /\ NoDup v.
  Proof.
    intros E. destruct (la_shape _ _ _ _ _ A a v E) as [-> |[(b & Ne & -> & Eb)|(b & -> & Eb)]].
    - split; [intros x [<-|[]]; now apply nd_dom in E|repeat constructor; auto].
    - split; [intros x [<-|[<-|[]]]; [now apply nd_dom in E|now apply nd_dom in Eb]|]. repeat constructor; [|auto]. intros [->|[]]. congruence.
    - split; [intros x [<-|[]]; now apply nd_dom in Eb|repeat constructor; auto].
  Qed.
  Lemma xorl_odd (f : string -> bool) v : xorl (map f v) = Nat.odd (length (filter f v)).
  Proof.
    induction v as [|x v IH]; [reflexivity|]. cbn [map filter]. rewrite GeomP.xorl_cons, IH. destruct (f x); cbn [length]; [|apply xorb_false_l].
    now rewrite Nat.odd_succ, <- Nat.negb_odd, xorb_true_l.
  Qed.
  Lemma prod_sum (f : string -> bool) v : NoDup v -> incl v ancs -> Nat.odd (length (filter f v)) = xorl (map (fun a => mem a v && f a) ancs).
  Proof. intros Nv I. rewrite <- xorl_odd, (xorl_mem f ancs v Na I). now rewrite nodup_fixed_point. Qed.
  Lemma gens_sum v : NoDup v -> incl v ancs -> peq (gens st v) (Pauli (sumx st ancs (fun b => mem b v)) (sumz st ancs (fun b => mem b v))).
  Proof. intros Nv I q. cbn [gens px pz]. unfold prod_x, prod_z. rewrite !prod_sum by assumption. split; reflexivity. Qed.
  Lemma gens_one a : peq (gens st [a]) (Pauli (on (fst (st a))) (on (snd (st a)))).
  Proof. intros q. cbn [gens px pz]. unfold prod_x, prod_z. rewrite !prod_one. split; reflexivity. Qed.
  Lemma act_acts ord ordp : (forall n s, Permutation (ord n s) s) -> (forall n s, Permutation (ordp n s) s) ->
    num_meas (lg_blocks (bl ord ordp)) = 0%nat -> acts_as st ancs (lg_blocks (bl ord ordp)) (dmat nd).
  Proof.
    intros Ho Hp Hn. destruct (la_bk _ _ _ _ _ A ord ordp Ho Hp) as [_ B].
    apply (op_acts_as st ancs (lg_blocks (bl ord ordp)) op (dmat nd)); auto.
    - apply G.
    - apply G.
    - intros Z q. destruct (in_dec string_dec q data) as [Hq|Hq].
      + destruct (go_none _ _ G (Pauli (fun _ => false) (fun q => mem q ancs && Z q)) q) as [-> ->]; auto.
        * intros x Hx. cbn [px pz]. rewrite (mem_not x ancs) by auto. auto.
        * cbn [px pz]. rewrite (mem_not q ancs) by auto. auto.
      + now apply (go_out _ _ G).
    - intros a Ha. apply (la_dom _ _ _ _ _ A) in Ha. unfold dmem in Ha. destruct (dget a nd) as [v|] eqn:E; [|discriminate].
      destruct (nd_in a v E) as [I Nv]. destruct (la_gen _ _ _ _ _ A a v E) as [E1 _]. intros q.
      destruct (go_peq _ _ G _ _ (gens_one a) q) as [E2 E3]. destruct (E1 q) as [E4 E5], (gens_sum v Nv I q) as [E6 E7].
      rewrite <- E2, <- E3, E4, E5, E6, E7. cbn [px pz]. unfold sumx, sumz.
      split; f_equal; apply map_ext; intros b; now rewrite (dmat_some nd a v b E).
  Qed.
  (* commutation with a generator *)
  Lemma anti_form p a : In a ancs -> anti st (px p) (pz p) a = form data p (gens st [a]).
  Proof.
    intros Ha. destruct (Hst a Ha) as (N1 & N2 & I1 & I2). unfold anti, form.
    rewrite (DetP.xorl_ext (fun q => xorb (px p q && pz (gens st [a]) q) (pz p q && px (gens st [a]) q)) (fun q => xorb (mem q (fst (st a)) && pz p q) (mem q (snd (st a)) && px p q))).
    2:{ intros q _. destruct (gens_one a q) as [-> ->]. cbn [px pz]. unfold on. destruct (px p q), (pz p q), (mem q (fst (st a))), (mem q (snd (st a))); reflexivity. }
    rewrite RoundP.xorl_map_xorb, (xorl_mem (pz p) data _ Nd I1), (xorl_mem (px p) data _ Nd I2), !nodup_fixed_point by assumption. reflexivity.
  Qed.
  Lemma form_ext p q q' : peq q q' -> form data p q = form data p q'.
  Proof. intros E. unfold form. apply DetP.xorl_ext. intros x _. now destruct (E x) as [-> ->]. Qed.
  Lemma form_gens p v : form data p (gens st v) = xorl (map (fun a => form data p (gens st [a])) v).
  Proof.
    induction v as [|a v IH].
    - cbn [map]. unfold form. apply GeomP.xorl_false. intros b Hb. apply in_map_iff in Hb as (q & <- & _). cbn. now rewrite !andb_false_r.
    - cbn [map]. rewrite GeomP.xorl_cons, <- IH. unfold form. rewrite <- RoundP.xorl_map_xorb. apply DetP.xorl_ext. intros q _.
      cbn [gens px pz]. unfold prod_x, prod_z. rewrite !prod_one. cbn [filter].
      assert (E : forall (b : bool) (w : list string), Nat.odd (length (if b then a :: w else w)) = xorb b (Nat.odd (length w))).
      { intros b w. destruct b; [|now rewrite xorb_false_l]. cbn [length]. rewrite Nat.odd_succ, <- Nat.negb_odd. now destruct (Nat.odd (length w)). }
      rewrite !E. destruct (px p q), (pz p q), (mem q (fst (st a))), (mem q (snd (st a))); destruct (Nat.odd _), (Nat.odd _); reflexivity.
  Qed.
  Lemma op_commutes p : (forall a, In a ancs -> anti st (px p) (pz p) a = false) ->
    forall a, In a ancs -> anti st (px (op p)) (pz (op p)) a = false.
  Proof.
    intros C a Ha. rewrite anti_form by exact Ha. pose proof Ha as Ha'. apply (la_dom _ _ _ _ _ A) in Ha'. unfold dmem in Ha'.
    destruct (dget a nd) as [v|] eqn:E; [|discriminate]. destruct (nd_in a v E) as [I Nv]. destruct (la_gen _ _ _ _ _ A a v E) as [_ E2].
    rewrite <- (form_ext _ _ _ E2), (go_form _ _ G Nd), form_gens. apply GeomP.xorl_false. intros b Hb. apply in_map_iff in Hb as (x & <- & Hx).
    rewrite <- anti_form by auto. auto.
  Qed.
End Ops.
Lemma trans_s_quiet ord ordp l : num_meas (lg_blocks (trans_s_blocks ord ordp l)) = 0%nat.
Proof.
  rewrite <- mlab_len. cut (Forall quiet (trans_s_blocks ord ordp l)); [intros Q; now rewrite (proj2 (quiet_blocks _ Q))|].
  unfold trans_s_blocks. destruct (negb _); [repeat constructor|]. destruct (get_role l "data"); [|repeat constructor]. destruct (first_log l); [|repeat constructor]. cbn [bind].
  destruct (trans_attrs _ _ _ _) as [[pairs ls]|]; [|repeat constructor]. cbn [bind generator]. unfold tick_block. repeat constructor.
Qed.
Lemma trans_h_quiet ord ordp l : num_meas (lg_blocks (trans_h_blocks ord ordp l)) = 0%nat.
Proof.
  rewrite <- mlab_len. cut (Forall quiet (trans_h_blocks ord ordp l)); [intros Q; now rewrite (proj2 (quiet_blocks _ Q))|].
  unfold trans_h_blocks. destruct (negb _); [repeat constructor|]. destruct (get_role l "data"); [|repeat constructor]. destruct (first_log l); [|repeat constructor]. cbn [bind].
  destruct (trans_attrs _ _ _ _) as [[pairs ls]|]; [|repeat constructor]. cbn [bind generator]. unfold tick_block. repeat constructor.
Qed.
