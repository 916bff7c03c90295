(** Proofs about the Pauli tracker: composition, from labels to indices, and the
    effect of the calls of a block. *)
From Coq Require Import QArith Qcanon.
From Verif Require Import Base Lib StimM SetupM NoiseM SpecNoise NoiseP LayoutM DetM BlockM SpecTrack GeomP.
Open Scope Z_scope.

(** * Composition *)
Section Poly.
  Context {Q : Type} `{Eqb Q}.
  Definition peq (P R : pauli Q) : Prop := forall q, px P q = px R q /\ pz P q = pz R q.
  Definition opeq (P R : option (pauli Q)) : Prop :=
    match P, R with Some a, Some b => peq a b | None, None => True | _, _ => False end.
  Lemma peq_refl P : peq P P. Proof. intros q. auto. Qed.
  Lemma peq_sym P R : peq P R -> peq R P.
  Proof. intros E q. destruct (E q). auto. Qed.
  Lemma peq_trans A B C : peq A B -> peq B C -> peq A C.
  Proof. intros E F q. destruct (E q), (F q). split; congruence. Qed.
  Lemma num_meas_app (a b : list (gate Q)) : num_meas (a ++ b) = (num_meas a + num_meas b)%nat.
  Proof. unfold num_meas. now rewrite filter_app, app_length. Qed.
  Lemma back_ext l s s' (P : pauli Q) : (forall k, (1 <= k <= num_meas l)%nat -> s k = s' k) -> back l s P = back l s' P.
  Proof.
    induction l as [|g l IH]; intros E; [reflexivity|]. cbn [back]. rewrite IH.
    - destruct (back l s' P); [|reflexivity]. destruct g as [n q|]; [|reflexivity].
      assert (M : is_meas n = true \/ forall x y, back1 n q x p = back1 n q y p) by (destruct n; auto).
      destruct M as [M|M]; [|apply M].
      rewrite E; [reflexivity|]. unfold num_meas. cbn [filter measures_gate]. rewrite M. cbn [length]. lia.
    - intros k Hk. apply E. unfold num_meas. cbn [filter]. destruct (measures_gate g); cbn [length]; fold (num_meas l); lia.
  Qed.
  Lemma back_app a b sel (P : pauli Q) :
    back (a ++ b) sel P = match back b sel P with Some R => back a (fun k => sel (k + num_meas b)%nat) R | None => None end.
  Proof.
    induction a as [|g a IH]; cbn [app back]; [now destruct (back b sel P)|]. rewrite IH.
    destruct (back b sel P) as [R|]; [|reflexivity].
    destruct (back a _ R); [|reflexivity]. destruct g; [|reflexivity]. rewrite num_meas_app. reflexivity.
  Qed.
  Lemma put_eq (f g : Q -> bool) q b x : f x = g x -> put f q b x = put g q b x.
  Proof. unfold put. now destruct (eqb q x). Qed.
  Lemma back1_peq n q s P R : peq P R -> opeq (back1 n q s P) (back1 n q s R).
  Proof.
    intros E. destruct (E q) as [E1 E2]. unfold back1. rewrite E1, E2.
    destruct n, (px R q), (pz R q), s; cbn; auto; try exact E; try (intros x; destruct (E x); split; apply put_eq; assumption).
  Qed.
  Lemma back2_peq n a b P R : peq P R -> opeq (back2 n a b P) (back2 n a b R).
  Proof.
    intros E. destruct (E a) as [E1 E2], (E b) as [E3 E4]. unfold back2. rewrite E1, E2, E3, E4.
    destruct n; cbn; auto; intros x; destruct (E x); split; cbn; repeat apply put_eq; assumption.
  Qed.
  Lemma back_peq l sel P R : peq P R -> opeq (back l sel P) (back l sel R).
  Proof.
    intros E. induction l as [|g l IH]; [exact E|]. cbn [back].
    destruct (back l sel P), (back l sel R); cbn [opeq] in IH; try (exfalso; exact IH); [|exact I].
    destruct g; [now apply back1_peq|now apply back2_peq].
  Qed.

  (* the tracker gives [R], pointwise *)
  Definition bk (l : list (gate Q)) (sel : nat -> bool) (P R : pauli Q) : Prop :=
    exists S, back l sel P = Some S /\ peq S R.
  Lemma bk_nil sel P : bk [] sel P P.
  Proof. exists P. split; [reflexivity|apply peq_refl]. Qed.
  Lemma bk_app a b sel P R S : bk b sel P R -> bk a (fun k => sel (k + num_meas b)%nat) R S -> bk (a ++ b) sel P S.
  Proof.
    intros (R' & E & F) (S' & E' & F'). pose proof (back_peq a (fun k => sel (k + num_meas b)%nat) R' R F) as G.
    unfold bk. rewrite back_app, E. rewrite E' in G. destruct (back a _ R') as [T|]; [|destruct G].
    exists T. split; [reflexivity|]. eapply peq_trans; eauto.
  Qed.
  Lemma bk_app_inv a b sel P S : bk (a ++ b) sel P S ->
    exists R, bk b sel P R /\ bk a (fun k => sel (k + num_meas b)%nat) R S.
  Proof.
    intros (S' & E & F). rewrite back_app in E. destruct (back b sel P) as [R|] eqn:Eb; [|discriminate].
    exists R. split; [exists R; split; [exact Eb|apply peq_refl]|]. exists S'. auto.
  Qed.
  Lemma bk_eq l sel P P' R R' : bk l sel P R -> peq P P' -> peq R R' -> bk l sel P' R'.
  Proof.
    intros (S & E & F) EP ER. pose proof (back_peq l sel P P' EP) as G. rewrite E in G.
    destruct (back l sel P') as [T|] eqn:E'; [|destruct G]. exists T. split; [exact E'|].
    eapply peq_trans; [apply peq_sym; exact G|]. eapply peq_trans; [exact F|exact ER].
  Qed.
  Lemma bk_fun l sel P R R' : bk l sel P R -> bk l sel P R' -> peq R R'.
  Proof.
    intros (S & E & F) (S' & E' & F'). rewrite E in E'. injection E' as <-.
    eapply peq_trans; [apply peq_sym; exact F|exact F'].
  Qed.
  Lemma bk_ext l s s' P R : bk l s P R -> (forall k, (1 <= k <= num_meas l)%nat -> s k = s' k) -> bk l s' P R.
  Proof. intros (S & E & F) G. exists S. split; [|exact F]. now rewrite <- (back_ext l s s'). Qed.
  Lemma bk_unitary l s s' P R : bk l s P R -> num_meas l = 0%nat -> bk l s' P R.
  Proof. intros B N. eapply bk_ext; [exact B|]. intros k. lia. Qed.
End Poly.

(** * From labels to indices *)
Definition gate_rel (qi : dict string Z) (g : gate string) (h : gate Z) : Prop :=
  match g, h with
  | G1 n q, G1 n' i => n = n' /\ dget q qi = Some i
  | G2 n a b, G2 n' i j => n = n' /\ dget a qi = Some i /\ dget b qi = Some j
  | _, _ => False
  end.
Definition rep (qi : dict string Z) (p : pauli string) (P : pauli Z) : Prop := represents qi (px p) (pz p) P.

Lemma dget_dvals (qi : dict string Z) q i : dget q qi = Some i -> In i (dvals qi).
Proof. intros E. apply dget_In in E. apply (in_map snd) in E. exact E. Qed.
Lemma put_rep (qi : dict string Z) (f : string -> bool) (F : Z -> bool) a i b q j :
  wf_inds qi -> dget a qi = Some i -> dget q qi = Some j -> F j = f q -> put F i b j = put f a b q.
Proof.
  intros W Ea Eq E. unfold put. destruct (eqb_spec i j) as [->|N], (eqb_spec a q) as [->|N']; auto.
  - exfalso. apply N'. eapply inj_inds; eauto.
  - congruence.
Qed.
Lemma put_out (qi : dict string Z) (F : Z -> bool) q i b j :
  dget q qi = Some i -> ~ In j (dvals qi) -> F j = false -> put F i b j = false.
Proof.
  intros E N Fj. unfold put. destruct (eqb_spec i j) as [->|]; [|exact Fj]. exfalso. apply N. eapply dget_dvals; eauto.
Qed.
Lemma put2_rep qi p P q i x z : wf_inds qi -> dget q qi = Some i -> rep qi p P -> rep qi (put2 p q x z) (put2 P i x z).
Proof.
  intros W E [A B]. split.
  - intros q' j Ej. destruct (A q' j Ej). split; cbn; eapply put_rep; eauto.
  - intros j Hj. destruct (B j Hj). split; cbn; eapply put_out; eauto.
Qed.
Definition orep (qi : dict string Z) (p : option (pauli string)) (P : option (pauli Z)) : Prop :=
  match p, P with Some a, Some b => rep qi a b | None, None => True | _, _ => False end.
Lemma back1_rep qi n q i s p P : wf_inds qi -> dget q qi = Some i -> rep qi p P ->
  orep qi (back1 n q s p) (back1 n i s P).
Proof.
  intros W E R. destruct (proj1 R q i E) as [E1 E2]. unfold back1. rewrite E1, E2.
  destruct n, (px p q), (pz p q), s; cbn; auto; now apply put2_rep.
Qed.
Lemma back2_rep qi n a b i j p P : wf_inds qi -> dget a qi = Some i -> dget b qi = Some j -> rep qi p P ->
  orep qi (back2 n a b p) (back2 n i j P).
Proof.
  intros W Ea Eb R. destruct (proj1 R a i Ea) as [E1 E2], (proj1 R b j Eb) as [E3 E4]. unfold back2. rewrite E1, E2, E3, E4.
  destruct R as [A B]. destruct n; cbn; auto.
  - split; [intros q k Ek; destruct (A q k Ek)|intros k Hk; destruct (B k Hk)]; split; cbn; auto;
      repeat (eapply put_rep; eauto); repeat (eapply put_out; eauto).
  - split; [intros q k Ek; destruct (A q k Ek)|intros k Hk; destruct (B k Hk)]; split; cbn; auto;
      repeat (eapply put_rep; eauto); repeat (eapply put_out; eauto).
  - apply put2_rep; auto. apply put2_rep; auto. split; auto.
Qed.
Lemma num_meas_rel qi l l' : Forall2 (gate_rel qi) l l' -> num_meas l = num_meas l'.
Proof.
  induction 1 as [|g h l l' E F IH]; [reflexivity|]. unfold num_meas in *. cbn [filter].
  replace (measures_gate h) with (measures_gate g); [destruct (measures_gate g); cbn [length]; lia|].
  destruct g, h; cbn in E; intuition; now subst.
Qed.
Lemma back_rep qi l l' sel p P : wf_inds qi -> Forall2 (gate_rel qi) l l' -> rep qi p P ->
  orep qi (back l sel p) (back l' sel P).
Proof.
  intros W F R. induction F as [|g h l l' E F IH]; [exact R|]. cbn [back].
  destruct (back l sel p), (back l' sel P); cbn [orep] in IH; try (exfalso; exact IH); [|exact I]. rewrite (num_meas_rel _ _ _ F).
  destruct g, h; cbn in E; try tauto.
  - destruct E as [-> E]. apply back1_rep; auto.
  - destruct E as (-> & E & E'). apply back2_rep; auto.
Qed.
Lemma rep_peq qi p q P : peq p q -> rep qi p P -> rep qi q P.
Proof. intros E [A B]. split; [|exact B]. intros x i Ex. destruct (A x i Ex), (E x). split; congruence. Qed.

(** * The gates of calls *)
Definition std_gate (o : op) : option gname :=
  match o with
  | OX => Some GX | OZ => Some GZ | OH => Some GH | OS => Some GS | OSDAG => Some GSDAG
  | OCX => Some GCX | OCZ => Some GCZ | OSWAP => Some GSWAP
  | OM | OMZ => Some GM | OMX => Some GMX | OMY => Some GMY
  | OR | ORZ => Some GR | ORX => Some GRX | ORY => Some GRY
  | OIDLE | OIDLED _ | OINC => None
  end.
Fixpoint pair_gates {Q} (g : gname) (l : list Q) : list (gate Q) :=
  match l with a :: b :: r => G2 g a b :: pair_gates g r | _ => [] end.
Definition lg_call (c : call) : list (gate string) :=
  match c with
  | CTick => []
  | Call o qs => match std_gate o with
                 | None => []
                 | Some g => if is_two g then pair_gates g qs else map (G1 g) qs
                 end
  end.
Definition lg_block (b : list call) : list (gate string) := flat_map lg_call b.
Definition lg_blocks (l : blocks) : list (gate string) :=
  flat_map (fun b => match b with Ok b => lg_block b | Err _ => [] end) l.

Lemma gates_app a b : gates (a ++ b) = gates a ++ gates b.
Proof. unfold gates, ideal. now rewrite !flat_map_app. Qed.
(* no call of measure_y *)
Definition no_my (c : call) : Prop := match c with Call OMY _ => False | _ => True end.
Lemma pair_gates_rel qi g qs is : Forall2 (fun q i => dget q qi = Some i) qs is ->
  Forall2 (gate_rel qi) (pair_gates g qs) (flat_map gate_of_atom (pair_atoms g (map TQ is))).
Proof.
  revert is. induction qs as [qs IH] using (well_founded_induction (well_founded_ltof _ (@length string))). intros is F.
  destruct F as [|q i qs is E F]; [constructor|]. destruct F as [|q' i' qs is E' F]; [constructor|].
  cbn. constructor; [cbn; auto|]. apply IH; [unfold ltof; simpl; lia|exact F].
Qed.
Lemma gates_tick : gates tick = [].
Proof. reflexivity. Qed.
Lemma call_gates c m m' r : run_call c m = (m', Ok r) -> no_my c ->
  same_static m m' /\ Forall2 (gate_rel (inds m)) (lg_call c) (gates r).
Proof.
  destruct c as [o qs|]; cbn [run_call no_my].
  2:{ intros H _. apply sret_ok in H as [-> <-]. split; [apply same_static_refl|constructor]. }
  intros H N. split; [eapply apply_static; eauto|]. apply apply_char in H as [_ [js [B G]]].
  unfold gates. rewrite (built_ideal _ _ B). unfold lg_call.
  assert (K : gate_of (kind m) o = match std_gate o with Some g => Some g | None => gate_of (kind m) o end).
  { destruct o; try reflexivity. destruct N. }
  destruct (std_gate o) as [g|] eqn:S.
  - rewrite K in G. destruct G as (is & Ei & Hok & -> & _). apply get_inds_F2 in Ei.
    unfold instr_atoms. cbn [nm tg].
    assert (Hn : is_noise g || eqb g GI = false /\ is_annotation g = false) by (destruct o; try discriminate S; injection S as <-; auto).
    destruct Hn as [-> ->]. destruct (is_two g) eqn:T.
    + now apply pair_gates_rel.
    + clear -Ei. induction Ei as [|q i qs is E F IH]; cbn; constructor; auto. cbn. auto.
  - assert (E : flat_map instr_atoms js = []).
    { clear K. destruct (gate_of (kind m) o) as [g|] eqn:Eg; [|tauto]. destruct G as (is & _ & _ & -> & _).
      destruct o; try discriminate S; destruct (kind m); try discriminate Eg; injection Eg as <-; reflexivity. }
    rewrite E. constructor.
Qed.
Lemma block_gates b : forall m m' r, run_block b m = (m', Ok r) -> Forall no_my b ->
  same_static m m' /\ Forall2 (gate_rel (inds m)) (lg_block b) (gates r).
Proof.
  induction b as [|c b IH]; intros m m' r H N; cbn [run_block] in H.
  - apply sret_ok in H as [-> <-]. split; [apply same_static_refl|constructor].
  - inversion N as [|? ? N1 N2]; subst. apply sbind_ok in H as (m1 & x & H1 & H). apply sbind_ok in H as (m2 & y & H2 & H).
    apply sret_ok in H as [-> <-]. apply call_gates in H1 as [S1 F1]; auto. apply IH in H2 as [S2 F2]; auto.
    split; [eapply same_static_trans; eauto|]. cbn [lg_block flat_map]. rewrite gates_app. apply Forall2_app; auto.
    destruct S1 as (_ & _ & <-). exact F2.
Qed.
Definition ok_blocks (l : blocks) : Prop := Forall (fun b => match b with Ok b => Forall no_my b | Err _ => True end) l.
Lemma blocks_gates l : forall m m' r, run_blocks l m = (m', Ok r) -> ok_blocks l ->
  same_static m m' /\ Forall2 (gate_rel (inds m)) (lg_blocks l) (gates r) /\ Forall (fun b => exists x, b = Ok x) l.
Proof.
  induction l as [|b l IH]; intros m m' r H N; cbn [run_blocks] in H.
  - apply sret_ok in H as [-> <-]. split; [apply same_static_refl|]. split; constructor.
  - inversion N as [|? ? N1 N2]; subst. apply sbind_ok in H as (m0 & b' & H0 & H). unfold slift in H0. injection H0 as <- ->.
    apply sbind_ok in H as (m1 & x & H1 & H). apply sbind_ok in H as (m2 & y & H2 & H).
    apply sret_ok in H as [-> <-]. apply block_gates in H1 as [S1 F1]; auto. apply IH in H2 as (S2 & F2 & F3); auto.
    split; [eapply same_static_trans; eauto|]. cbn [lg_blocks flat_map]. rewrite gates_app. split; [|constructor; eauto].
    apply Forall2_app; auto. destruct S1 as (_ & _ & <-). exact F2.
Qed.

(* the tracker on an emitted circuit follows the tracker on its calls *)
Lemma blocks_track l m m' c sel p q P : run_blocks l m = (m', Ok c) -> ok_blocks l -> wf_inds (inds m) ->
  bk (lg_blocks l) sel p q -> rep (inds m) p P -> exists P', back (gates c) sel P = Some P' /\ rep (inds m) q P'.
Proof.
  intros H N W (q' & E & F) R. apply blocks_gates in H as (_ & G & _); auto.
  pose proof (back_rep _ _ _ sel _ _ W G R) as O. rewrite E in O. destruct (back (gates c) sel P) as [P'|]; [|destruct O].
  exists P'. split; [reflexivity|]. eapply rep_peq; eauto.
Qed.
Lemma blocks_track_none l m m' c sel p P : run_blocks l m = (m', Ok c) -> ok_blocks l -> wf_inds (inds m) ->
  back (lg_blocks l) sel p = None -> rep (inds m) p P -> back (gates c) sel P = None.
Proof.
  intros H N W E R. apply blocks_gates in H as (_ & G & _); auto.
  pose proof (back_rep _ _ _ sel _ _ W G R) as O. rewrite E in O. destruct (back (gates c) sel P) as [P'|]; [destruct O|reflexivity].
Qed.

(** * Closed forms of layers of gates *)
Section Layers.
  Context {Q : Type} `{Eqb Q}.
  Implicit Types (P : pauli Q) (l : list Q).
  Definition czsum (ps : list (Q * Q)) (f : Q -> bool) (q : Q) : bool :=
    xorl (map (fun p => xorb (eqb (fst p) q && f (snd p)) (eqb (snd p) q && f (fst p))) ps).
  (* is the outcome of q among the selected ones? *)
  Fixpoint msel l (sel : nat -> bool) (q : Q) : bool :=
    match l with [] => false | x :: r => if eqb x q then sel (S (length r)) else msel r sel q end.

  Lemma num_meas_map g l : num_meas (map (G1 g) l) = if is_meas g then length l else 0%nat.
  Proof. unfold num_meas. induction l as [|a l IH]; cbn; [now destruct (is_meas g)|]. destruct (is_meas g); cbn; congruence. Qed.
  Lemma num_meas_pairs g l : num_meas (pair_gates g l) = 0%nat.
  Proof.
    revert l. fix IH 1. intros [|a [|b l]]; [reflexivity|reflexivity|]. cbn. apply IH.
  Qed.
  Lemma bk_cons g (l : list (gate Q)) sel P R S : bk l sel P R ->
    match g with G1 n q => exists T, back1 n q (sel (Datatypes.S (num_meas l))) R = Some T /\ peq T S
               | G2 n a b => exists T, back2 n a b R = Some T /\ peq T S end ->
    bk (g :: l) sel P S.
  Proof.
    intros (R' & E & F) G. unfold bk. cbn [back]. rewrite E. destruct g as [n q|n a b]; destruct G as (T & ET & FT).
    - pose proof (back1_peq n q (sel (Datatypes.S (num_meas l))) _ _ F) as O. rewrite ET in O.
      destruct (back1 n q _ R') as [T'|]; [|destruct O]. exists T'. split; [reflexivity|]. eapply peq_trans; [exact O|exact FT].
    - pose proof (back2_peq n a b _ _ F) as O. rewrite ET in O.
      destruct (back2 n a b R') as [T'|]; [|destruct O]. exists T'. split; [reflexivity|]. eapply peq_trans; [exact O|exact FT].
  Qed.
  Lemma mem_cons (q a : Q) l : mem q (a :: l) = eqb q a || mem q l.
  Proof. reflexivity. Qed.
  Lemma put_same (f : Q -> bool) q b : put f q b q = b.
  Proof. unfold put. now rewrite eqb_refl. Qed.
  Lemma put_other (f : Q -> bool) q b x : q <> x -> put f q b x = f x.
  Proof. intros N. unfold put. destruct (eqb_spec q x); [contradiction|reflexivity]. Qed.
  Lemma mem_not (q : Q) l : ~ In q l -> mem q l = false.
  Proof. intros N. destruct (mem q l) eqn:E; [|reflexivity]. apply mem_In in E. contradiction. Qed.

  Lemma bk_paulis g l sel P : g = GX \/ g = GZ -> bk (map (G1 g) l) sel P P.
  Proof.
    intros G. induction l as [|a l IH]; [apply bk_nil|]. cbn [map]. eapply bk_cons; [exact IH|]. exists P.
    split; [destruct G as [->| ->]; reflexivity|apply peq_refl].
  Qed.
  Definition had (S : Q -> bool) P : pauli Q :=
    Pauli (fun q => if S q then pz P q else px P q) (fun q => if S q then px P q else pz P q).
  Lemma bk_H l sel P : NoDup l -> bk (map (G1 GH) l) sel P (had (fun q => mem q l) P).
  Proof.
    induction l as [|a l IH]; intros N; [eapply bk_eq; [apply bk_nil|apply peq_refl|intros q; split; reflexivity]|]. inversion N as [|? ? Hn N']; subst. cbn [map].
    eapply bk_cons; [apply IH; exact N'|]. eexists. split; [reflexivity|]. intros q. unfold had, put2. cbn [px pz].
    rewrite !mem_cons, (mem_not a l Hn). destruct (eqb_spec q a) as [->|Ne].
    - rewrite !put_same. split; reflexivity.
    - rewrite !put_other by congruence. split; reflexivity.
  Qed.
  Definition czl (ps : list (Q * Q)) P : pauli Q := Pauli (px P) (fun q => xorb (pz P q) (czsum ps (px P) q)).
  Definition cz_gates (ps : list (Q * Q)) : list (gate Q) := map (fun p => G2 GCZ (fst p) (snd p)) ps.
  Lemma bk_CZ ps sel P : Forall (fun p => fst p <> snd p) ps -> bk (cz_gates ps) sel P (czl ps P).
  Proof.
    induction ps as [|[a b] ps IH]; intros N.
    - eapply bk_eq; [apply bk_nil|apply peq_refl|]. intros q. cbn. now rewrite xorb_false_r.
    - inversion N as [|? ? Hn N']; subst. cbn [cz_gates map fst snd] in *. eapply bk_cons; [apply IH; exact N'|].
      eexists. split; [reflexivity|]. intros q. cbn [px pz czl]. split; [reflexivity|]. unfold czsum. cbn [map fst snd]. rewrite xorl_cons.
      fold (czsum ps (px P) q). fold (czsum ps (px P) a). fold (czsum ps (px P) b).
      destruct (eqb_spec b q) as [->|Nb].
      + rewrite put_same. destruct (eqb_spec a q) as [->|Na]; [contradiction|]. cbn [andb]. rewrite xorb_false_l.
        rewrite xorb_assoc. f_equal. apply xorb_comm.
      + rewrite put_other by exact Nb. destruct (eqb_spec a q) as [->|Na].
        * rewrite put_same. cbn [andb]. rewrite xorb_false_r, xorb_assoc. f_equal. apply xorb_comm.
        * rewrite put_other by exact Na. cbn [andb]. now rewrite !xorb_false_l.
  Qed.
  Lemma bk_M l sel P : NoDup l -> (forall q, In q l -> px P q = false) ->
    bk (map (G1 GM) l) sel P (Pauli (px P) (fun q => xorb (pz P q) (msel l sel q))).
  Proof.
    induction l as [|a l IH]; intros N X.
    - eapply bk_eq; [apply bk_nil|apply peq_refl|]. intros q. cbn. now rewrite xorb_false_r.
    - inversion N as [|? ? Hn N']; subst. cbn [map]. eapply bk_cons; [apply IH; [exact N'|intros; apply X; now right]|].
      unfold back1. cbn [px pz]. rewrite (X a (or_introl eq_refl)). eexists. split; [reflexivity|]. intros q. unfold put2. cbn [px pz msel].
      rewrite num_meas_map. cbn [is_meas]. destruct (eqb_spec a q) as [->|Ne].
      + rewrite !put_same. split; [now rewrite X by now left|]. f_equal.
        assert (M : msel l sel q = false); [|rewrite M; apply xorb_false_r].
        clear -Hn. induction l as [|x l IH]; [reflexivity|]. cbn. destruct (eqb_spec x q) as [->|]; [destruct Hn; now left|].
        apply IH. intros Hi. apply Hn. now right.
      + rewrite !put_other by exact Ne. split; reflexivity.
  Qed.
  Lemma msel_out l sel q : ~ In q l -> msel l sel q = false.
  Proof.
    induction l as [|x l IH]; [reflexivity|]. cbn. intros Hn. destruct (eqb_spec x q) as [->|]; [destruct Hn; now left|].
    apply IH. intros Hi. apply Hn. now right.
  Qed.
  Lemma bk_R l sel P : (forall q, In q l -> px P q = false) ->
    bk (map (G1 GR) l) sel P (Pauli (fun q => if mem q l then false else px P q) (fun q => if mem q l then false else pz P q)).
  Proof.
    induction l as [|a l IH]; intros X; [eapply bk_eq; [apply bk_nil|apply peq_refl|intros q; split; reflexivity]|]. cbn [map]. eapply bk_cons; [apply IH; intros; apply X; now right|].
    unfold back1. cbn [px pz]. rewrite (X a (or_introl eq_refl)). replace (if mem a l then false else false) with false by (now destruct (mem a l)).
    eexists. split; [reflexivity|]. intros q. unfold put2. cbn [px pz]. rewrite mem_cons.
    destruct (eqb_spec q a) as [->|Ne]; [rewrite !put_same; split; reflexivity|]. rewrite !put_other by congruence. split; reflexivity.
  Qed.
  (* an X factor on a measured or reset qubit makes everything random *)
  Lemma back_keep n l sel P R q : ~ In q l -> back (map (G1 n) l) sel P = Some R -> px R q = px P q /\ pz R q = pz P q.
  Proof.
    revert R. induction l as [|a l IH]; intros R Hn E; [injection E as <-; auto|]. cbn [map back] in E.
    destruct (back (map (G1 n) l) sel P) as [R'|] eqn:E'; [|discriminate].
    destruct (IH R') as [A B]; [intros Hi; apply Hn; now right|reflexivity|]. rewrite <- A, <- B.
    assert (Ne : a <> q) by (intros ->; apply Hn; now left).
    revert E. unfold back1.
    destruct n, (px R' a), (pz R' a); cbn; intros [=]; subst; cbn; rewrite ?put_other by exact Ne; auto.
  Qed.
  Lemma back_R_none l sel P q : In q l -> px P q = true -> back (map (G1 GR) l) sel P = None.
  Proof.
    induction l as [|a l IH]; intros Hq X; [destruct Hq|]. cbn [map back].
    destruct (back (map (G1 GR) l) sel P) as [R|] eqn:E; [|reflexivity].
    destruct (mem q l) eqn:M; [apply mem_In in M; discriminate (IH M X)|].
    destruct Hq as [->|Hq]; [|apply mem_In in Hq; congruence].
    apply back_keep with (q := q) in E as [E _]; [|intros Hi; apply mem_In in Hi; congruence]. cbn. now rewrite E, X.
  Qed.
  Lemma back_M_none l sel P q : In q l -> px P q = true -> back (map (G1 GM) l) sel P = None.
  Proof.
    induction l as [|a l IH]; intros Hq X; [destruct Hq|]. cbn [map back].
    destruct (back (map (G1 GM) l) sel P) as [R|] eqn:E; [|reflexivity].
    destruct (mem q l) eqn:M; [apply mem_In in M; discriminate (IH M X)|].
    destruct Hq as [->|Hq]; [|apply mem_In in Hq; congruence].
    apply back_keep with (q := q) in E as [E _]; [|intros Hi; apply mem_In in Hi; congruence]. cbn. now rewrite E, X.
  Qed.
  Lemma czsum_app a b f q : czsum (a ++ b) f q = xorb (czsum a f q) (czsum b f q).
  Proof. unfold czsum. now rewrite map_app, xorl_app. Qed.
  Lemma cz_gates_app a b : cz_gates (a ++ b) = cz_gates a ++ cz_gates b.
  Proof. apply map_app. Qed.
End Layers.
Lemma pair_gates_flat g ps : pair_gates g (flat_pairs ps) = map (fun p => G2 g (fst p) (snd p)) ps.
Proof. induction ps as [|[a b] ps IH]; [reflexivity|]. cbn. now rewrite <- IH. Qed.
Lemma xor_unique {A} (L : list A) (g : A -> bool) x : NoDup L -> In x L ->
  (forall y, In y L -> y <> x -> g y = false) -> xorl (map g L) = g x.
Proof.
  induction L as [|a L IH]; intros N Hx G; [destruct Hx|]. inversion N as [|? ? Hn N']; subst. cbn [map]. rewrite xorl_cons.
  destruct Hx as [->|Hx].
  - rewrite xorl_false; [apply xorb_false_r|]. intros b Hb. apply in_map_iff in Hb as (y & <- & Hy).
    apply G; [now right|]. intros ->. contradiction.
  - rewrite (G a (or_introl eq_refl)) by (intros ->; contradiction). rewrite xorb_false_l. apply IH; auto. intros y Hy. apply G. now right.
Qed.

Lemma dedup_acc_spec {A} `{Eqb A} (l : list A) : forall seen, NoDup (dedup_acc seen l) /\
  forall x, In x (dedup_acc seen l) <-> In x l /\ ~ In x seen.
Proof.
  induction l as [|a l IH]; intros seen; cbn [dedup_acc].
  - split; [constructor|]. intros x. cbn. tauto.
  - destruct (mem a seen) eqn:M.
    + apply mem_In in M. destruct (IH seen) as [N E]. split; [exact N|]. intros x. rewrite E. cbn. split; [tauto|].
      intros [[->|Hx] Hn]; tauto.
    + assert (Ha : ~ In a seen) by (intros Hi; apply mem_In in Hi; congruence).
      destruct (IH (a :: seen)) as [N E]. split.
      * constructor; [|exact N]. rewrite E. cbn. tauto.
      * intros x. cbn [In]. rewrite E. cbn [In]. destruct (eqb_spec a x) as [->|Ne]; [tauto|]. split; [tauto|]. intros [[->|Hx] Hn]; tauto.
Qed.
Lemma dedup_NoDup {A} `{Eqb A} (l : list A) : NoDup (dedup l).
Proof. apply dedup_acc_spec. Qed.
Lemma dedup_In {A} `{Eqb A} (l : list A) x : In x (dedup l) <-> In x l.
Proof. unfold dedup. rewrite (proj2 (dedup_acc_spec l [])). cbn. tauto. Qed.

(** * Selecting the outcomes of one qubit *)
Section Outcome.
  Context {Q : Type} `{Eqb Q}.
  Lemma outcome_none (g : list (gate Q)) l q k : num_meas g = 0%nat -> outcome (g ++ l) q k = outcome l q k.
  Proof.
    intros E. unfold outcome. rewrite filter_app. replace (filter measures_gate g) with (@nil (gate Q)); [reflexivity|].
    unfold num_meas in E. now destruct (filter measures_gate g).
  Qed.
  Lemma outcome_tail (g l : list (gate Q)) q k : (1 <= k <= num_meas l)%nat -> outcome (g ++ l) q k = outcome l q k.
  Proof.
    intros E. unfold outcome. rewrite filter_app, rev_app_distr, nth_error_app1; [reflexivity|]. rewrite rev_length. unfold num_meas in E. lia.
  Qed.
  Lemma filter_meas (l : list Q) : filter measures_gate (map (G1 GM) l) = map (G1 GM) l.
  Proof. induction l as [|a l IH]; [reflexivity|]. cbn. now rewrite IH. Qed.
  Lemma outcome_M (l : list Q) q k : (1 <= k)%nat -> outcome (map (G1 GM) l) q k =
    match nth_error (rev l) (k - 1) with Some q' => eqb q q' | None => false end.
  Proof.
    intros K. unfold outcome. rewrite filter_meas, <- map_rev, nth_error_map. now destruct (nth_error (rev l) (k - 1)).
  Qed.
  Lemma msel_outcome (l : list Q) q a : NoDup l -> In q l -> msel l (outcome (map (G1 GM) l) q) a = eqb q a.
  Proof.
    intros N Hq.
    assert (G : forall pre r, l = pre ++ r -> msel r (outcome (map (G1 GM) l) q) a = if mem a r then eqb q a else false).
    { intros pre r. revert pre. induction r as [|x r IH]; intros pre E; [reflexivity|]. cbn [msel]. rewrite mem_cons.
      rewrite (IH (pre ++ [x])) by (rewrite <- app_assoc; exact E).
      destruct (eqb_spec x a) as [->|Ne].
      - rewrite eqb_refl. cbn [orb]. rewrite outcome_M by lia. rewrite E, rev_app_distr. cbn [rev]. rewrite <- app_assoc.
        replace (S (length r) - 1)%nat with (length (rev r)) by (rewrite rev_length; lia).
        rewrite nth_error_app2 by lia. now rewrite Nat.sub_diag.
      - now rewrite (proj2 (eqb_neq a x)) by congruence. }
    rewrite (G [] l eq_refl). destruct (mem a l) eqn:M; [reflexivity|]. symmetry. apply eqb_neq. intros ->. apply mem_In in Hq. congruence.
  Qed.
  Lemma msel_ext (l : list Q) s s' a : (forall k, (1 <= k <= length l)%nat -> s k = s' k) -> msel l s a = msel l s' a.
  Proof.
    induction l as [|x l IH]; intros E; [reflexivity|]. cbn. rewrite IH by (intros k K; apply E; cbn; lia).
    destruct (eqb x a); [|reflexivity]. apply E. cbn. lia.
  Qed.
  Lemma msel_false (l : list Q) a : msel l (fun _ => false) a = false.
  Proof. induction l as [|x l IH]; [reflexivity|]. cbn. now destruct (eqb x a). Qed.
End Outcome.
Lemma Forall2_rev {A B} (R : A -> B -> Prop) l l' : Forall2 R l l' -> Forall2 R (rev l) (rev l').
Proof. induction 1; cbn; [constructor|]. apply Forall2_app; auto. Qed.
Lemma outcome_rel qi l l' q i k : wf_inds qi -> Forall2 (gate_rel qi) l l' -> dget q qi = Some i -> outcome l' i k = outcome l q k.
Proof.
  intros W F E. unfold outcome.
  assert (G : Forall2 (gate_rel qi) (filter measures_gate l) (filter measures_gate l')).
  { clear -F. induction F as [|g h l l' E F IH]; [constructor|]. cbn [filter].
    replace (measures_gate h) with (measures_gate g); [destruct (measures_gate g); [constructor; assumption|assumption]|].
    destruct g, h; cbn in E; intuition; now subst. }
  apply Forall2_rev in G. revert G. generalize (rev (filter measures_gate l)), (rev (filter measures_gate l')). intros a b G.
  generalize (k - 1)%nat as n. clear k F. induction G as [|g h a b R G IH]; intros [|n]; cbn; auto.
  destruct g, h; cbn in R; intuition. destruct (eqb_spec i q1) as [->|N], (eqb_spec q q0) as [->|N']; auto.
  - exfalso. apply N'. eapply inj_inds; eauto.
  - congruence.
Qed.
