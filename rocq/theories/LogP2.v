(** Proofs about the transversal gates, part 2: layers of S, SWAP and CX gates; the
    gates that log_trans_s, log_trans_h and log_trans_cnot apply. *)
From Coq Require Import QArith Qcanon.
From Verif Require Import Base Lib StimM NoiseM LayoutM SpecLayout LayoutP LayoutP2 GenM GenP SpecGen GeomP BlockM SpecTrack TrackP
  SpecLog LogM LogP.
Open Scope Z_scope.

Section Layers.
  Context {Q : Type} `{Eqb Q}.
  Implicit Types (P : pauli Q) (l : list Q).
  Lemma bk_S g l sel P : g = GS \/ g = GSDAG -> NoDup l ->
    bk (map (G1 g) l) sel P (Pauli (px P) (fun q => xorb (pz P q) (mem q l && px P q))).
  Proof.
    intros G. induction l as [|a l IH]; intros N.
    - eapply bk_eq; [apply bk_nil|apply peq_refl|]. intros q. cbn. now rewrite xorb_false_r.
    - inversion N as [|? ? Hn N']; subst. cbn [map]. eapply bk_cons; [apply IH; exact N'|].
      exists (put2 (Pauli (px P) (fun q => xorb (pz P q) (mem q l && px P q))) a (px P a) (xorb (xorb (pz P a) (mem a l && px P a)) (px P a))).
      split; [destruct G as [->| ->]; reflexivity|]. intros q. unfold put2. cbn [px pz]. rewrite mem_cons.
      destruct (eqb_spec q a) as [->|Ne].
      + rewrite !put_same, (mem_not a l Hn). cbn [andb orb]. rewrite xorb_false_r. split; reflexivity.
      + rewrite !put_other by congruence. split; reflexivity.
  Qed.
  Definition swapped (ps : list (Q * Q)) (q : Q) : Q :=
    fold_right (fun p r => if eqb (fst p) q then snd p else if eqb (snd p) q then fst p else r) q ps.
  Definition flatp (ps : list (Q * Q)) : list Q := flat_map (fun p => [fst p; snd p]) ps.
  Lemma swapped_out ps q : ~ In q (flatp ps) -> swapped ps q = q.
  Proof.
    induction ps as [|[a b] ps IH]; [reflexivity|]. cbn. intros N.
    destruct (eqb_spec a q) as [->|]; [tauto|]. destruct (eqb_spec b q) as [->|]; [tauto|]. apply IH. tauto.
  Qed.
  Lemma flatp_in ps a b : In (a, b) ps -> In a (flatp ps) /\ In b (flatp ps).
  Proof. intros I. split; apply in_flat_map; exists (a, b); (split; [exact I|cbn; auto]). Qed.
  Lemma flatp_cons ps a b : NoDup (flatp ((a, b) :: ps)) -> a <> b /\ ~ In a (flatp ps) /\ ~ In b (flatp ps) /\ NoDup (flatp ps).
  Proof.
    intros N. cbn in N. fold (flatp ps) in N. inversion N as [|? ? Ha N1]; subst. inversion N1 as [|? ? Hb N2]; subst.
    cbn in Ha. repeat split; auto.
  Qed.
  Lemma swapped_in ps a b : NoDup (flatp ps) -> In (a, b) ps -> swapped ps a = b /\ swapped ps b = a.
  Proof.
    induction ps as [|[x y] ps IH]; intros N I; [destruct I|]. apply flatp_cons in N as (Nxy & Nx & Ny & N).
    cbn [swapped fold_right fst snd]. fold (swapped ps a). fold (swapped ps b). destruct I as [[= -> ->]|I].
    - rewrite !eqb_refl. split; [reflexivity|]. destruct (eqb_spec a b); [contradiction|reflexivity].
    - destruct (flatp_in ps a b I) as [Ia Ib]. destruct (IH N I) as [E1 E2].
      destruct (eqb_spec x a) as [->|]; [contradiction|]. destruct (eqb_spec y a) as [->|]; [contradiction|].
      destruct (eqb_spec x b) as [->|]; [contradiction|]. destruct (eqb_spec y b) as [->|]; [contradiction|]. auto.
  Qed.
  Lemma bk_SWAP ps sel P : NoDup (flatp ps) ->
    bk (map (fun p => G2 GSWAP (fst p) (snd p)) ps) sel P (Pauli (fun q => px P (swapped ps q)) (fun q => pz P (swapped ps q))).
  Proof.
    induction ps as [|[a b] ps IH]; intros N.
    - eapply bk_eq; [apply bk_nil|apply peq_refl|]. intros q. split; reflexivity.
    - apply flatp_cons in N as (Nab & Na & Nb & N). cbn [map fst snd]. eapply bk_cons; [apply IH; exact N|].
      eexists. split; [reflexivity|]. intros q. unfold put2. cbn [px pz swapped fold_right fst snd]. fold (swapped ps q).
      destruct (eqb_spec b q) as [->|Neb].
      + rewrite !put_same. destruct (eqb_spec a q); [contradiction|]. now rewrite (swapped_out ps a Na).
      + rewrite !(put_other _ b) by exact Neb. destruct (eqb_spec a q) as [->|Nea].
        * rewrite !put_same. now rewrite (swapped_out ps b Nb).
        * rewrite !put_other by exact Nea. split; reflexivity.
  Qed.
  Lemma czsum_swapped ps f q : NoDup (flatp ps) -> czsum ps f q = mem q (flatp ps) && f (swapped ps q).
  Proof.
    induction ps as [|[a b] ps IH]; intros N; [reflexivity|]. apply flatp_cons in N as (Nab & Na & Nb & N).
    unfold czsum. cbn [map fst snd]. rewrite xorl_cons. fold (czsum ps f q). rewrite (IH N).
    change (mem q (flatp ((a, b) :: ps))) with (mem q (a :: b :: flatp ps)). rewrite !mem_cons.
    cbn [swapped fold_right fst snd]. fold (swapped ps q).
    destruct (eqb_spec a q) as [->|Nea].
    - rewrite eqb_refl, (mem_not q _ Na). destruct (eqb_spec b q); [congruence|]. cbn. now destruct (f b).
    - destruct (eqb_spec q a); [congruence|]. destruct (eqb_spec b q) as [->|Neb].
      + rewrite eqb_refl, (mem_not q _ Nb). cbn. now destruct (f a).
      + destruct (eqb_spec q b); [congruence|]. cbn [orb andb xorb]. now destruct (mem q (flatp ps) && f (swapped ps q)).
  Qed.
  Definition cx_x (ps : list (Q * Q)) (f : Q -> bool) (q : Q) : bool := xorl (map (fun p => eqb (snd p) q && f (fst p)) ps).
  Definition cx_z (ps : list (Q * Q)) (f : Q -> bool) (q : Q) : bool := xorl (map (fun p => eqb (fst p) q && f (snd p)) ps).
  Lemma bk_CX ps sel P : (forall p p', In p ps -> In p' ps -> fst p <> snd p') ->
    bk (map (fun p => G2 GCX (fst p) (snd p)) ps) sel P
      (Pauli (fun q => xorb (px P q) (cx_x ps (px P) q)) (fun q => xorb (pz P q) (cx_z ps (pz P) q))).
  Proof.
    induction ps as [|[a b] ps IH]; intros D.
    - eapply bk_eq; [apply bk_nil|apply peq_refl|]. intros q. cbn. now rewrite !xorb_false_r.
    - assert (Nab : a <> b) by (apply (D (a, b) (a, b)); now left).
      assert (Xa : cx_x ps (px P) a = false).
      { apply xorl_false. intros v Hv. apply in_map_iff in Hv as ([x y] & <- & Hp). cbn. destruct (eqb_spec y a) as [->|]; [|reflexivity].
        exfalso. apply (D (a, b) (x, a)); [now left|now right|reflexivity]. }
      assert (Zb : cx_z ps (pz P) b = false).
      { apply xorl_false. intros v Hv. apply in_map_iff in Hv as ([x y] & <- & Hp). cbn. destruct (eqb_spec x b) as [->|]; [|reflexivity].
        exfalso. apply (D (b, y) (a, b)); [now right|now left|reflexivity]. }
      cbn [map fst snd]. eapply bk_cons; [apply IH; intros p p' Hp Hp'; apply D; now right|].
      eexists. split; [reflexivity|]. intros q. cbn [px pz]. rewrite Xa, Zb, !xorb_false_r.
      unfold cx_x, cx_z. cbn [map fst snd]. rewrite !xorl_cons. fold (cx_x ps (px P) q). fold (cx_z ps (pz P) q). split.
      + destruct (eqb_spec b q) as [->|Neb]; [rewrite put_same|rewrite put_other by exact Neb].
        * cbn [andb]. rewrite !xorb_assoc. f_equal. apply xorb_comm.
        * cbn [andb]. now rewrite xorb_false_l.
      + destruct (eqb_spec a q) as [->|Nea]; [rewrite put_same|rewrite put_other by exact Nea].
        * cbn [andb]. rewrite !xorb_assoc. f_equal. apply xorb_comm.
        * cbn [andb]. now rewrite xorb_false_l.
  Qed.
  Lemma flatp_perm ps ps' : Permutation ps ps' -> Permutation (flatp ps) (flatp ps').
  Proof.
    induction 1 as [|p a b _ IH|p r a|a b c _ IH1 _ IH2]; cbn; [constructor|now do 2 constructor| |etransitivity; eauto].
    fold (flatp a). change [fst r; snd r; fst p; snd p] with ([fst r; snd r] ++ [fst p; snd p]).
    change (fst r :: snd r :: fst p :: snd p :: flatp a) with ([fst r; snd r] ++ [fst p; snd p] ++ flatp a).
    change (fst p :: snd p :: fst r :: snd r :: flatp a) with ([fst p; snd p] ++ [fst r; snd r] ++ flatp a).
    rewrite !app_assoc. apply Permutation_app_tail, Permutation_app_comm.
  Qed.
End Layers.
Lemma flatp_eq ps : flat_pairs ps = flatp ps.
Proof. reflexivity. Qed.

(** * The pairs of the two-qubit gates *)
Section Pairs.
  Context (data : list string) (pf : string -> option string).
  Hypothesis Hin : forall q b, pf q = Some b -> In q data /\ In b data /\ pf b = Some q /\ b <> q.
  Definition pairs_of : list (string * string) :=
    dedup (concat (map (fun q => match pf q with Some b => [sorted2 q b] | None => [] end) data)).
  Lemma leb_anti a b : String.leb a b = true -> String.leb b a = true -> a = b.
  Proof.
    unfold String.leb. rewrite (String.compare_antisym b a).
    destruct (String.compare a b) eqn:E; cbn; intros A B; try discriminate. now apply String.compare_eq_iff.
  Qed.
  Lemma sorted2_spec a b x y : sorted2 a b = (x, y) -> String.leb x y = true /\ (x = a /\ y = b \/ x = b /\ y = a).
  Proof.
    unfold sorted2. destruct (String.leb a b) eqn:E; intros [= <- <-]; [auto|]. split; [|auto].
    revert E. unfold String.leb. rewrite (String.compare_antisym a b). now destruct (String.compare b a); cbn.
  Qed.
  Lemma pairs_in x y : In (x, y) pairs_of <-> pf x = Some y /\ String.leb x y = true.
  Proof.
    unfold pairs_of. rewrite dedup_In, in_concat. split.
    - intros (L & HL & Hi). apply in_map_iff in HL as (q & <- & Hq). destruct (pf q) as [b|] eqn:E; [|destruct Hi].
      destruct Hi as [Hi|[]]. apply sorted2_spec in Hi as [Le [[-> ->]|[-> ->]]]; split; auto. now destruct (Hin _ _ E) as (_ & _ & E' & _).
    - intros [E Le]. exists [(x, y)]. split; [|now left]. apply in_map_iff. exists x. rewrite E. unfold sorted2. rewrite Le.
      split; [reflexivity|]. now destruct (Hin _ _ E).
  Qed.
  Lemma pairs_flat_in q : In q (flatp pairs_of) <-> pf q <> None.
  Proof.
    unfold flatp. rewrite in_flat_map. split.
    - intros ([x y] & Hp & Hi). apply pairs_in in Hp as [E _]. destruct (Hin _ _ E) as (_ & _ & E' & _). cbn in Hi.
      destruct Hi as [<-|[<-|[]]]; congruence.
    - intros N. destruct (pf q) as [b|] eqn:E; [|congruence]. destruct (Hin _ _ E) as (_ & _ & E' & _).
      destruct (String.leb q b) eqn:L.
      + exists (q, b). split; [now apply pairs_in|cbn; auto].
      + exists (b, q). split; [|cbn; auto]. apply pairs_in. split; [exact E'|].
        revert L. unfold String.leb. rewrite (String.compare_antisym q b). now destruct (String.compare b q); cbn.
  Qed.
  Lemma pairs_flat_nodup : NoDup (flatp pairs_of).
  Proof.
    assert (N : NoDup pairs_of) by apply dedup_NoDup.
    assert (C : forall x y, In (x, y) pairs_of -> pf x = Some y /\ String.leb x y = true) by (intros; now apply pairs_in).
    revert N C. generalize pairs_of. intros ps N C. apply NoDup_flat_map; [exact N| |].
    - intros [x y] Hp. destruct (C x y Hp) as [E _]. destruct (Hin _ _ E) as (_ & _ & _ & Ne). cbn. repeat constructor; cbn; intuition.
    - intros [x y] [x' y'] q Hp Hp' I I'. destruct (C _ _ Hp) as [E L], (C _ _ Hp') as [E' L'].
      destruct (Hin _ _ E) as (_ & _ & F & Ne), (Hin _ _ E') as (_ & _ & F' & Ne').
      cbn in I, I'. destruct I as [<-|[<-|[]]], I' as [I'|[I'|[]]]; subst.
      + congruence.
      + assert (y = x') by congruence. subst y. exfalso. apply Ne. apply leb_anti; auto.
      + assert (y' = x) by congruence. subst y'. exfalso. apply Ne. apply leb_anti; auto.
      + congruence.
  Qed.
  Context (ps : list (string * string)).
  Hypothesis Hps : Permutation ps pairs_of.
  Lemma ps_nodup : NoDup (flatp ps).
  Proof. eapply Permutation_NoDup; [symmetry; apply flatp_perm; exact Hps|apply pairs_flat_nodup]. Qed.
  Lemma ps_in q : In q (flatp ps) <-> pf q <> None.
  Proof. rewrite <- pairs_flat_in. split; apply Permutation_in; [|symmetry]; now apply flatp_perm. Qed.
  Lemma ps_swapped q : swapped ps q = odef q (pf q).
  Proof.
    destruct (pf q) as [b|] eqn:E; cbn [odef].
    - assert (I : In (q, b) ps \/ In (b, q) ps).
      { destruct (Hin _ _ E) as (_ & _ & E' & _). destruct (String.leb q b) eqn:L; [left|right]; eapply Permutation_in; try (symmetry; exact Hps); apply pairs_in; split; auto.
        revert L. unfold String.leb. rewrite (String.compare_antisym q b). now destruct (String.compare b q); cbn. }
      destruct I as [I|I]; apply (swapped_in _ _ _ ps_nodup) in I as [A B]; assumption.
    - apply swapped_out. rewrite ps_in. tauto.
  Qed.
  Lemma ps_czsum f q : czsum ps f q = match pf q with Some b => f b | None => false end.
  Proof.
    rewrite czsum_swapped by apply ps_nodup. rewrite ps_swapped. destruct (pf q) as [b|] eqn:E.
    - rewrite (proj2 (mem_In q _)); [reflexivity|]. apply ps_in. congruence.
    - rewrite mem_not; [reflexivity|]. rewrite ps_in. tauto.
  Qed.
  Lemma ps_neq : Forall (fun p => fst p <> snd p) ps.
  Proof.
    apply Forall_forall. intros [x y] Hp. eapply Permutation_in in Hp; [|exact Hps]. apply pairs_in in Hp as [E _].
    destruct (Hin _ _ E) as (_ & _ & _ & Ne). cbn. congruence.
  Qed.
End Pairs.

(** * The gates of the circuits *)
Section Attrs.
  Context (l : layout) (gate two : string) (data : list string) (pf : string -> option string) (loc : string -> string).
  Hypothesis Hattr : forall q, In q data ->
    lparam l gate q = Ok (PDict [(two, label_or_none (pf q)); ("local", PStr (loc q))]).
  Lemma trans_attrs_ok : eqb "local" two = false ->
    trans_attrs l gate two data = Ok (pairs_of data pf, map (fun q => (q, loc q)) data).
  Proof.
    intros Ne. unfold trans_attrs.
    rewrite (mapM_ext_in _ (fun q => Ok (match pf q with Some b => [sorted2 q b] | None => [] end, [(q, loc q)]))).
    - assert (M : forall qs, mapM (fun q => Ok (match pf q with Some b => [sorted2 q b] | None => [] end, [(q, loc q)])) qs =
        Ok (map (fun q => (match pf q with Some b => [sorted2 q b] | None => [] end, [(q, loc q)])) qs)).
      { induction qs as [|q qs IH]; [reflexivity|]. cbn [mapM map bind]. now rewrite IH. }
      rewrite M. cbn [bind]. rewrite !map_map. cbn [fst snd]. unfold pairs_of. f_equal. f_equal. clear.
      induction data as [|q qs IH]; [reflexivity|]. cbn. now rewrite IH.
    - intros q Hq. rewrite Hattr by exact Hq. cbn [bind is_none pget]. unfold dget_err. cbn [dget]. rewrite Ne, !eqb_refl. cbn [of_opt bind].
      destruct (pf q); reflexivity.
  Qed.
  Lemma with_local_eq s : with_local s (map (fun q => (q, loc q)) data) = dedup (filter (fun q => eqb (loc q) s) data).
  Proof.
    unfold with_local. f_equal. clear. induction data as [|q qs IH]; [reflexivity|]. cbn [map filter snd].
    destruct (eqb (loc q) s); cbn [map fst]; now rewrite IH.
  Qed.
End Attrs.

Definition is_s (g : string) : bool := eqb g "S" || eqb g "S_DAG".
Definition s_op (data : list string) (pf : string -> option string) (loc : string -> string) (P : pauli string) : pauli string :=
  Pauli (px P) (fun q => xorb (pz P q) (xorb (match pf q with Some b => px P b | None => false end)
                                             (mem q data && is_s (loc q) && px P q))).
Definition h_op (data : list string) (pf : string -> option string) (P : pauli string) : pauli string :=
  had (fun q => mem q data) (Pauli (fun q => px P (odef q (pf q))) (fun q => pz P (odef q (pf q)))).

Section Tracks.
  Context (ord : nat -> list string -> list string) (ordp : nat -> list (string * string) -> list (string * string)).
  Hypothesis Hord : forall n s, Permutation (ord n s) s.
  Hypothesis Hordp : forall n s, Permutation (ordp n s) s.
  Context (l : layout) (data : list string) (lq : string) (pf : string -> option string) (loc : string -> string).
  Hypothesis Hd : get_role l "data" = Ok data.
  Hypothesis Hl : first_log l = Ok lq.
  Hypothesis Hin : forall q b, pf q = Some b -> In q data /\ In b data /\ pf b = Some q /\ b <> q.
  Lemma ord_mem n s q : mem q (ord n s) = mem q s.
  Proof.
    destruct (mem q s) eqn:E.
    - apply mem_In. apply mem_In in E. eapply Permutation_in; [symmetry; apply Hord|exact E].
    - apply mem_not. intros H. eapply Permutation_in in H; [|apply Hord]. apply mem_In in H. congruence.
  Qed.
  Lemma dedup_mem (s : list string) q : mem q (dedup s) = mem q s.
  Proof.
    destruct (mem q s) eqn:E.
    - apply mem_In. apply mem_In in E. now apply dedup_In.
    - apply mem_not. intros H. apply (proj1 (dedup_In _ _)) in H. apply mem_In in H. congruence.
  Qed.
  Lemma filter_mem (f : string -> bool) s q : mem q (filter f s) = mem q s && f q.
  Proof.
    induction s as [|a s IH]; [reflexivity|]. cbn [filter]. destruct (f a) eqn:E; rewrite ?mem_cons, IH, ?mem_cons;
      destruct (eqb_spec q a) as [->|]; cbn [orb]; try reflexivity; rewrite E; cbn; [reflexivity|]. now rewrite andb_false_r.
  Qed.
  Lemma ord_nodup n s : NoDup s -> NoDup (ord n s).
  Proof. intros N. eapply Permutation_NoDup; [symmetry; apply Hord|exact N]. Qed.

  Lemma trans_s_track sel P : trans_code_ok l = true ->
    (forall q, In q data -> lparam l ("trans-s_" ++ lq) q = Ok (PDict [("cz", label_or_none (pf q)); ("local", PStr (loc q))])) ->
    ok_blocks (trans_s_blocks ord ordp l) /\ bk (lg_blocks (trans_s_blocks ord ordp l)) sel P (s_op data pf loc P).
  Proof.
    intros Hc Ha. unfold trans_s_blocks. rewrite Hc, Hd, Hl. cbn [negb bind].
    rewrite (trans_attrs_ok _ _ _ _ pf loc Ha eq_refl). cbn [bind generator]. rewrite !with_local_eq. split.
    - unfold ok_blocks, tick_block. repeat constructor.
    - unfold tick_block. cbn [lg_blocks lg_block flat_map lg_call std_gate is_two app]. rewrite !app_nil_r.
      rewrite pair_gates_flat.
      set (ps := ordp 0%nat (pairs_of data pf)). assert (Hps : Permutation ps (pairs_of data pf)) by apply Hordp.
      eapply bk_eq; [eapply bk_app; [apply (bk_CZ ps sel P); exact (ps_neq data pf Hin ps Hps)|
        eapply bk_app; [apply (bk_S GSDAG); [auto|]|apply (bk_S GS); [auto|]]]|apply peq_refl|].
      1,2: apply ord_nodup, dedup_NoDup.
      intros q. unfold czl, s_op. cbn [px pz]. split; [reflexivity|].
      rewrite !ord_mem, !dedup_mem, !filter_mem, (ps_czsum data pf Hin ps Hps). unfold is_s.
      destruct (eqb_spec (loc q) "S") as [->|N1]; cbn [orb].
      + replace (eqb "S" "S_DAG") with false by reflexivity. rewrite !andb_false_r, !andb_true_r. cbn [andb]. rewrite !xorb_false_r, !xorb_assoc. reflexivity.
      + rewrite !andb_false_r. cbn [andb]. rewrite !xorb_false_r, !xorb_assoc. reflexivity.
  Qed.
  Lemma trans_h_track sel P : eqb (l_code l) "unrotated_surface_code" = true -> (forall q, In q data -> loc q = "H") ->
    (forall q, In q data -> lparam l ("trans-h_" ++ lq) q = Ok (PDict [("swap", label_or_none (pf q)); ("local", PStr (loc q))])) ->
    ok_blocks (trans_h_blocks ord ordp l) /\ bk (lg_blocks (trans_h_blocks ord ordp l)) sel P (h_op data pf P).
  Proof.
    intros Hc Hh Ha. unfold trans_h_blocks. rewrite Hc, Hd, Hl. cbn [negb bind].
    rewrite (trans_attrs_ok _ _ _ _ pf loc Ha eq_refl). cbn [bind generator]. rewrite !with_local_eq. split.
    - unfold ok_blocks, tick_block. repeat constructor.
    - unfold tick_block. cbn [lg_blocks lg_block flat_map lg_call std_gate is_two app]. rewrite !app_nil_r.
      rewrite pair_gates_flat.
      set (ps := ordp 0%nat (pairs_of data pf)). assert (Hps : Permutation ps (pairs_of data pf)) by apply Hordp.
      eapply bk_eq; [eapply bk_app; [apply (bk_SWAP ps sel P); exact (ps_nodup data pf Hin ps Hps)|apply bk_H]|apply peq_refl|].
      { apply ord_nodup, dedup_NoDup. }
      intros q. unfold h_op, had. cbn [px pz]. rewrite !ord_mem, !dedup_mem, !filter_mem, !(ps_swapped data pf Hin ps Hps).
      destruct (mem q data) eqn:M; [|split; reflexivity]. rewrite Hh by (now apply mem_In). split; reflexivity.
  Qed.
End Tracks.
