(** Proofs about the transversal gates with signs: from labels to indices, layers of gates. *)
From Coq Require Import QArith Qcanon.
From Verif Require Import Base Lib StimM NoiseM SpecNoise LayoutM GeomP DetM BlockM SpecGen SpecTrack TrackP SpecLog SpecSign LogM LogP2 LogP4.
Open Scope Z_scope.

Section Poly.
  Context {Q : Type} `{Eqb Q}.
  (* [sbk l k P k' R]: pulled back through [l], i^k P is i^k' R *)
  Definition sbk (l : list (gate Q)) (k : Z) (P : pauli Q) (k' : Z) (R : pauli Q) : Prop :=
    exists k0 R0, sback l (k, P) = Some (k0, R0) /\ k0 = k' /\ peq R0 R.
  Definition oseq (a b : option (Z * pauli Q)) : Prop :=
    match a, b with Some (k, P), Some (k', R) => k = k' /\ peq P R | None, None => True | _, _ => False end.
  Lemma sback_peq l k P R : peq P R -> oseq (sback l (k, P)) (sback l (k, R)).
  Proof.
    intros E. induction l as [|g l IH]; [cbn; auto|]. cbn [sback].
    destruct (sback l (k, P)) as [[k1 P1]|], (sback l (k, R)) as [[k2 R1]|]; cbn [oseq] in IH; try (exfalso; exact IH); [|exact I].
    destruct IH as [-> F]. destruct g as [n q|n a b].
    - destruct (F q) as [F1 F2]. rewrite F1, F2. destruct (phase1 _ _ _); [|exact I].
      pose proof (back1_peq n q false P1 R1 F) as K. destruct (back1 n q false P1), (back1 n q false R1); cbn in K |- *; auto.
    - destruct (F a) as [F1 F2], (F b) as [F3 F4]. rewrite F1, F3. destruct (phase2 _ _ _); [|exact I].
      pose proof (back2_peq n a b P1 R1 F) as K. destruct (back2 n a b P1), (back2 n a b R1); cbn in K |- *; auto.
  Qed.
  Lemma sbk_nil k P : sbk [] k P k P.
  Proof. exists k, P. split; [reflexivity|]. split; [reflexivity|apply peq_refl]. Qed.
  Lemma sbk_eq l k P k' R P' k'' R' : sbk l k P k' R -> peq P P' -> k' = k'' -> peq R R' -> sbk l k P' k'' R'.
  Proof.
    intros (k0 & R0 & E & -> & F) EP <- ER. pose proof (sback_peq l k P P' EP) as G. rewrite E in G.
    destruct (sback l (k, P')) as [[k1 T]|] eqn:E'; [|destruct G]. destruct G as [-> G]. exists k1, T. split; [exact E'|]. split; [reflexivity|].
    eapply peq_trans; [apply peq_sym; exact G|]. eapply peq_trans; [exact F|exact ER].
  Qed.
  Lemma sback_app a b kP : sback (a ++ b) kP = match sback b kP with Some R => sback a R | None => None end.
  Proof. induction a as [|g a IH]; cbn [app sback]; [now destruct (sback b kP)|]. rewrite IH. now destruct (sback b kP). Qed.
  Lemma sbk_app a b k P k1 R k2 S : sbk b k P k1 R -> sbk a k1 R k2 S -> sbk (a ++ b) k P k2 S.
  Proof.
    intros (k0 & R0 & E & -> & F) A. destruct (sbk_eq _ _ _ _ _ _ _ _ A (peq_sym _ _ F) eq_refl (peq_refl _)) as (k3 & S0 & E' & -> & F').
    exists k2, S0. rewrite sback_app, E. auto.
  Qed.
  Lemma sbk_cons g l k P k1 R k2 S : sbk l k P k1 R ->
    match g with
    | G1 n q => exists d T, phase1 n (px R q) (pz R q) = Some d /\ back1 n q false R = Some T /\ k2 = k1 + d /\ peq T S
    | G2 n a b => exists d T, phase2 n (px R a) (px R b) = Some d /\ back2 n a b R = Some T /\ k2 = k1 + d /\ peq T S
    end -> sbk (g :: l) k P k2 S.
  Proof.
    intros A G. change (g :: l) with ([g] ++ l). eapply sbk_app; [exact A|].
    destruct g; destruct G as (d & T & E1 & E2 & -> & F); exists (k1 + d), T; (split; [cbn [sback]; now rewrite E1, E2|auto]).
  Qed.
  Definition xsum (l : list Q) (f : Q -> bool) : Z := sum_of (map (fun q => b2z (f q)) l).
  Lemma sbk_S g sg l k P : (g = GS /\ sg = -1) \/ (g = GSDAG /\ sg = 1) -> NoDup l ->
    sbk (map (G1 g) l) k P (k + sg * xsum l (px P)) (Pauli (px P) (fun q => xorb (pz P q) (mem q l && px P q))).
  Proof.
    intros G. induction l as [|a l IH]; intros N.
    - eapply sbk_eq; [apply sbk_nil|apply peq_refl|cbn; lia|]. intros q. cbn. now rewrite xorb_false_r.
    - inversion N as [|? ? Hn N']; subst. cbn [map]. eapply sbk_cons; [apply IH; exact N'|].
      assert (D : phase1 g (px P a) (xorb (pz P a) (mem a l && px P a)) = Some (sg * b2z (px P a))).
      { destruct G as [[-> ->]|[-> ->]]; cbn [phase1]; f_equal; lia. }
      assert (B : forall R : pauli Q, back1 g a false R = Some (put2 R a (px R a) (xorb (pz R a) (px R a)))) by (intros R; destruct G as [[-> _]|[-> _]]; reflexivity).
      eexists _, _. split; [exact D|]. split; [apply B|]. split; [unfold xsum; cbn [map sum_of fold_right]; fold (sum_of (map (fun q => b2z (px P q)) l)); lia|].
      intros q. unfold put2. cbn [px pz]. rewrite mem_cons. destruct (eqb_spec q a) as [->|Ne].
      + rewrite !put_same, (mem_not a l Hn). cbn [andb orb]. now rewrite xorb_false_r.
      + rewrite !put_other by congruence. auto.
  Qed.
  Definition psum (ps : list (Q * Q)) (f : Q -> bool) : Z := sum_of (map (fun p => b2z (f (fst p) && f (snd p))) ps).
  (* the operator is the one of [back]; the power of i is to be found *)
  Lemma sback_back l sel k P k' R' : sback l (k, P) = Some (k', R') -> back l sel P = Some R'.
  Proof.
    revert k' R'. induction l as [|g l IH]; intros k' R' E; cbn [sback back] in *; [now injection E as _ <-|].
    destruct (sback l (k, P)) as [[k1 R1]|] eqn:E1; [|discriminate]. rewrite (IH _ _ eq_refl). destruct g as [n q|n a b].
    - destruct (phase1 _ _ _) eqn:Ep; [|discriminate]. destruct (back1 n q false R1) as [T|] eqn:Eb; [|discriminate]. injection E as _ <-.
      destruct n; cbn in Ep; try discriminate; exact Eb.
    - destruct (phase2 _ _ _); [|discriminate]. destruct (back2 n a b R1); [|discriminate]. now injection E as _ <-.
  Qed.
  Lemma sbk_bk l sel k P R k' : bk l sel P R -> (exists R', sback l (k, P) = Some (k', R')) -> sbk l k P k' R.
  Proof.
    intros (S & Eb & F) (R' & E). exists k', R'. split; [exact E|]. split; [reflexivity|].
    rewrite (sback_back _ sel _ _ _ _ E) in Eb. injection Eb as <-. exact F.
  Qed.
  Lemma sback_cz ps k P : exists R, sback (cz_gates ps) (k, P) = Some (k + 2 * psum ps (px P), R) /\ forall q, px R q = px P q.
  Proof.
    induction ps as [|[a b] ps (R & E & F)]; [exists P; cbn; split; [f_equal; f_equal; lia|reflexivity]|].
    eexists. split.
    - cbn [cz_gates map sback fst snd]. fold (cz_gates ps). rewrite E. cbn [phase2 back2]. rewrite !F.
      change (psum ((a, b) :: ps) (px P)) with (b2z (px P a && px P b) + psum ps (px P)).
      replace (k + 2 * psum ps (px P) + 2 * b2z (px P a && px P b)) with (k + 2 * (b2z (px P a && px P b) + psum ps (px P))) by lia. reflexivity.
    - intros q. cbn. unfold put. cbn. rewrite <- (F q). destruct (eqb_spec b q) as [->|]; [destruct (eqb_spec a q) as [->|]; reflexivity|]. destruct (eqb_spec a q) as [->|]; reflexivity.
  Qed.
  Lemma sbk_CZ ps k P : Forall (fun p => fst p <> snd p) ps -> sbk (cz_gates ps) k P (k + 2 * psum ps (px P)) (czl ps P).
  Proof.
    intros N. eapply sbk_bk; [apply (bk_CZ ps (fun _ => false)); exact N|].
    destruct (sback_cz ps k P) as (R & E & _). eauto.
  Qed.
  Definition quiet (g : gate Q) : Prop := match g with G2 GSWAP _ _ | G2 GCX _ _ => True | _ => False end.
  Lemma sbk_quiet l sel k P R : Forall quiet l -> bk l sel P R -> sbk l k P k R.
  Proof.
    intros F B. eapply sbk_bk; [exact B|]. destruct B as (S & Eb & _). revert S Eb.
    induction F as [|g l Hg F IH]; intros S Eb; [exists P; reflexivity|]. cbn [back] in Eb. destruct (back l sel P) as [S1|] eqn:E1; [|discriminate].
    destruct (IH _ eq_refl) as (R' & E'). cbn [sback]. rewrite E'. destruct g as [n q|n a b]; [destruct Hg|].
    destruct n; try destruct Hg; cbn [phase2 back2]; eexists; f_equal; f_equal; lia.
  Qed.
  Lemma sback_H l k P : NoDup l -> exists R, sback (map (G1 GH) l) (k, P) = Some (k + 2 * xsum l (fun q => px P q && pz P q), R) /\
    forall q, ~ In q l -> px R q = px P q /\ pz R q = pz P q.
  Proof.
    induction l as [|a l IH]; intros N; [exists P; cbn; split; [f_equal; f_equal; lia|auto]|]. inversion N as [|? ? Hn N']; subst.
    destruct (IH N') as (R & E & F). destruct (F a Hn) as [F1 F2]. eexists. split.
    - cbn [map sback]. rewrite E. cbn [phase1 back1]. rewrite F1, F2. f_equal. f_equal.
      change (xsum (a :: l) (fun q => px P q && pz P q)) with (b2z (px P a && pz P a) + xsum l (fun q => px P q && pz P q)). lia.
    - intros q Hq. cbn [put2 px pz]. rewrite !put_other by (intros ->; apply Hq; now left). apply F. intros K. apply Hq. now right.
  Qed.
  Lemma sbk_H l k P : NoDup l -> sbk (map (G1 GH) l) k P (k + 2 * xsum l (fun q => px P q && pz P q)) (had (fun q => mem q l) P).
  Proof.
    intros N. eapply sbk_bk; [apply (bk_H l (fun _ => false)); exact N|]. destruct (sback_H l k P N) as (R & E & _). eauto.
  Qed.
End Poly.

(** * From labels to indices *)
Definition osrep (qi : dict string Z) (p : option (Z * pauli string)) (P : option (Z * pauli Z)) : Prop :=
  match p, P with Some (k, a), Some (k', b) => k = k' /\ rep qi a b | None, None => True | _, _ => False end.
Lemma sback_rep qi l l' k p P : SpecNoise.wf_inds qi -> Forall2 (gate_rel qi) l l' -> rep qi p P -> osrep qi (sback l (k, p)) (sback l' (k, P)).
Proof.
  intros W F R. induction F as [|g h l l' E F IH]; [cbn; auto|]. cbn [sback].
  destruct (sback l (k, p)) as [[k1 p1]|], (sback l' (k, P)) as [[k2 P1]|]; cbn [osrep] in IH; try (exfalso; exact IH); [|exact I].
  destruct IH as [<- R1]. destruct g as [n q|n a b], h as [n' i|n' i j]; cbn in E; try tauto.
  - destruct E as [<- E]. destruct (proj1 R1 q i E) as [E1 E2]. rewrite E1, E2. destruct (phase1 _ _ _); [|exact I].
    pose proof (back1_rep qi n q i false p1 P1 W E R1) as K. destruct (back1 n q false p1), (back1 n i false P1); cbn in K |- *; auto.
  - destruct E as (<- & Ea & Eb). destruct (proj1 R1 a i Ea) as [E1 E2], (proj1 R1 b j Eb) as [E3 E4]. rewrite E1, E3. destruct (phase2 _ _ _); [|exact I].
    pose proof (back2_rep qi n a b i j p1 P1 W Ea Eb R1) as K. destruct (back2 n a b p1), (back2 n i j P1); cbn in K |- *; auto.
Qed.
Lemma blocks_becomes bl m m' c k xs zs k' xs' zs' k0 : run_blocks bl m = (m', Ok c) -> ok_blocks bl -> SpecNoise.wf_inds (inds m) ->
  turns (inds m) c xs zs xs' zs' -> (exists R, sback (lg_blocks bl) (k', Pauli xs' zs') = Some (k0, R)) -> k0 mod 4 = k mod 4 ->
  becomes (inds m) c k xs zs k' xs' zs'.
Proof.
  intros H N W T [R E] Ek P HP. apply blocks_gates in H as (_ & G & _); auto.
  pose proof (sback_rep _ _ _ k' (Pauli xs' zs') P W G HP) as O. rewrite E in O. destruct (sback (gates c) (k', P)) as [[k2 P']|] eqn:E2; [|destruct O].
  destruct O as [<- O]. exists k0, P'. split; [reflexivity|]. split; [exact Ek|]. destruct (T P HP) as (P2 & B & R2).
  rewrite (sback_back _ (fun _ => false) _ _ _ _ E2) in B. now injection B as ->.
Qed.

(** * The gates of the circuits *)
Lemma sum_perm (a b : list Z) : Permutation a b -> sum_of a = sum_of b.
Proof. unfold sum_of. induction 1; cbn [fold_right]; lia. Qed.
Lemma sum_app a b : sum_of (a ++ b) = sum_of a + sum_of b.
Proof. unfold sum_of. induction a; cbn [app fold_right]; lia. Qed.
Lemma sum_add {A} (f g : A -> Z) l : sum_of (map (fun x => f x + g x) l) = sum_of (map f l) + sum_of (map g l).
Proof. unfold sum_of. induction l; cbn [map fold_right]; lia. Qed.
Lemma sum_ext {A} (f g : A -> Z) l : (forall x, In x l -> f x = g x) -> sum_of (map f l) = sum_of (map g l).
Proof. unfold sum_of. induction l as [|a l IH]; intros E; cbn [map fold_right]; [reflexivity|]. rewrite (E a) by (now left). f_equal. apply IH. intros x Hx. apply E. now right. Qed.
Lemma sum_filter {A} (f : A -> Z) (p : A -> bool) l : sum_of (map f (filter p l)) = sum_of (map (fun x => if p x then f x else 0) l).
Proof. unfold sum_of. induction l as [|a l IH]; cbn [filter map fold_right]; [reflexivity|]. destruct (p a); cbn [map fold_right]; lia. Qed.
Lemma dedup_perm (s : list string) : NoDup s -> Permutation (dedup s) s.
Proof. intros N. apply NoDup_Permutation; [apply dedup_NoDup|exact N|]. intros x. apply dedup_In. Qed.
Section Tracks.
  Context (ord : nat -> list string -> list string) (ordp : nat -> list (string * string) -> list (string * string)).
  Hypothesis Hord : forall n s, Permutation (ord n s) s.
  Hypothesis Hordp : forall n s, Permutation (ordp n s) s.
  Context (l : layout) (data : list string) (lq : string) (pf : string -> option string) (loc : string -> string).
  Hypothesis Hd : get_role l "data" = Ok data.
  Hypothesis Nd : NoDup data.
  Hypothesis Hl : first_log l = Ok lq.
  Hypothesis Hin : pairing data pf.
  (* the power of i: S gives -1, S_DAG 1, CZ 2 if both factors are there, 1 for each *)
  Definition s_term (x : string -> bool) (q : string) : Z :=
    b2z (match pf q with Some b => x b | None => false end) + (if eqb (loc q) "S_DAG" then 1 else if eqb (loc q) "S" then -1 else 0).
  Definition s_phase (x : string -> bool) : Z := sum_of (map (s_term x) (filter x data)).
  Lemma flat_sum (f : string -> Z) ps : sum_of (map f (flatp ps)) = sum_of (map (fun p => f (fst p) + f (snd p)) ps).
  Proof. unfold sum_of, flatp in *. induction ps as [|[a b] ps IH]; [reflexivity|]. cbn [flat_map app map fold_right fst snd] in *. lia. Qed.
  Lemma psum_half x : 2 * psum (pairs_of data pf) x = sum_of (map (fun q => b2z (match pf q with Some b => x b | None => false end)) (filter x data)).
  Proof.
    rewrite sum_filter.
    rewrite (sum_ext _ (fun q => if match pf q with Some _ => true | None => false end
        then (if x q then b2z (match pf q with Some b => x b | None => false end) else 0) else 0)).
    2: { intros q _. destruct (pf q); [reflexivity|]. now destruct (x q). }
    rewrite <- sum_filter.
    assert (Pm : Permutation (filter (fun q => match pf q with Some _ => true | None => false end) data) (flatp (pairs_of data pf))).
    { apply NoDup_Permutation; [now apply NoDup_filter|now apply pairs_flat_nodup|]. intros q. rewrite pairs_flat_in by exact Hin. rewrite filter_In.
      destruct (pf q) as [b|] eqn:E; [|split; [intros [_ K]; discriminate|congruence]]. split; [discriminate|]. intros _. split; [|reflexivity]. apply (Hin _ _ E). }
    rewrite (sum_perm _ _ (Permutation_map _ Pm)), flat_sum. unfold psum.
    assert (K : forall ps, (forall p, In p ps -> In p (pairs_of data pf)) -> 2 * sum_of (map (fun p => b2z (x (fst p) && x (snd p))) ps) =
      sum_of (map (fun p => (if x (fst p) then b2z (match pf (fst p) with Some b => x b | None => false end) else 0) +
                            (if x (snd p) then b2z (match pf (snd p) with Some b => x b | None => false end) else 0)) ps)).
    { induction ps as [|[u v] ps IH]; intros I; [reflexivity|]. specialize (IH (fun p Hp => I p (or_intror Hp))).
      specialize (I (u, v) (or_introl eq_refl)). apply pairs_in in I as [E _]; [|exact Hin]. destruct (Hin _ _ E) as (_ & _ & E' & _).
      cbn [map sum_of fold_right fst snd] in *. fold (sum_of (map (fun p => b2z (x (fst p) && x (snd p))) ps)) in *. rewrite E, E'.
      fold (sum_of (map (fun p => (if x (fst p) then b2z (match pf (fst p) with Some b => x b | None => false end) else 0) +
                            (if x (snd p) then b2z (match pf (snd p) with Some b => x b | None => false end) else 0)) ps)).
      destruct (x u), (x v); cbn [andb b2z]; lia. }
    apply K. auto.
  Qed.
  Lemma ord_xsum n s f : NoDup s -> xsum (ord n (dedup s)) f = sum_of (map (fun q => b2z (f q)) s).
  Proof. intros N. unfold xsum. apply sum_perm, Permutation_map. eapply Permutation_trans; [apply Hord|]. now apply dedup_perm. Qed.
  Lemma trans_s_sign k P : trans_code_ok l = true ->
    (forall q, In q data -> lparam l ("trans-s_" ++ lq) q = Ok (PDict [("cz", label_or_none (pf q)); ("local", PStr (loc q))])) ->
    exists R, sback (lg_blocks (trans_s_blocks ord ordp l)) (k, P) = Some (k + s_phase (px P), R).
  Proof.
    intros Hc Ha. unfold trans_s_blocks; rewrite Hc, Hd, Hl; cbn [negb bind];
      rewrite (trans_attrs_ok _ _ _ _ pf loc Ha eq_refl); cbn [bind generator]; rewrite !with_local_eq;
      unfold tick_block; cbn [lg_blocks lg_block flat_map lg_call std_gate is_two app]; rewrite !app_nil_r, pair_gates_flat.
    set (ps := ordp 0%nat (pairs_of data pf)). assert (Hps : Permutation ps (pairs_of data pf)) by apply Hordp.
    match goal with |- exists R, sback ?L _ = _ => assert (S : exists R0, sbk L k P (k + s_phase (px P)) R0) end.
    - eexists. eapply sbk_eq; [eapply sbk_app; [apply (sbk_CZ ps k P (ps_neq data pf Hin ps Hps))|
        eapply sbk_app; [apply (sbk_S GSDAG 1); [auto|]|apply (sbk_S GS (-1)); [auto|]]]|apply peq_refl| |apply peq_refl].
      1,2: eapply Permutation_NoDup; [symmetry; apply Hord|apply dedup_NoDup].
      rewrite !ord_xsum by (now apply NoDup_filter). cbn [px czl].
      assert (Eps : psum ps (px P) = psum (pairs_of data pf) (px P)) by (unfold psum; now apply sum_perm, Permutation_map).
      rewrite Eps, psum_half, !sum_filter. unfold s_phase. rewrite sum_filter. unfold s_term. clear. 
      induction data as [|q qs IH]; [cbn; lia|]. cbn [map sum_of fold_right] in *.
      destruct (eqb_spec (loc q) "S_DAG") as [->|N1]; [replace (eqb "S_DAG" "S") with false by reflexivity|destruct (eqb_spec (loc q) "S") as [E2|N2]]; destruct (px P q); cbn [b2z]; unfold sum_of in *; lia.
    - destruct S as (R0 & k1 & R1 & E & -> & _). eauto.
  Qed.
  Lemma trans_h_sign k P : eqb (l_code l) "unrotated_surface_code" = true -> (forall q, In q data -> loc q = "H") ->
    (forall q, In q data -> lparam l ("trans-h_" ++ lq) q = Ok (PDict [("swap", label_or_none (pf q)); ("local", PStr (loc q))])) ->
    (forall q, px P q && pz P q = false) ->
    exists R, sback (lg_blocks (trans_h_blocks ord ordp l)) (k, P) = Some (k, R).
  Proof.
    intros Hc Hh Ha Hcss. unfold trans_h_blocks. rewrite Hc, Hd, Hl. cbn [negb bind].
    rewrite (trans_attrs_ok _ _ _ _ pf loc Ha eq_refl). cbn [bind generator]. rewrite !with_local_eq.
    unfold tick_block. cbn [lg_blocks lg_block flat_map lg_call std_gate is_two app]. rewrite !app_nil_r, pair_gates_flat.
    set (ps := ordp 0%nat (pairs_of data pf)). assert (Hps : Permutation ps (pairs_of data pf)) by apply Hordp.
    match goal with |- exists R, sback ?L _ = _ => assert (S : exists R0, sbk L k P k R0) end.
    - eexists. eapply sbk_eq; [eapply sbk_app; [eapply (sbk_quiet _ (fun _ => false)); [|apply (bk_SWAP ps (fun _ => false) P); exact (ps_nodup data pf Hin ps Hps)]|apply sbk_H]|apply peq_refl| |apply peq_refl].
      + apply Forall_forall. intros g Hg. apply in_map_iff in Hg as (x & <- & _). exact I.
      + eapply Permutation_NoDup; [symmetry; apply Hord|apply dedup_NoDup].
      + cbn [px pz]. 
        assert (Z0 : forall s, xsum s (fun q => px P (swapped ps q) && pz P (swapped ps q)) = 0).
        { induction s as [|q s IH]; [reflexivity|]. unfold xsum in *. cbn [map sum_of fold_right]. rewrite Hcss. cbn [b2z]. exact IH. }
        rewrite Z0. lia.
    - destruct S as (R0 & k1 & R1 & E & -> & _). eauto.
  Qed.
End Tracks.
Lemma trans_cnot_sign ord ordp lc lt k P :
  exists R, sback (lg_blocks (trans_cnot_blocks ord ordp lc lt)) (k, P) = Some (k, R).
Proof.
  assert (Q : forall l : list (gate string), Forall quiet l -> exists R, sback l (k, P) = Some (k, R)).
  { induction 1 as [|g l Hg F [R IH]]; [now exists P|]. cbn [sback]. rewrite IH. destruct g as [n q|n a b]; [destruct Hg|].
    destruct n; try destruct Hg; cbn [phase2 back2]; eexists; now rewrite Z.add_0_r. }
  apply Q. unfold trans_cnot_blocks. destruct (negb (trans_code_ok lc)); [constructor|]. destruct (negb (trans_code_ok lt)); [constructor|].
  destruct (get_role lc "data") as [dc|]; [|constructor]. destruct (get_role lt "data") as [dt|]; [|constructor]. cbn [bind].
  destruct (cnot_label lc lt) as [gate|]; [|constructor]. cbn [bind]. destruct (mapM _ dc) as [pairs|]; [|constructor].
  cbn [bind generator]. unfold tick_block. cbn [lg_blocks lg_block flat_map lg_call std_gate is_two app]. rewrite !app_nil_r, pair_gates_flat.
  apply Forall_forall. intros g Hg. apply in_map_iff in Hg as (x & <- & _). exact I.
Qed.
