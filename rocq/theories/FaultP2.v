(** Where an error on the gates of an experiment leads: every error is equivalent, for
    the final measurement, to an error on few data qubits. *)
From Coq Require Import QArith Qcanon.
From Verif Require Import Base Lib StimM NoiseM SpecNoise LayoutM SpecGen GeomP BlockM SpecTrack SpecExp SpecFault TrackP ActP ExpP ExpP2 FaultP.
Open Scope Z_scope.

(* parity of the elements of T in S *)
Definition par (S T : list string) : bool := xorl (map (fun q => mem q S) T).
Lemma par_cons S q T : par S (q :: T) = xorb (mem q S) (par S T). Proof. reflexivity. Qed.
Lemma par_app S T U : par S (T ++ U) = xorb (par S T) (par S U).
Proof. unfold par. now rewrite map_app, GeomP.xorl_app. Qed.

(** * Inside a round *)
Section Body.
  Context (ancs : list string) (hs : string -> bool).
  (* Hadamard gates on q *)
  Fixpoint hn (s : list (gate string)) (q : string) : nat :=
    match s with
    | [] => O
    | G1 GH q' :: s => if eqb q' q then S (hn s q) else hn s q
    | _ :: s => hn s q
    end.
  Definition flipped (s : list (gate string)) (q : string) : bool := xorb (hs q) (Nat.odd (hn s q)).
  (* partners of b, in order, and the ones where the operator has an X factor *)
  Fixpoint czs (s : list (gate string)) (b : string) : list string :=
    match s with
    | [] => []
    | G2 _ b' q :: s => if eqb b' b then q :: czs s b else czs s b
    | _ :: s => czs s b
    end.
  Fixpoint Tz (s : list (gate string)) (b : string) : list string :=
    match s with
    | [] => []
    | G2 _ b' q :: s => if eqb b' b && flipped s q then q :: Tz s b else Tz s b
    | _ :: s => Tz s b
    end.
  (* Hadamard gates, Pauli gates and CZ of an ancilla with a data qubit between two
     Hadamard gates of the ancilla *)
  Fixpoint okb (s : list (gate string)) : Prop :=
    match s with
    | [] => True
    | G1 GH q :: s => (In q ancs -> (hn s q <= 1)%nat) /\ okb s
    | G1 GX q :: s => okb s
    | G2 GCZ b q :: s => In b ancs /\ ~ In q ancs /\ hn s b = 1%nat /\ okb s
    | _ => False
    end.
  Definition BS (S : list string) : pauli string := Pauli (fun q => hs q && mem q S) (fun q => negb (hs q) && mem q S).
  Definition pred (s : list (gate string)) (S : list string) : pauli string :=
    Pauli (fun q => if mem q ancs then Nat.eqb (hn s q) 2 && par S (Tz s q) else mem q S && flipped s q)
          (fun q => if mem q ancs then Nat.eqb (hn s q) 1 && par S (Tz s q) else mem q S && negb (flipped s q)).

  Lemma Tz_none s b : okb s -> hn s b = 0%nat -> Tz s b = [].
  Proof.
    induction s as [|[n q|n b' q] s IH]; intros O E; [reflexivity| |].
    - destruct n; try (exfalso; exact O); cbn [hn Tz okb] in *; [auto|]. destruct (eqb q b); [discriminate|]. apply IH; tauto.
    - destruct n; try (exfalso; exact O). destruct O as (_ & _ & O1 & O2). cbn [hn Tz] in *. destruct (eqb_spec b' b) as [->|Ne]; [congruence|]. cbn [andb]. auto.
  Qed.
  Lemma flipped_one n q s x : flipped (G1 n q :: s) x = if eqb n GH && eqb q x then negb (flipped s x) else flipped s x.
  Proof.
    unfold flipped. destruct n; try reflexivity. cbn [hn]. rewrite eqb_refl. cbn [andb]. destruct (eqb q x); [|reflexivity].
    rewrite Nat.odd_succ, <- Nat.negb_odd. destruct (hs x), (Nat.odd (hn s x)); reflexivity.
  Qed.
  Lemma body_pred S s sel : (forall a, In a ancs -> mem a S = false) -> okb s -> bk s sel (BS S) (pred s S).
  Proof.
    intros D. induction s as [|g s IH]; intros O.
    - eapply bk_eq; [apply bk_nil|apply peq_refl|]. intros q. unfold pred, flipped, BS. cbn [px pz hn Tz Nat.odd Nat.even]. change (Nat.odd 0) with false.
      rewrite xorb_false_r. destruct (mem q ancs) eqn:M; [apply mem_In in M; rewrite (D q M); now rewrite !andb_false_r|].
      split; apply andb_comm.
    - destruct g as [n q|n b q]; (destruct n; try (exfalso; exact O)); cbn [okb] in O.
      + (* X *)
        eapply bk_cons; [apply IH; exact O|]. eexists. split; [reflexivity|]. intros x. unfold pred. cbn [px pz]. rewrite !flipped_one. cbn. split; reflexivity.
      + (* H *)
        destruct O as [O1 O2]. eapply bk_cons; [apply IH; exact O2|]. eexists. split; [reflexivity|].
        intros x. unfold put2. cbn [px pz pred]. rewrite !flipped_one. cbn [Tz hn eqb andb].
        destruct (eqb_spec q x) as [->|Ne].
        * rewrite !put_same. destruct (mem x ancs) eqn:M.
          -- apply mem_In in M. specialize (O1 M). destruct (hn s x) as [|[|h]] eqn:Eh; [|split; reflexivity|lia].
             rewrite (Tz_none s x O2 Eh). cbn. split; reflexivity.
          -- rewrite eqb_refl. cbn [andb]. rewrite negb_involutive. split; reflexivity.
        * rewrite !put_other by exact Ne. rewrite eqb_refl. cbn [andb]. split; reflexivity.
      + (* CZ *)
        destruct O as (Hb & Hq & Eh & O2). eapply bk_cons; [apply IH; exact O2|]. eexists. split; [reflexivity|].
        assert (Nbq : b <> q) by (intros ->; contradiction).
        assert (Mb : mem b ancs = true) by (now apply mem_In). assert (Mq : mem q ancs = false) by (now apply mem_not).
        assert (FE : forall x, flipped (G2 GCZ b q :: s) x = flipped s x) by reflexivity.
        intros x. cbn [px pz pred]. rewrite !FE. cbn [hn Tz]. rewrite Mb, Mq, Eh. cbn [Nat.eqb andb].
        split.
        * destruct (mem x ancs) eqn:M; [|reflexivity]. destruct (eqb_spec b x) as [<-|Ne]; [now rewrite Eh|reflexivity].
        * destruct (eqb_spec q x) as [<-|Nq].
          -- rewrite put_same, Mq. apply xorb_false_r.
          -- rewrite put_other by exact Nq. destruct (eqb_spec b x) as [<-|Ne].
             ++ rewrite put_same, Mb, Eh. cbn [Nat.eqb andb]. destruct (flipped s q); [rewrite par_cons, andb_true_r; apply xorb_comm|].
                now rewrite andb_false_r, xorb_false_r.
             ++ rewrite put_other by exact Ne. reflexivity.
  Qed.
  Lemma okb_app p s : okb (p ++ s) -> okb s.
  Proof.
    induction p as [|[n q|n b q] p IH]; intros O; [exact O| |]; cbn [app okb] in O; destruct n; try (exfalso; exact O); apply IH; tauto.
  Qed.
  Lemma czs_app p s b : czs (p ++ s) b = czs p b ++ czs s b.
  Proof. induction p as [|[n q|n b' q] p IH]; [reflexivity|exact IH|]. cbn [app czs]. destruct (eqb b' b); [cbn [app]; f_equal|]; exact IH. Qed.
  Lemma Tz_czs s b : incl (Tz s b) (czs s b).
  Proof.
    induction s as [|[n q|n b' q] s IH]; [apply incl_refl|exact IH|]. cbn [Tz czs]. destruct (eqb b' b); [|exact IH]. cbn [andb].
    destruct (flipped s q); [apply incl_cons; [now left|]|]; intros x Hx; right; now apply IH.
  Qed.
  Lemma Tz_nodup s b : NoDup (czs s b) -> NoDup (Tz s b).
  Proof.
    induction s as [|[n q|n b' q] s IH]; intros N; [constructor|exact (IH N)|]. cbn [Tz czs] in *. destruct (eqb b' b); [|exact (IH N)]. cbn [andb].
    inversion N as [|? ? Hn N']; subst. destruct (flipped s q); [|auto]. constructor; [|auto]. intros Hi. apply Hn. now apply (Tz_czs s b).
  Qed.
  Lemma Tz_suffix p s b : incl (Tz s b) (Tz (p ++ s) b).
  Proof.
    induction p as [|[n q|n b' q] p IH]; [apply incl_refl|exact IH|]. cbn [app Tz]. destruct (_ && _); [|exact IH]. intros x Hx. right. now apply IH.
  Qed.
  (* all the partners have an X factor *)
  Lemma Tz_all g b : NoDup (czs g b) -> (forall q, In q (czs g b) -> In q (Tz g b)) -> forall p s, g = p ++ s -> Tz s b = czs s b.
  Proof.
    intros N A p. revert g N A. induction p as [|h p IH]; intros g N A s ->.
    - cbn [app] in *. induction s as [|[n q|n b' q] s IH]; [reflexivity|apply IH; auto|]. cbn [Tz czs] in *.
      destruct (eqb b' b); [|apply IH; auto]. cbn [andb] in *. inversion N as [|? ? Hn N']; subst. destruct (flipped s q).
      + f_equal. apply IH; [|exact N']. intros x Hx. destruct (A x (or_intror Hx)) as [->|Hi]; [contradiction|exact Hi].
      + exfalso. apply Hn. apply (Tz_czs s b). apply A. now left.
    - apply (IH (p ++ s)); [| |reflexivity].
      + destruct h as [n q|n b' q]; [exact N|]. cbn [app czs] in N. destruct (eqb b' b); [now inversion N|exact N].
      + intros x Hx. destruct h as [n q|n b' q]; [apply A; exact Hx|]. cbn [app Tz czs] in *. destruct (eqb b' b); [|apply A; exact Hx]. cbn [andb] in *.
        inversion N as [|? ? Hn N']; subst. specialize (A x (or_intror Hx)). destruct (flipped (p ++ s) q); [|exact A].
        destruct A as [->|A]; [contradiction|exact A].
  Qed.
End Body.

Lemma par_single q T : NoDup T -> par [q] T = mem q T.
Proof.
  intros N. unfold par. destruct (mem q T) eqn:M.
  - apply mem_In in M. rewrite (xor_unique T _ q N M); [cbn; now rewrite eqb_refl|]. intros y _ Ny. cbn. now rewrite (proj2 (eqb_neq y q)).
  - apply xorl_zero. intros x Hx. cbn. rewrite (proj2 (eqb_neq x q)); [reflexivity|]. intros ->. apply mem_In in Hx. congruence.
Qed.
