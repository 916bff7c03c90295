(** The operator that the final measurement of the data qubits corresponds to, at every
    place of an experiment. *)
From Coq Require Import QArith Qcanon.
From Verif Require Import Base Lib StimM NoiseM SpecNoise LayoutM SpecGen GeomP BlockM LayoutP SpecTrack SpecExp SpecFault TrackP ActP ExpP ExpP2 FaultP FaultP2.
Open Scope Z_scope.

Lemma split_app {A} (U X L B : list A) : U ++ X = L ++ B ->
  (exists U2, U = L ++ U2 /\ U2 <> [] /\ B = U2 ++ X) \/ (exists L', L = U ++ L' /\ X = L' ++ B).
Proof.
  intros E. apply app_eq_app in E as (M & [[E1 E2]|[E1 E2]]).
  - destruct M as [|m M].
    + right. exists []. rewrite app_nil_r in *. subst. auto.
    + left. exists (m :: M). split; [exact E1|]. split; [discriminate|exact E2].
  - right. exists M. auto.
Qed.
Lemma map_split {A B} (f : A -> B) l x y : map f l = x ++ y -> exists l1 l2, l = l1 ++ l2 /\ x = map f l1 /\ y = map f l2.
Proof.
  revert x. induction l as [|a l IH]; intros x E.
  - symmetry in E. apply app_eq_nil in E as [-> ->]. exists [], []. auto.
  - destruct x as [|b x].
    + exists [], (a :: l). auto.
    + cbn [map app] in E. injection E as <- E. destruct (IH x E) as (l1 & l2 & -> & -> & ->). exists (a :: l1), l2. auto.
Qed.

Section Place.
  Context (st : stabilizers) (ancs data hset : list string).
  Hypothesis Na : NoDup ancs.
  Hypothesis Nd : NoDup data.
  Hypothesis Hda : forall q, In q data -> ~ In q ancs.
  Hypothesis Hst : forall a q, In a ancs -> In q (fst (st a)) \/ In q (snd (st a)) -> In q data.
  Hypothesis Hh : incl hset data.
  Context (g : nat -> list (gate string)) (rf : nat -> bool).
  Hypothesis Hg : forall r, acts st ancs (g r).
  Local Notation hs := (hs hset).
  Local Notation Rn := (Rn ancs g rf).

  (* the selection of the final outcomes of S *)
  Definition dsel (S : list string) : nat -> bool := selT data (fun q _ => mem q S).
  (* sets whose operator commutes with all the generators *)
  Definition fam (S : list string) : Prop :=
    incl S data /\ forall a, In a ancs -> anti st (px (BS hs S)) (pz (BS hs S)) a = false.
  Lemma fam_anc S a : fam S -> In a ancs -> mem a S = false.
  Proof. intros [F _] Ha. apply mem_not. intros Hi. apply (Hda a); auto. Qed.
  Lemma dsel_out S k : (length data < k)%nat -> dsel S k = false.
  Proof using.
    clear. intros Hk. unfold dsel, selT. rewrite (proj2 (nth_error_None (rev data) (k - 1))); [reflexivity|]. rewrite rev_length. lia.
  Qed.
  Lemma bk_out S (a b : list (gate string)) P R : (length data <= num_meas b)%nat -> bk a (fun _ => false) P R -> bk a (fun k => dsel S (k + num_meas b)%nat) P R.
  Proof. intros Hn B. eapply bk_ext; [exact B|]. intros k Hk. cbv beta. rewrite dsel_out by lia. reflexivity. Qed.
  Lemma msel_false (l : list string) q : msel l (fun _ => false) q = false.
  Proof. induction l as [|x l IH]; [reflexivity|]. cbn. now destruct (eqb x q). Qed.

  Definition pl (t c : string -> bool) (B : list (gate string)) : Prop := forall S, fam S ->
    bk B (dsel S) identity_op (Pauli (fun q => mem q S && (c q && t q)) (fun q => mem q S && (c q && negb (t q)))).
  Definition good (B : list (gate string)) : Prop := (length data <= num_meas B)%nat /\ forall S, fam S -> bk B (dsel S) identity_op (BS hs S).
  Lemma good_pl B : good B -> pl hs (fun q => mem q data) B.
  Proof.
    intros [_ G] S F. eapply bk_eq; [apply G; exact F|apply peq_refl|]. intros q. cbn [BS px pz].
    destruct (mem q S) eqn:M; [|now rewrite !andb_false_r]. apply mem_In in M. apply (proj1 F) in M. rewrite (proj2 (mem_In q data) M).
    rewrite !andb_true_r. cbn. auto.
  Qed.
  (* the operator before [C] is the one before [B] *)
  Definition same (B C : list (gate string)) : Prop := forall S P, bk C (dsel S) identity_op P -> bk B (dsel S) identity_op P.
  Definition classified (B : list (gate string)) : Prop :=
    (exists t c, pl t c B) /\ (forall n b q B', B <> G2 n b q :: B') \/
    (exists r p s B', g r = p ++ s /\ same B (s ++ B') /\ good B' /\
       forall n b q B1, B = G2 n b q :: B1 -> exists s1, s = G2 n b q :: s1 /\ same B1 (s1 ++ B')).
  Lemma same_refl B : same B B. Proof. intros S P H. exact H. Qed.
  Lemma classified_eq r p s B' : g r = p ++ s -> s <> [] -> good B' -> classified (s ++ B').
  Proof.
    intros E Ne G. right. exists r, p, s, B'. split; [exact E|]. split; [apply same_refl|]. split; [exact G|].
    intros n b q B1 E1. destruct s as [|h s]; [congruence|]. cbn in E1. injection E1 as -> <-. exists s. split; [reflexivity|apply same_refl].
  Qed.
  Lemma one_head n l X m b q B' : l <> [] -> map (G1 n) l ++ X <> @G2 string m b q :: B'.
  Proof. destruct l as [|a l]; [congruence|]. intros _ E. discriminate E. Qed.

  (** * The final measurement *)
  Section Final.
    Context (H' : list string).
    Hypothesis NH : NoDup H'.
    Hypothesis EH : forall q, mem q H' = hs q.
    Definition Df := map (G1 GH) H' ++ map (G1 GM) data.
    Lemma pl_meas d1 d2 : data = d1 ++ d2 -> pl (fun _ => false) (fun q => mem q d2) (map (G1 GM) d2).
    Proof.
      intros E S F. assert (N2 : NoDup d2) by (rewrite E in Nd; now apply NoDup_app_inv in Nd).
      eapply bk_eq; [apply (bk_M d2 _ identity_op); [exact N2|reflexivity]|apply peq_refl|]. intros q. cbn [px pz identity_op]. rewrite !andb_false_r. split; [reflexivity|].
      rewrite xorb_false_l. cbn [negb]. rewrite andb_true_r. unfold dsel. rewrite E. destruct (mem q d2) eqn:M.
      - apply mem_In in M. rewrite msel_selT by assumption. now rewrite andb_true_r.
      - rewrite msel_out by (intros Hi; apply mem_In in Hi; congruence). now rewrite andb_false_r.
    Qed.
    Lemma pl_H t c l B : NoDup l -> pl t c B -> pl (fun q => xorb (mem q l) (t q)) c (map (G1 GH) l ++ B).
    Proof.
      intros N G S F. eapply bk_app; [apply G; exact F|]. eapply bk_eq; [apply bk_H; exact N|apply peq_refl|].
      intros q. unfold had. cbn [px pz]. destruct (mem q l), (t q), (c q), (mem q S); split; reflexivity.
    Qed.
    Lemma D_good : good Df.
    Proof.
      split.
      - unfold Df. rewrite num_meas_app, !num_meas_map. cbn [is_meas]. lia.
      - intros S F. eapply bk_eq; [apply (pl_H _ _ _ _ NH (pl_meas [] data eq_refl) S F)|apply peq_refl|]. intros q. cbn [px pz BS]. rewrite EH, xorb_false_r.
        destruct (mem q S) eqn:M; [|now rewrite !andb_false_r]. apply mem_In in M. apply (proj1 F) in M. rewrite (proj2 (mem_In q data) M).
        rewrite !andb_true_r. auto.
    Qed.
    Lemma D_class A B : Df = A ++ B -> classified B.
    Proof.
      intros E. left. unfold Df in E. apply split_app in E as [(U2 & E & Ne & ->)|(L' & -> & E)].
      - apply map_split in E as (h1 & h2 & Eh & _ & ->). split.
        + do 2 eexists. apply pl_H; [rewrite Eh in NH; now apply NoDup_app_inv in NH|]. exact (pl_meas [] data eq_refl).
        + intros. apply one_head. intros ->. now apply Ne.
      - apply map_split in E as (d1 & d2 & Ed & _ & ->). split.
        + do 2 eexists. exact (pl_meas d1 d2 Ed).
        + intros n b q B' E. destruct d2; discriminate E.
    Qed.
  End Final.

  (** * The rounds *)
  Lemma BS_anc S a : fam S -> In a ancs -> px (BS hs S) a = false /\ pz (BS hs S) a = false.
  Proof. intros F Ha. cbn [BS px pz]. rewrite (fam_anc S a F Ha). now rewrite !andb_false_r. Qed.
  Lemma M_good l B : NoDup l -> incl l ancs -> good B -> good (map (G1 GM) l ++ B).
  Proof.
    intros N Hi [Hn G]. split; [rewrite num_meas_app; lia|]. intros S F. eapply bk_app; [apply G; exact F|]. apply bk_out; [exact Hn|].
    eapply bk_eq; [apply (bk_M l _ (BS hs S)); [exact N|]|apply peq_refl|].
    - intros q Hq. apply (BS_anc S q F). auto.
    - intros q. cbn [px pz BS]. rewrite (msel_false l q), xorb_false_r. split; reflexivity.
  Qed.
  Lemma body_good r B : good B -> good (g r ++ B).
  Proof.
    intros [Hn G]. split; [rewrite num_meas_app; lia|]. intros S F. eapply bk_app; [apply G; exact F|]. apply bk_out; [exact Hn|].
    destruct (Hg r) as [_ Ha]. specialize (Ha (px (BS hs S)) (pz (BS hs S)) (fun _ => false) (fun a Hi => proj1 (BS_anc S a F Hi))).
    eapply bk_eq; [exact Ha|intros q; split; reflexivity|]. intros q. unfold sumx, sumz.
    assert (Z : forall f, xorl (map (fun a => pz (BS hs S) a && on (f a) q) ancs) = false).
    { intros f. apply xorl_zero. intros a Hi. now rewrite (proj2 (BS_anc S a F Hi)). }
    cbn [px pz]. rewrite (Z (fun a => fst (st a))), (Z (fun a => snd (st a))), !xorb_false_r. destruct (mem q ancs) eqn:M; [|split; reflexivity]. apply mem_In in M.
    rewrite (proj2 F q M). destruct (BS_anc S q F M) as [E1 E2]. cbn [px pz BS] in *. rewrite E1, E2. auto.
  Qed.
  Lemma R_good l B : incl l ancs -> good B -> good (map (G1 GR) l ++ B).
  Proof.
    intros Hi [Hn G]. split; [rewrite num_meas_app; lia|]. intros S F. eapply bk_app; [apply G; exact F|]. apply bk_out; [exact Hn|].
    eapply bk_eq; [apply bk_R|apply peq_refl|].
    - intros q Hq. apply (BS_anc S q F). auto.
    - intros q. cbn [px pz]. destruct (mem q l) eqn:M; [|split; reflexivity]. apply mem_In in M. destruct (BS_anc S q F (Hi q M)) as [-> ->]. auto.
  Qed.
  Lemma round_good r b B : good B -> good (round_g ancs (g r) b ++ B).
  Proof.
    intros G. unfold round_g. rewrite <- !app_assoc. destruct b; [apply R_good; [apply incl_refl|]|cbn [app]]; apply body_good, M_good; auto; apply incl_refl.
  Qed.
  Lemma pl_not_head B : (exists t c, pl t c B) -> (forall n b q B', B <> G2 n b q :: B') -> classified B.
  Proof. intros H1 H2. left. auto. Qed.
  Lemma round_class r b X A B : good X -> round_g ancs (g r) b ++ X = A ++ B -> classified B \/ exists A', A = round_g ancs (g r) b ++ A' /\ X = A' ++ B.
  Proof.
    intros G E. unfold round_g in E at 1. rewrite <- !app_assoc in E. apply split_app in E as [(U2 & E & Ne & ->)|(A1 & -> & E)].
    { left. destruct b; [|symmetry in E; apply app_eq_nil in E as [_ E]; congruence].
      apply map_split in E as (l1 & l2 & El & _ & ->). apply pl_not_head.
      - do 2 eexists. apply good_pl. apply R_good; [rewrite El; apply incl_appr, incl_refl|]. apply body_good, M_good; auto. apply incl_refl.
      - intros. apply one_head. intros ->. now apply Ne. }
    apply split_app in E as [(U2 & E & Ne & ->)|(A2 & -> & E)].
    { left. apply (classified_eq r A1); auto. apply M_good; auto; apply incl_refl. }
    apply split_app in E as [(U2 & E & Ne & ->)|(A3 & -> & E)].
    { left. apply map_split in E as (l1 & l2 & El & _ & ->). apply pl_not_head.
      - do 2 eexists. apply good_pl. apply M_good; [rewrite El in Na; now apply NoDup_app_inv in Na|rewrite El; apply incl_appr, incl_refl|exact G].
      - intros. apply one_head. intros ->. now apply Ne. }
    right. exists A3. unfold round_g. rewrite <- !app_assoc. auto.
  Qed.
  Lemma rounds_good n : forall B, good B -> good (Rn n ++ B).
  Proof. induction n as [|n IH]; intros B G; [exact G|]. cbn [ExpP2.Rn]. rewrite <- app_assoc. apply IH. now apply round_good. Qed.
  Lemma rounds_class n : forall X A B, good X -> Rn n ++ X = A ++ B -> classified B \/ exists A', A = Rn n ++ A' /\ X = A' ++ B.
  Proof.
    induction n as [|n IH]; intros X A B G E; [right; exists A; auto|]. cbn [ExpP2.Rn] in *. rewrite <- app_assoc in E.
    apply IH in E as [C|(A' & -> & E)]; [auto| |now apply round_good].
    apply round_class in E as [C|(A2 & -> & E)]; [auto| |exact G]. right. exists A2. split; [now rewrite <- app_assoc|exact E].
  Qed.

  (** * Initialization *)
  Section Start.
    Context (Rq X H0 : list string).
    Hypothesis NH0 : NoDup H0.
    Hypothesis EH0 : forall q, mem q H0 = hs q.
    Definition If := map (G1 GR) Rq ++ map (G1 GX) X ++ map (G1 GH) H0.
    Lemma pl_X t c l B : pl t c B -> pl t c (map (G1 GX) l ++ B).
    Proof. intros G S F. eapply bk_app; [apply G; exact F|]. apply bk_paulis. now left. Qed.
    Lemma pl_R t c l B : (forall q, t q = false) -> pl t c B -> pl t (fun q => c q && negb (mem q l)) (map (G1 GR) l ++ B).
    Proof.
      intros T G S F. eapply bk_app; [apply G; exact F|]. eapply bk_eq; [apply bk_R|apply peq_refl|].
      - intros q _. cbn [px]. now rewrite T, !andb_false_r.
      - intros q. cbn [px pz]. rewrite T. destruct (mem q l), (c q), (mem q S); split; reflexivity.
    Qed.
    Lemma pl_ext t t' c B : (forall q, t q = t' q) -> pl t c B -> pl t' c B.
    Proof. intros E G S F. eapply bk_eq; [apply G; exact F|apply peq_refl|]. intros q. cbn [px pz]. now rewrite E. Qed.
    Lemma I_class X' A B : good X' -> If ++ X' = A ++ B -> classified B \/ exists A', A = If ++ A' /\ X' = A' ++ B.
    Proof.
      intros G E. unfold If in *. rewrite <- !app_assoc in E.
      assert (P1 : pl (fun _ => false) (fun q => mem q data) (map (G1 GX) X ++ map (G1 GH) H0 ++ X')).
      { apply pl_X. eapply pl_ext; [|apply pl_H; [exact NH0|apply good_pl; exact G]]. intros q. cbv beta. rewrite EH0. apply xorb_nilpotent. }
      apply split_app in E as [(U2 & E & Ne & ->)|(A1 & -> & E)].
      { left. apply map_split in E as (l1 & l2 & El & _ & ->). apply pl_not_head; [|intros; apply one_head; intros ->; now apply Ne].
        do 2 eexists. apply pl_R; [reflexivity|exact P1]. }
      apply split_app in E as [(U2 & E & Ne & ->)|(A2 & -> & E)].
      { left. apply map_split in E as (l1 & l2 & El & _ & ->). apply pl_not_head; [|intros; apply one_head; intros ->; now apply Ne].
        do 2 eexists. apply pl_X. apply pl_H; [exact NH0|apply good_pl; exact G]. }
      apply split_app in E as [(U2 & E & Ne & ->)|(A3 & -> & E)].
      { left. apply map_split in E as (l1 & l2 & El & _ & ->). apply pl_not_head; [|intros; apply one_head; intros ->; now apply Ne].
        do 2 eexists. apply pl_H; [rewrite El in NH0; now apply NoDup_app_inv in NH0|apply good_pl; exact G]. }
      right. exists A3. rewrite <- !app_assoc. auto.
    Qed.
    Lemma all_class n H' A B : NoDup H' -> (forall q, mem q H' = hs q) -> If ++ Rn n ++ Df H' = A ++ B -> classified B.
    Proof.
      intros N' E' E. pose proof (D_good H' N' E') as GD. apply I_class in E as [C|(A1 & _ & E)]; [exact C| |now apply rounds_good].
      apply rounds_class in E as [C|(A2 & _ & E)]; [exact C| |exact GD]. eapply D_class; eauto.
    Qed.
  End Start.

  (** * Small errors *)
  Context (line : string -> option nat).
  Definition one_line (T : list string) : Prop := forall q q' k k', In q T -> In q' T -> line q = Some k -> line q' = Some k' -> k = k'.
  Definition small (f : list string -> bool) : Prop := exists T, one_line T /\ forall S, fam S -> f S = par S T.
  Lemma small_ext f f' : small f -> (forall S, fam S -> f' S = f S) -> small f'.
  Proof. intros (T & O & E) H. exists T. split; [exact O|]. intros S F. rewrite H by exact F. now apply E. Qed.
  Lemma small_zero : small (fun _ => false).
  Proof. exists []. split; [intros q q' k k' []|reflexivity]. Qed.
  Lemma small_one q : small (fun S => mem q S).
  Proof.
    exists [q]. split; [|intros S _; cbn; now rewrite xorb_false_r]. intros x y k k' [<-|[]] [<-|[]] E E'. congruence.
  Qed.
  Lemma small_and b f : small f -> small (fun S => b && f S).
  Proof. destruct b; cbn; [auto|]. intros _. apply small_zero. Qed.
  Lemma one_line_incl T T' : incl T' T -> one_line T -> one_line T'.
  Proof. intros I O q q' k k' H1 H2. apply O; auto. Qed.

  Hypothesis Hok : forall r, okb ancs (g r).
  Hypothesis Hh2 : forall r b, In b ancs -> hn (g r) b = 2%nat.
  Hypothesis Hcn : forall r b, In b ancs -> NoDup (czs (g r) b).
  Hypothesis Hdat : forall r b q, In b ancs -> In q (czs (g r) b) -> In q data.
  (* every ancilla commutes with all the single errors, or with none on its partners, that are on two lines *)
  Hypothesis Hkind : forall r b, In b ancs -> (forall q, anti st (px (BS hs [q])) (pz (BS hs [q])) b = false) \/
    (forall q, In q (czs (g r) b) -> anti st (px (BS hs [q])) (pz (BS hs [q])) b = true) /\
    exists A B, czs (g r) b = A ++ B /\ one_line A /\ one_line B.

  Lemma whole_par r b S : incl S data -> In b ancs -> par S (Tz hs (g r) b) = anti st (px (BS hs S)) (pz (BS hs S)) b.
  Proof.
    intros Si Hb. assert (D : forall a, In a ancs -> mem a S = false) by (intros a Ha; apply mem_not; intros Hi; apply (Hda a); auto).
    pose proof (body_pred ancs hs S (g r) (fun _ => false) D (Hok r)) as B1.
    destruct (Hg r) as [_ Ha]. specialize (Ha (px (BS hs S)) (pz (BS hs S)) (fun _ => false)).
    assert (B2 := bk_fun _ _ _ _ _ B1 (Ha (fun a Hi => ltac:(cbn [BS px]; rewrite (D a Hi); apply andb_false_r)))).
    destruct (B2 b) as [E _]. cbn [pred px] in E. rewrite (proj2 (mem_In b ancs) Hb), (Hh2 r b Hb) in E. exact E.
  Qed.
  Lemma body_small r p s b : g r = p ++ s -> In b ancs -> small (fun S => par S (Tz hs s b)) /\
    (forall q s', s = G2 GCZ b q :: s' -> small (fun S => xorb (mem q S) (par S (Tz hs s' b)))).
  Proof.
    intros E Hb. destruct (Hkind r b Hb) as [K|K].
    - assert (Z : Tz hs (g r) b = []).
      { destruct (Tz hs (g r) b) as [|q T] eqn:ET; [reflexivity|]. exfalso.
        assert (Hq : In q (Tz hs (g r) b)) by (rewrite ET; now left).
        assert (Dq : In q data) by (apply (Hdat r b); [exact Hb|]; now apply (Tz_czs hs)).
        pose proof (whole_par r b [q] (fun x Hx => match Hx with or_introl e => eq_ind q (fun x => In x data) Dq x e | or_intror f => match f with end end) Hb) as W.
        rewrite K, par_single in W by (apply Tz_nodup, Hcn, Hb). apply mem_In in Hq. congruence. }
      assert (Zs : forall p' s', g r = p' ++ s' -> Tz hs s' b = []).
      { intros p' s' E'. destruct (Tz hs s' b) as [|q T] eqn:ET; [reflexivity|]. exfalso.
        assert (Hq : In q (Tz hs (g r) b)) by (rewrite E'; apply Tz_suffix; rewrite ET; now left). rewrite Z in Hq. destruct Hq. }
      split.
      + rewrite (Zs p s E). exact small_zero.
      + intros q s' ->. rewrite (Zs (p ++ [G2 GCZ b q]) s') by (now rewrite <- app_assoc). eapply small_ext; [apply small_one|]. intros S _. apply xorb_false_r.
    - destruct K as [K1 (A & B & EAB & OA & OB)].
      assert (Al : forall q, In q (czs (g r) b) -> In q (Tz hs (g r) b)).
      { intros q Hq. pose proof (Hdat r b q Hb Hq) as Dq.
        pose proof (whole_par r b [q] (fun x Hx => match Hx with or_introl e => eq_ind q (fun x => In x data) Dq x e | or_intror f => match f with end end) Hb) as W.
        rewrite (K1 q Hq), par_single in W by (apply Tz_nodup, Hcn, Hb). now apply mem_In. }
      pose proof (Tz_all hs (g r) b (Hcn r b Hb) Al) as TA.
      assert (Tot : forall S, fam S -> par S (czs (g r) b) = false).
      { intros S F. rewrite <- (TA [] (g r) eq_refl), (whole_par r b S (proj1 F) Hb). apply F, Hb. }
      assert (Sm : forall p' s', g r = p' ++ s' -> small (fun S => par S (czs s' b))).
      { intros p' s' E'. rewrite E', czs_app in EAB. symmetry in EAB.
        assert (Cut : one_line (czs s' b) \/ one_line (czs p' b)).
        { apply app_eq_app in EAB as (M & [[E1 E2]|[E1 E2]]).
          - right. eapply one_line_incl; [|exact OA]. rewrite E1. apply incl_appl, incl_refl.
          - left. eapply one_line_incl; [|exact OB]. rewrite E2. apply incl_appr, incl_refl. }
        destruct Cut as [O|O]; [exists (czs s' b); auto|]. exists (czs p' b). split; [exact O|]. intros S F.
        specialize (Tot S F). rewrite E', czs_app, par_app in Tot. destruct (par S (czs p' b)), (par S (czs s' b)); (reflexivity || discriminate Tot). }
      split.
      + rewrite (TA p s E). eapply Sm; eauto.
      + intros q s' ->. assert (E' : g r = (p ++ [G2 GCZ b q]) ++ s') by (now rewrite <- app_assoc).
        eapply small_ext; [eapply Sm; exact E|]. intros S F. cbn [czs]. rewrite eqb_refl, par_cons. rewrite (TA _ _ E'). reflexivity.
  Qed.

  (* the operator at a place *)
  Definition at_place (B : list (gate string)) (S : list string) : pauli string :=
    match back B (dsel S) identity_op with Some W => W | None => identity_op end.
  Lemma at_place_bk B S W : bk B (dsel S) identity_op W -> peq (at_place B S) W.
  Proof. intros (W' & E & F). unfold at_place. rewrite E. exact F. Qed.
  Lemma in_body r p s B' S : g r = p ++ s -> good B' -> fam S -> bk (s ++ B') (dsel S) identity_op (pred ancs hs s S).
  Proof.
    intros E [Hn G] F. eapply bk_app; [apply G; exact F|]. apply bk_out; [exact Hn|].
    apply body_pred; [intros a Ha; now apply fam_anc|]. specialize (Hok r). rewrite E in Hok. eapply okb_app; eauto.
  Qed.
  Lemma classified_ok B S : classified B -> fam S -> exists W, back B (dsel S) identity_op = Some W.
  Proof.
    intros [[(t & c & G) _]|(r & p & s & B' & E & Sa & G & _)] F.
    - destruct (G S F) as (W & EW & _). eauto.
    - destruct (Sa _ _ (in_body r p s B' S E G F)) as (W & EW & _). eauto.
  Qed.
  Lemma small_single B q x z : classified B -> small (fun S => xorb (x && pz (at_place B S) q) (z && px (at_place B S) q)).
  Proof.
    intros [[(t & c & G) _]|(r & p & s & B' & E & Sa & G & _)].
    - apply (small_ext (fun S => (x && (c q && negb (t q)) || z && (c q && t q)) && mem q S)); [apply small_and, small_one|].
      intros S F. destruct (at_place_bk _ _ _ (G S F) q) as [-> ->]. cbn [px pz].
      destruct (mem q S), x, z, (c q), (t q); reflexivity.
    - destruct (mem q ancs) eqn:M.
      + pose proof M as Hq. apply mem_In in Hq. destruct (body_small r p s q E Hq) as [Sm _].
        apply (small_ext (fun S => (x && Nat.eqb (hn s q) 1 || z && Nat.eqb (hn s q) 2) && par S (Tz hs s q))); [apply small_and, Sm|].
        intros S F. destruct (at_place_bk _ _ _ (Sa _ _ (in_body r p s B' S E G F)) q) as [-> ->]. cbn [pred px pz]. rewrite M.
        destruct (hn s q) as [|[|[|h]]]; cbn [Nat.eqb]; destruct x, z, (par S (Tz hs s q)); reflexivity.
      + apply (small_ext (fun S => (x && negb (flipped hs s q) || z && flipped hs s q) && mem q S)); [apply small_and, small_one|].
        intros S F. destruct (at_place_bk _ _ _ (Sa _ _ (in_body r p s B' S E G F)) q) as [-> ->]. cbn [pred px pz]. rewrite M.
        destruct (mem q S), x, z, (flipped hs s q); reflexivity.
  Qed.
  (* after a gate *)
  Lemma small_pair n b q B xb zb xq zq : classified (G2 n b q :: B) ->
    small (fun S => xorb (xorb (xb && pz (at_place B S) b) (zb && px (at_place B S) b)) (xorb (xq && pz (at_place B S) q) (zq && px (at_place B S) q))).
  Proof.
    intros [[_ Hn]|(r & p & s0 & B' & E & _ & G & EB)]; [exfalso; eapply Hn; reflexivity|].
    destruct (EB _ _ _ _ eq_refl) as (s & -> & Sa).
    pose proof (Hok r) as O. rewrite E in O. apply (okb_app ancs hs) in O. cbn [okb] in O. destruct n; try (exfalso; exact O). destruct O as (Hb & Hq & Eh & O).
    assert (E' : g r = (p ++ [G2 GCZ b q]) ++ s) by (now rewrite <- app_assoc).
    destruct (body_small r _ s b E' Hb) as [S1 _]. destruct (body_small r p _ b E Hb) as [_ S2]. specialize (S2 q s eq_refl).
    set (u := xq && negb (flipped hs s q) || zq && flipped hs s q).
    apply (small_ext (fun S => xorb (xb && par S (Tz hs s b)) (u && mem q S))).
    - destruct xb, u; cbn [andb].
      + eapply small_ext; [exact S2|]. intros S _. apply xorb_comm.
      + eapply small_ext; [exact S1|]. intros S _. apply xorb_false_r.
      + eapply small_ext; [apply (small_one q)|]. intros S _. apply xorb_false_l.
      + eapply small_ext; [apply small_zero|]. reflexivity.
    - intros S F. destruct (at_place_bk _ _ _ (Sa _ _ (in_body r _ s B' S E' G F)) b) as [-> ->]. destruct (at_place_bk _ _ _ (Sa _ _ (in_body r _ s B' S E' G F)) q) as [-> ->].
      cbn [pred px pz]. rewrite (proj2 (mem_In b ancs) Hb), (mem_not q ancs Hq), Eh. cbn [Nat.eqb andb]. rewrite andb_false_r, xorb_false_r. f_equal.
      unfold u. destruct (mem q S), xq, zq, (flipped hs s q); reflexivity.
  Qed.
End Place.
