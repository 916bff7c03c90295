(** Lists of gates that differ by the order of gates on different qubits: the tracker gives
    the same. *)
From Coq Require Import QArith Qcanon.
From Verif Require Import Base Lib StimM SetupM NoiseM SpecNoise NoiseP LayoutM BlockM SpecTrack SpecExp TrackP LiftP ExpP.
Open Scope Z_scope.

Section Trace.
  Context {Q : Type} `{Eqb Q}.
  Definition meets (q : Q) (g : SpecTrack.gate Q) : bool := match g with G1 _ x => eqb q x | G2 _ a b => eqb q a || eqb q b end.
  (* the same gates on every qubit *)
  Definition teq (L L' : list (SpecTrack.gate Q)) : Prop := forall q, filter (meets q) L = filter (meets q) L'.
  Lemma teq_refl L : teq L L. Proof. intros q. reflexivity. Qed.
  Lemma teq_sym L L' : teq L L' -> teq L' L. Proof. intros A q. symmetry. apply A. Qed.
  Lemma teq_trans A B C : teq A B -> teq B C -> teq A C.
  Proof. intros E F q. rewrite E. apply F. Qed.
  Lemma teq_app A A' B B' : teq A A' -> teq B B' -> teq (A ++ B) (A' ++ B').
  Proof. intros E F q. rewrite !filter_app. now rewrite E, F. Qed.

  Definition step (g : SpecTrack.gate Q) (s : bool) (P : pauli Q) : option (pauli Q) :=
    match g with G1 n q => back1 n q s P | G2 n a b => back2 n a b P end.
  Definition agree (g : SpecTrack.gate Q) (P R : pauli Q) : Prop := forall q, meets q g = true -> px P q = px R q /\ pz P q = pz R q.
  Lemma put_other (f : Q -> bool) q b x : eqb x q = false -> put f q b x = f x.
  Proof. intros E. unfold put. rewrite (eqb_sym q x). now rewrite E. Qed.
  Lemma step_out g s P R q : step g s P = Some R -> meets q g = false -> px R q = px P q /\ pz R q = pz P q.
  Proof.
    destruct g as [n x|n a b]; cbn [step meets]; intros E M.
    - unfold back1 in E. destruct n; try discriminate E; repeat match type of E with (if ?b then _ else _) = _ => destruct b; try discriminate E end;
        injection E as <-; auto; cbn [put2 px pz]; now rewrite !put_other by exact M.
    - apply orb_false_iff in M as [Ma Mb]. unfold back2 in E. destruct n; try discriminate E; injection E as <-; cbn [put2 px pz]; now rewrite !put_other by assumption.
  Qed.
  Lemma step_in g s P P' R : agree g P P' -> step g s P = Some R -> exists R', step g s P' = Some R' /\ agree g R R'.
  Proof.
    intros A E. destruct g as [n x|n a b]; cbn [step] in *.
    - destruct (A x) as [Ex Ez]; [cbn; apply eqb_refl|]. unfold back1 in *. rewrite <- Ex, <- Ez.
      destruct n; try discriminate E; repeat match type of E with (if ?b then _ else _) = _ => destruct b; try discriminate E end;
        injection E as <-; eexists; (split; [reflexivity|]); auto; intros q M; cbn [meets] in M; destruct (A q M);
        cbn [put2 px pz]; split; apply put_eq; assumption.
    - destruct (A a) as [E1 E2]; [cbn; now rewrite eqb_refl|]. destruct (A b) as [E3 E4]; [cbn; rewrite eqb_refl; apply orb_true_r|].
      unfold back2 in *. rewrite <- E1, <- E2, <- E3, <- E4.
      destruct n; try discriminate E; injection E as <-; eexists; (split; [reflexivity|]); intros q M; destruct (A q M);
        cbn [put2 px pz]; split; repeat apply put_eq; assumption.
  Qed.
  Definition apart_gates (g h : SpecTrack.gate Q) : Prop := forall q, meets q g = true -> meets q h = false.
  Lemma step_peq g s P P' R : peq P P' -> step g s P = Some R -> exists R', step g s P' = Some R' /\ peq R R'.
  Proof.
    intros E F. assert (G : opeq (step g s P) (step g s P')) by (destruct g; [now apply back1_peq|now apply back2_peq]).
    rewrite F in G. destruct (step g s P') as [R'|]; [|destruct G]. exists R'. auto.
  Qed.
  Lemma step_swap a g s t P P1 R : apart_gates a g -> step a s P = Some P1 -> step g t P1 = Some R ->
    exists P2 R', step g t P = Some P2 /\ step a s P2 = Some R' /\ peq R' R.
  Proof.
    intros D Ea Eg. assert (D' : apart_gates g a).
    { intros q M. destruct (meets q a) eqn:E; [|reflexivity]. apply D in E. congruence. }
    destruct (step_in g t P1 P R) as (P2 & E2 & A2); [|exact Eg|].
    { intros q M. exact (step_out _ _ _ _ q Ea (D' q M)). }
    destruct (step_in a s P P2 P1) as (R' & E3 & A3); [|exact Ea|].
    { intros q M. destruct (step_out _ _ _ _ q E2 (D q M)). auto. }
    exists P2, R'. split; [exact E2|]. split; [exact E3|]. intros q. destruct (meets q a) eqn:Ma.
    - destruct (A3 q Ma) as [<- <-]. destruct (step_out _ _ _ _ q Eg (D q Ma)) as [-> ->]. auto.
    - destruct (step_out _ _ _ _ q E3 Ma) as [-> ->]. destruct (meets q g) eqn:Mg.
      + destruct (A2 q Mg) as [-> ->]. auto.
      + destruct (step_out _ _ _ _ q E2 Mg) as [-> ->], (step_out _ _ _ _ q Eg Mg) as [-> ->]. destruct (step_out _ _ _ _ q Ea Ma) as [-> ->]. auto.
  Qed.
  (* the tracker with the outcomes selected by qubit and number, counted from the end *)
  Definition sel1 (T : Q -> nat -> bool) (g : SpecTrack.gate Q) (r : list (SpecTrack.gate Q)) : bool :=
    match g with G1 _ q => T q (S (count q (mlab r))) | G2 _ _ _ => false end.
  Fixpoint bT (L : list (SpecTrack.gate Q)) (T : Q -> nat -> bool) (P : pauli Q) : option (pauli Q) :=
    match L with [] => Some P | g :: r => match bT r T P with Some R => step g (sel1 T g r) R | None => None end end.
  Lemma step_quiet g s t P : measures_gate g = false -> step g s P = step g t P.
  Proof. destruct g as [n q|]; [|reflexivity]. cbn. destruct n; try discriminate; reflexivity. Qed.
  Lemma back_cons g r sel P : back (g :: r) sel P = match back r sel P with Some R => step g (sel (S (num_meas r))) R | None => None end.
  Proof. cbn [back]. destruct (back r sel P); [|reflexivity]. destruct g; reflexivity. Qed.
  Lemma bT_back L T P : back L (selT (mlab L) T) P = bT L T P.
  Proof.
    induction L as [|g r IH]; [reflexivity|]. rewrite back_cons. cbn [bT]. rewrite <- IH.
    assert (E : back r (selT (mlab (g :: r)) T) P = back r (selT (mlab r) T) P).
    { apply back_ext. intros k Hk. assert (M : mlab (g :: r) = mlab [g] ++ mlab r) by apply (mlab_app [g] r). rewrite M. unfold selT.
      rewrite rev_app_distr. rewrite nth_error_app1 by (rewrite rev_length, mlab_len; lia). destruct (nth_error (rev (mlab r)) (k - 1)); [|reflexivity].
      rewrite firstn_app. replace (k - length (rev (mlab r)))%nat with 0%nat by (rewrite rev_length, mlab_len; lia). cbn [firstn]. now rewrite app_nil_r. }
    rewrite E. destruct (back r (selT (mlab r) T) P) as [R|]; [|reflexivity]. destruct (measures_gate g) eqn:M; [|now apply step_quiet].
    f_equal. destruct g as [n q|]; [|discriminate]. cbn [measures_gate] in M. unfold selT, sel1. unfold mlab at 1 2. cbn [flat_map]. rewrite M. fold (mlab r). cbn [app].
    cbn [rev]. replace (S (num_meas r) - 1)%nat with (length (rev (mlab r))) by (rewrite rev_length, mlab_len; lia).
    rewrite nth_error_app2, Nat.sub_diag by lia. cbn [nth_error]. f_equal. rewrite firstn_all2 by (rewrite app_length, rev_length, mlab_len; cbn; lia).
    rewrite count_app, count_rev. cbn [count]. rewrite eqb_refl. lia.
  Qed.
  Lemma bT_app A B T P : bT (A ++ B) T P = match bT B T P with Some R => bT A (fun q j => T q (j + count q (mlab B))%nat) R | None => None end.
  Proof.
    induction A as [|g A IH]; cbn [app bT]; [now destruct (bT B T P)|]. rewrite IH. destruct (bT B T P) as [R|]; [|reflexivity].
    destruct (bT A _ R); [|reflexivity]. f_equal. destruct g; [|reflexivity]. cbn [sel1]. rewrite mlab_app, count_app. reflexivity.
  Qed.
  Lemma bT_ext L T T' P : (forall n q j, In (G1 n q) L -> T q j = T' q j) -> bT L T P = bT L T' P.
  Proof.
    induction L as [|g r IH]; intros E; [reflexivity|]. cbn [bT]. rewrite IH by (intros; eapply E; right; eauto). destruct (bT r T' P); [|reflexivity].
    f_equal. destruct g; [|reflexivity]. cbn [sel1]. eapply E. now left.
  Qed.
  Lemma bT_peq L T P P' R : peq P P' -> bT L T P = Some R -> exists R', bT L T P' = Some R' /\ peq R R'.
  Proof.
    intros E F. rewrite <- bT_back in *. pose proof (back_peq L (selT (mlab L) T) P P' E) as G. rewrite F in G.
    destruct (back L _ P') as [R'|]; [|destruct G]. exists R'. auto.
  Qed.
  (* a gate before gates on other qubits *)
  Lemma back_swap g t T A : (forall a, In a A -> apart_gates a g) -> forall P P1 R, bT A T P = Some P1 -> step g t P1 = Some R ->
    exists P2 R', step g t P = Some P2 /\ bT A T P2 = Some R' /\ peq R' R.
  Proof.
    induction A as [|a A IH]; intros D P P1 R Ea Eg.
    - injection Ea as <-. exists R, R. split; [exact Eg|]. split; [reflexivity|apply peq_refl].
    - cbn [bT] in Ea. destruct (bT A T P) as [Pa|] eqn:EA; [|discriminate].
      destruct (step_swap a g _ t Pa P1 R (D a (or_introl eq_refl)) Ea Eg) as (Pb & R1 & E1 & E2 & F1).
      destruct (IH (fun x Hx => D x (or_intror Hx)) P Pa Pb EA E1) as (P2 & R2 & E3 & E4 & F2). exists P2.
      destruct (step_peq a _ Pb R2 R1 (peq_sym _ _ F2) E2) as (R3 & E5 & F3). exists R3.
      split; [exact E3|]. split; [cbn [bT]; rewrite E4; exact E5|]. eapply peq_trans; [apply peq_sym; exact F3|exact F1].
  Qed.
  Lemma filter_split {A} (f : A -> bool) l x t : filter f l = x :: t -> exists a b, l = a ++ x :: b /\ filter f a = [] /\ filter f b = t.
  Proof.
    induction l as [|y l IH]; cbn; [discriminate|]. destruct (f y) eqn:E.
    - intros [= <- <-]. exists [], l. auto.
    - intros F. destruct (IH F) as (a & b & -> & Fa & Fb). exists (y :: a), b. cbn. rewrite E. auto.
  Qed.
  Lemma filter_head {A} (f : A -> bool) a x b t : ~ In x a -> f x = true -> filter f (a ++ x :: b) = x :: t -> filter f a = [] /\ filter f b = t.
  Proof.
    intros N Fx E. rewrite filter_app in E. cbn [filter] in E. rewrite Fx in E. destruct (filter f a) as [|y s] eqn:Fa.
    - injection E as <-. auto.
    - injection E as -> _. exfalso. apply N. assert (In x (filter f a)) as Hi by (rewrite Fa; now left). now apply filter_In in Hi.
  Qed.
  Lemma none_false {A} (f : A -> bool) l x : filter f l = [] -> In x l -> f x = false.
  Proof. intros F Hi. destruct (f x) eqn:E; [|reflexivity]. assert (In x (filter f l)) by (apply filter_In; auto). rewrite F in *. contradiction. Qed.
  Lemma teq_cons g r L' : teq (g :: r) L' -> exists A B, L' = A ++ g :: B /\ (forall a, In a A -> apart_gates a g) /\ teq r (A ++ B).
  Proof.
    intros E. set (q0 := match g with G1 _ x => x | G2 _ x _ => x end).
    assert (M0 : meets q0 g = true) by (destruct g; cbn; rewrite eqb_refl; reflexivity).
    pose proof (E q0) as E0. cbn [filter] in E0. rewrite M0 in E0. symmetry in E0. apply filter_split in E0 as (A & B & -> & F0 & _).
    assert (Nin : ~ In g A) by (intros Hi; pose proof (none_false _ _ _ F0 Hi); congruence).
    assert (K : forall f, f g = true -> filter f (g :: r) = filter f (A ++ g :: B) -> filter f A = [] /\ filter f r = filter f B).
    { intros f Fg Ef. cbn [filter] in Ef. rewrite Fg in Ef. symmetry in Ef. apply filter_head in Ef as [K1 K2]; auto. }
    exists A, B. split; [reflexivity|]. split.
    - intros a Ha q Mq. destruct (meets q g) eqn:Mg; [|reflexivity]. destruct (K (meets q) Mg (E q)) as [Z _].
      pose proof (none_false _ _ _ Z Ha). congruence.
    - intros q. specialize (E q). rewrite filter_app. destruct (meets q g) eqn:Fg.
      + destruct (K _ Fg E) as [-> ->]. reflexivity.
      + cbn [filter] in E. rewrite Fg in E. rewrite filter_app in E. cbn [filter] in E. now rewrite Fg in E.
  Qed.
  Lemma mlab_count L q : count q (mlab L) = count q (mlab (filter (meets q) L)).
  Proof.
    induction L as [|g L IH]; [reflexivity|]. assert (M : forall l, mlab (g :: l) = mlab [g] ++ mlab l) by (intros l; apply (mlab_app [g] l)).
    cbn [filter]. rewrite M, count_app, IH. destruct (meets q g) eqn:E; [rewrite (M (filter (meets q) L)), count_app; reflexivity|].
    destruct g as [n x|]; [|reflexivity]. cbn [meets] in E. unfold mlab at 1. cbn [flat_map]. destruct (is_meas n); [|reflexivity]. cbn [app count]. now rewrite E.
  Qed.
  Lemma teq_count L L' q : teq L L' -> count q (mlab L) = count q (mlab L').
  Proof. intros E. now rewrite mlab_count, (E q), <- mlab_count. Qed.
  Lemma teq_bT L : forall L' T P R, teq L L' -> bT L T P = Some R -> exists R', bT L' T P = Some R' /\ peq R' R.
  Proof.
    induction L as [|g r IH]; intros L' T P R E F.
    - injection F as <-. assert (L' = []) as ->; [|exists P; split; [reflexivity|apply peq_refl]].
      destruct L' as [|h L']; [reflexivity|]. exfalso. specialize (E (match h with G1 _ x => x | G2 _ x _ => x end)).
      destruct h; cbn [filter meets] in E; rewrite eqb_refl in E; discriminate.
    - apply teq_cons in E as (A & B & -> & D & E). cbn [bT] in F. destruct (bT r T P) as [R1|] eqn:Er; [|discriminate].
      destruct (IH _ _ _ _ E Er) as (R1' & E1 & F1). rewrite bT_app in E1. destruct (bT B T P) as [PB|] eqn:EB; [|discriminate].
      destruct (step_peq _ _ _ R1' _ (peq_sym _ _ F1) F) as (R2 & E2 & F2).
      destruct (back_swap _ _ _ _ D _ _ _ E1 E2) as (P2 & R' & E3 & E4 & F3).
      exists R'. split; [|eapply peq_trans; [exact F3|apply peq_sym; exact F2]].
      assert (Away : forall q, meets q g = true -> count q (mlab A) = 0%nat).
      { intros q Mq. rewrite mlab_count. assert (Z : filter (meets q) A = []); [|now rewrite Z]. clear -D Mq.
        induction A as [|a A IH]; [reflexivity|]. cbn [filter]. destruct (meets q a) eqn:E; [|apply IH; intros; apply D; now right].
        pose proof (D a (or_introl eq_refl) q E). congruence. }
      rewrite bT_app. cbn [bT]. rewrite EB. assert (S1 : sel1 T g B = sel1 T g r).
      { destruct g as [n q|]; [|reflexivity]. cbn [sel1]. f_equal. f_equal. rewrite (teq_count r (A ++ B) q E), mlab_app, count_app.
        rewrite Away; [reflexivity|]. cbn. apply eqb_refl. }
      rewrite S1, E3, <- E4. apply bT_ext. intros n q j Hi. f_equal. f_equal.
      assert (M : mlab (g :: B) = mlab [g] ++ mlab B) by apply (mlab_app [g] B). rewrite M, count_app.
      assert (Z : count q (mlab [g]) = 0%nat); [|lia]. rewrite mlab_count. cbn [filter]. rewrite (D _ Hi q); [reflexivity|]. cbn. apply eqb_refl.
  Qed.
  Lemma teq_bk L L' T P R : teq L L' -> bk L (selT (mlab L) T) P R -> bk L' (selT (mlab L') T) P R.
  Proof.
    intros E (S & F & G). rewrite bT_back in F. destruct (teq_bT _ _ _ _ _ E F) as (S' & F' & G'). exists S'. rewrite bT_back.
    split; [exact F'|]. eapply peq_trans; eauto.
  Qed.
End Trace.

(** * From indices to labels *)
Lemma rel_meets qi q i g h : wf_inds qi -> dget q qi = Some i -> gate_rel qi g h -> meets q g = meets i h.
Proof.
  intros W D R. assert (K : forall x j, dget x qi = Some j -> eqb q x = eqb i j).
  { intros x j Dx. destruct (eqb_spec q x) as [->|Ne].
    - rewrite D in Dx. injection Dx as <-. symmetry. apply eqb_refl.
    - symmetry. apply eqb_neq. intros ->. apply Ne. eapply inj_inds; eauto. }
  destruct g, h; cbn in R |- *; try contradiction.
  - now apply K.
  - destruct R as (_ & R1 & R2). now rewrite (K _ _ R1), (K _ _ R2).
Qed.
Lemma rel_meets_none qi q g h : dget q qi = None -> gate_rel qi g h -> meets q g = false.
Proof.
  intros D R. assert (K : forall x j, dget x qi = Some j -> eqb q x = false) by (intros x j Dx; apply eqb_neq; congruence).
  destruct g, h; cbn in R |- *; try contradiction.
  - destruct R as [_ R]. eapply K; eauto.
  - destruct R as (_ & R1 & R2). now rewrite (K _ _ R1), (K _ _ R2).
Qed.
Lemma rel_inj qi g g' h : wf_inds qi -> gate_rel qi g h -> gate_rel qi g' h -> g = g'.
Proof.
  intros W R R'. destruct g, g', h; cbn in R, R'; try contradiction.
  - destruct R as [-> R], R' as [-> R']. f_equal. eapply inj_inds; eauto.
  - destruct R as (-> & R1 & R2), R' as (-> & R3 & R4). f_equal; eapply inj_inds; eauto.
Qed.
Lemma filter_rel {A B} (R : A -> B -> Prop) f g L M : (forall a b, R a b -> f a = g b) -> Forall2 R L M -> Forall2 R (filter f L) (filter g M).
Proof. intros E F. induction F as [|a b L M H F IH]; cbn; [constructor|]. rewrite (E a b H). destruct (g b); auto. Qed.
Lemma rel_eq qi L L' M : wf_inds qi -> Forall2 (gate_rel qi) L M -> Forall2 (gate_rel qi) L' M -> L = L'.
Proof.
  intros W F. revert L'. induction F as [|g h L M R F IH]; intros L' F'; inversion F'; subst; [reflexivity|]. f_equal; [eapply rel_inj; eauto|auto].
Qed.
Lemma teq_lift qi L M M' : wf_inds qi -> Forall2 (gate_rel qi) L M -> teq M M' -> exists L', Forall2 (gate_rel qi) L' M' /\ teq L L'.
Proof.
  intros W F T. assert (X : exists L', Forall2 (gate_rel qi) L' M').
  { assert (K : forall h, In h M' -> exists g, gate_rel qi g h).
    { intros h Hh. set (q0 := match h with G1 _ x => x | G2 _ x _ => x end).
      assert (M0 : meets q0 h = true) by (destruct h; cbn; rewrite eqb_refl; reflexivity).
      assert (Hi : In h (filter (meets q0) M)) by (rewrite (T q0); apply filter_In; auto). apply filter_In in Hi as [Hi _].
      clear -F Hi. induction F as [|g x L M R F IH]; [destruct Hi|]. destruct Hi as [<-|Hi]; eauto. }
    clear -K. induction M' as [|h M' IH]; [exists []; constructor|]. destruct IH as [L' IH]; [intros; apply K; now right|].
    destruct (K h (or_introl eq_refl)) as [g R]. exists (g :: L'). auto. }
  destruct X as [L' F']. exists L'. split; [exact F'|].
  intros q. destruct (dget q qi) as [i|] eqn:D.
  - eapply rel_eq; [exact W| |].
    + apply (filter_rel _ _ (meets i)); [|exact F]. intros g h R. eapply rel_meets; eauto.
    + rewrite (T i). apply filter_rel; [|exact F']. intros g h R. eapply rel_meets; eauto.
  - assert (Z : forall L M, Forall2 (gate_rel qi) L M -> filter (meets q) L = []).
    { clear -D. induction 1 as [|g h L M R F IH]; [reflexivity|]. cbn. now rewrite (rel_meets_none qi q g h D R). }
    now rewrite (Z _ _ F), (Z _ _ F').
Qed.

(** * Following a circuit up to the order of gates on different qubits *)
Definition tracks (qi : dict string Z) (m : model) (L : list (SpecTrack.gate string)) (c : circuit) : Prop := exists L0, tracked qi m L0 c /\ teq L L0.
Lemma tracks_of qi m L c : tracked qi m L c -> tracks qi m L c.
Proof. intros T. exists L. split; [exact T|apply teq_refl]. Qed.
Lemma tracks_eq qi m L L' c : tracks qi m L c -> teq L' L -> tracks qi m L' c.
Proof. intros (L0 & T & E) E'. exists L0. split; [exact T|eapply teq_trans; eauto]. Qed.
Lemma tracks_blocks qi bl m m' r L c0 : tracks qi m L c0 -> run_blocks bl m = (m', Ok r) -> ok_blocks bl ->
  tracks qi m' (L ++ lg_blocks bl) (c0 ++ r) /\ Forall (fun i => ~ is_check i) r.
Proof.
  intros (L0 & T & E) H O. destruct (tracked_blocks _ _ _ _ _ _ _ T H O) as [T1 B]. split; [|exact B]. exists (L0 ++ lg_blocks bl). split; [exact T1|].
  apply teq_app; [exact E|apply teq_refl].
Qed.
Lemma tracks_ann qi m L c r : tracks qi m L c -> annotations r -> tracks qi m L (c ++ r).
Proof. intros (L0 & T & E) A. exists L0. split; [now apply tracked_ann|exact E]. Qed.
Lemma tracks_det qi m L L0 c i T : tracked qi m L0 c -> teq L L0 -> Forall (fun t => exists q z, meas_target m q z = Ok t) (tg i) ->
  (forall k, (1 <= k <= length (mlab L0))%nat -> lists i k = selT (mlab L0) T k) -> bk L (selT (mlab L) T) identity_op identity_op -> deterministic c i.
Proof. intros Tr E F S B. apply (det_labels qi m L0 c i T Tr F S). eapply teq_bk; eauto. Qed.
