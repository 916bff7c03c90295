(** Every fault changes the final outcomes like an error on few data qubits. *)
From Coq Require Import QArith Qcanon.
From Verif Require Import Base Lib StimM NoiseM SpecNoise NoiseP LayoutM SpecGen GeomP BlockM LayoutP SpecTrack SpecExp SpecFault TrackP ActP ExpP ExpP2 FaultP FaultP2 FaultP3.
Open Scope Z_scope.

Lemma index_label (qi : dict string Z) i : SpecNoise.wf_inds qi -> (exists q, dget q qi = Some i) \/ ~ In i (dvals qi).
Proof.
  intros [N _]. destruct (in_dec Z.eq_dec i (dvals qi)) as [I|I]; [|now right]. left. apply in_map_iff in I as ([q j] & <- & I). exists q. now apply In_dget.
Qed.
Lemma seq_split' a b : seq 1 (a + b) = seq 1 b ++ seq (1 + b) a.
Proof. rewrite Nat.add_comm. apply seq_app. Qed.

Section Link.
  Context (data : list string) (line : string -> option nat) (F : list string -> Prop).
  Definition sm (f : list string -> bool) : Prop := exists T, one_line line T /\ forall S, F S -> f S = par S T.
  Lemma sm_ext f f' : sm f -> (forall S, F S -> f' S = f S) -> sm f'.
  Proof. intros (T & O & E) H. exists T. split; [exact O|]. intros S FS. rewrite H by exact FS. now apply E. Qed.
  Lemma sm_zero : sm (fun _ => false).
  Proof. exists []. split; [intros q q' k k' []|reflexivity]. Qed.
  Context (qi : dict string Z) (c : circuit) (L : list (gate string)).
  Hypothesis W : SpecNoise.wf_inds qi.
  Hypothesis HR : Forall2 (gate_rel qi) L (gates c).
  Local Notation dsel := (dsel data).
  Local Notation at_place := (at_place data).
  Hypothesis H1 : forall A B S, L = A ++ B -> F S -> exists V, back B (dsel S) identity_op = Some V.
  Hypothesis H2 : forall A B q x z, L = A ++ B -> sm (fun S => xorb (x && pz (at_place B S) q) (z && px (at_place B S) q)).
  Hypothesis H3 : forall A n b q B xb zb xq zq, L = A ++ G2 n b q :: B ->
    sm (fun S => xorb (xorb (xb && pz (at_place B S) b) (zb && px (at_place B S) b)) (xorb (xq && pz (at_place B S) q) (zq && px (at_place B S) q))).
  Hypothesis H4 : forall A n b q B, L = A ++ G2 n b q :: B -> b <> q.
  Hypothesis Hn : (length data <= num_meas L)%nat.

  Definition M := num_meas (gates c).
  (* how a fault changes the parity of the outcomes of S *)
  Definition effect (f : fault) (S : list string) : bool := xorl (map (fun k => dsel S k && flips_outcome c f (M - k)) (seq 1 M)).

  Lemma rep_id : rep qi identity_op identity_op.
  Proof. split; intros; split; reflexivity. Qed.
  Lemma rel_split A' B' : gates c = A' ++ B' -> exists A B, L = A ++ B /\ Forall2 (gate_rel qi) A A' /\ Forall2 (gate_rel qi) B B'.
  Proof. intros E. rewrite E in HR. apply Forall2_app_inv_r in HR as (A & B & R1 & R2 & ->). eauto. Qed.
  Lemma uses_all U A' B' : gates c = A' ++ B' -> incl (dvals qi) U -> Forall (uses U) B'.
  Proof.
    intros E I. apply Forall_forall. intros h Hh. apply in_split in Hh as (p & s & ->).
    destruct (rel_split (A' ++ p) (h :: s)) as (A & B & EL & _ & R); [rewrite <- app_assoc; exact E|].
    destruct B as [|g B]; [inversion R|]. assert (Rg : gate_rel qi g h) by (inversion R; assumption). clear R. destruct g as [n q|n a b], h as [m x|m x y]; cbn in Rg; try tauto.
    - destruct Rg as [_ Rg]. cbn. apply I. eapply dget_dvals; eauto.
    - destruct Rg as (_ & Ra & Rb). cbn. split; [apply I; eapply dget_dvals; eauto|]. split; [apply I; eapply dget_dvals; eauto|].
      intros ->. apply (H4 _ _ _ _ _ EL). eapply inj_inds; eauto.
  Qed.
  Lemma place A' B' : gates c = A' ++ B' -> exists A B, L = A ++ B /\ Forall2 (gate_rel qi) A A' /\ Forall2 (gate_rel qi) B B' /\
    forall S, F S -> exists V, back B' (dsel S) identity_op = Some V /\ rep qi (at_place B S) V.
  Proof.
    intros E. destruct (rel_split A' B' E) as (A & B & EL & RA & RB). exists A, B. split; [exact EL|]. split; [exact RA|]. split; [exact RB|]. intros S FS.
    destruct (H1 A B S EL FS) as [V EV]. pose proof (back_rep qi B B' (dsel S) identity_op identity_op W RB rep_id) as O. rewrite EV in O.
    destruct (back B' (dsel S) identity_op) as [V'|]; [|destruct O]. exists V'. split; [reflexivity|]. unfold FaultP3.at_place. now rewrite EV.
  Qed.

  Lemma effect_from n E S : gates c = gates (firstn n c) ++ gates (skipn n c) ->
    xorl (map (fun k => dsel S k && flips_from c n E (M - k)) (seq 1 M)) = flip_parity (gates (skipn n c)) (dsel S) E.
  Proof.
    intros EG. rewrite flip_parity_sum. unfold flips_from. set (A := gates (firstn n c)) in *. set (B := gates (skipn n c)) in *.
    assert (EM : M = (num_meas A + num_meas B)%nat) by (unfold M; now rewrite EG, num_meas_app).
    rewrite EM, seq_split', map_app, GeomP.xorl_app. match goal with |- xorb _ ?x = _ => replace x with false end.
    - rewrite xorb_false_r. apply xorl_ext'. intros k Hk. apply in_seq in Hk. destruct (Nat.ltb_spec (num_meas A + num_meas B - k) (num_meas A)); [lia|].
      do 2 f_equal. lia.
    - symmetry. apply xorl_zero. intros k Hk. apply in_seq in Hk. destruct (Nat.ltb_spec (num_meas A + num_meas B - k) (num_meas A)); [apply andb_false_r|lia].
  Qed.
  Lemma gates_cut n : gates c = gates (firstn n c) ++ gates (skipn n c).
  Proof. now rewrite <- TrackP.gates_app, firstn_skipn. Qed.
  Lemma clash_single U q x z V : NoDup U -> In q U -> clashes U (single q x z) V = xorb (x && pz V q) (z && px V q).
  Proof.
    intros N I. unfold clashes. rewrite (xor_unique U _ q N I).
    - unfold clash, single, put2. cbn [px pz]. now rewrite !put_same.
    - intros y _ Ny. unfold clash, single, put2. cbn [px pz identity_op]. now rewrite !put_other by congruence.
  Qed.
  Lemma clash_double U a b xa za xb zb V : NoDup U -> In a U -> In b U -> a <> b ->
    clashes U (put2 (single a xa za) b xb zb) V = xorb (xorb (xa && pz V a) (za && px V a)) (xorb (xb && pz V b) (zb && px V b)).
  Proof.
    intros N Ia Ib Ne. unfold clashes.
    pose proof (xor_diff2 U (clash (put2 (single a xa za) b xb zb) V) (fun _ => false) a b N Ia Ib Ne) as D.
    assert (Z : forall y, y <> a -> y <> b -> clash (put2 (single a xa za) b xb zb) V y = false).
    { intros y Na Nb. unfold clash, single, put2. cbn [px pz identity_op]. rewrite !put_other by congruence. reflexivity. }
    specialize (D Z). rewrite (xorl_zero (fun _ => false)), !xorb_false_r in D by reflexivity. rewrite D.
    unfold clash, single, put2. cbn [px pz]. rewrite !put_same. rewrite !(put_other _ b _ a) by congruence. now rewrite !put_same.
  Qed.
  Definition univ (l : list Z) : list Z := nodup Z.eq_dec (l ++ dvals qi).
  Lemma univ_ok l : NoDup (univ l) /\ incl l (univ l) /\ incl (dvals qi) (univ l).
  Proof.
    split; [apply NoDup_nodup|]. split; intros x Hx; apply nodup_In, in_app_iff; auto.
  Qed.
  Lemma effect_single n q x z : sm (effect (Single n q x z)).
  Proof.
    destruct (place _ _ (gates_cut n)) as (A & B & EL & RA & RB & HB).
    destruct (univ_ok [q]) as (NU & Iq & IU).
    assert (E : forall S, F S -> exists V, rep qi (at_place B S) V /\ effect (Single n q x z) S = xorb (x && pz V q) (z && px V q)).
    { intros S FS. destruct (HB S FS) as (V & EV & RV). exists V. split; [exact RV|]. unfold effect. cbn [flips_outcome].
      rewrite (effect_from n _ S (gates_cut n)). rewrite (dual_id (univ [q]) _ _ _ V NU (uses_all _ _ _ (gates_cut n) IU) EV).
      apply clash_single; [exact NU|]. apply Iq. now left. }
    destruct (index_label qi q W) as [[s Es]|No].
    - eapply sm_ext; [apply (H2 A B s x z EL)|]. intros S FS. destruct (E S FS) as (V & [RV _] & ->). destruct (RV s q Es) as [-> ->]. reflexivity.
    - eapply sm_ext; [apply sm_zero|]. intros S FS. destruct (E S FS) as (V & [_ RV] & ->). destruct (RV q No) as [-> ->]. now rewrite !andb_false_r.
  Qed.
  Lemma effect_double n a xa za b xb zb : possible c (Double n a xa za b xb zb) -> sm (effect (Double n a xa za b xb zb)).
  Proof.
    intros [Ne (p & h & s & EA & (m & Eh) & Fs)]. pose proof (gates_cut n) as EG.
    set (B' := gates (skipn n c)) in *. assert (EG2 : gates c = (p ++ [h]) ++ (s ++ B')) by (rewrite EG, EA, <- !app_assoc; reflexivity).
    assert (EG1 : gates c = p ++ (h :: s ++ B')) by (rewrite EG2, <- app_assoc; reflexivity).
    destruct (place _ _ EG) as (A & B & EL & RA & RB & HB).
    destruct (place _ _ EG2) as (A2 & B2 & EL2 & RA2 & RB2 & HB2).
    destruct (univ_ok [a; b]) as (NU & Iq & IU).
    assert (E : forall S, F S -> exists V, rep qi (at_place B2 S) V /\
      effect (Double n a xa za b xb zb) S = xorb (xorb (xa && pz V a) (za && px V a)) (xorb (xb && pz V b) (zb && px V b))).
    { intros S FS. destruct (HB S FS) as (V & EV & RV). destruct (HB2 S FS) as (V2 & EV2 & RV2). exists V2. split; [exact RV2|]. unfold effect. cbn [flips_outcome].
      rewrite (effect_from n _ S EG). fold B'. rewrite (dual_id (univ [a; b]) _ _ _ V NU (uses_all _ _ _ EG IU) EV).
      rewrite clash_double; [|exact NU|apply Iq; now left|apply Iq; right; now left|exact Ne].
      rewrite back_app, EV in EV2.
      assert (Fa : Forall (fun g => touches a g = false) s) by (eapply Forall_impl; [|exact Fs]; cbv beta; tauto). destruct (back_elsewhere s _ V V2 a Fa EV2) as [-> ->].
      assert (Fb : Forall (fun g => touches b g = false) s) by (eapply Forall_impl; [|exact Fs]; cbv beta; tauto). destruct (back_elsewhere s _ V V2 b Fb EV2) as [-> ->]. reflexivity. }
    apply Forall2_app_inv_r in RA2 as (A3 & [|g2 [|? ?]] & R3 & R4 & EA2); [inversion R4| |inversion R4 as [|? ? ? ? ? R5]; inversion R5].
    assert (Rg' : exists qa qb, dget qa qi = Some a /\ dget qb qi = Some b /\ (g2 = G2 m qa qb \/ g2 = G2 m qb qa)).
    { inversion R4 as [|? ? ? ? Rh _]. destruct g2 as [n2 q2|n2 q2 q3], Eh as [-> | ->]; cbn in Rh; try tauto; destruct Rh as (-> & Ra & Rb).
      - exists q2, q3. auto.
      - exists q3, q2. auto. }
    destruct Rg' as (qa & qb & Da & Db & Eg). subst A2. rewrite <- app_assoc in EL2. cbn [app] in EL2.
    destruct Eg as [-> | ->].
    - eapply sm_ext; [apply (H3 _ _ _ _ _ xa za xb zb EL2)|]. intros S FS. destruct (E S FS) as (V & [RV _] & ->).
      destruct (RV qa a Da) as [-> ->]. destruct (RV qb b Db) as [-> ->]. reflexivity.
    - eapply sm_ext; [apply (H3 _ _ _ _ _ xb zb xa za EL2)|]. intros S FS. destruct (E S FS) as (V & [RV _] & ->).
      destruct (RV qa a Da) as [-> ->]. destruct (RV qb b Db) as [-> ->]. apply xorb_comm.
  Qed.
  Lemma num_rel : num_meas L = M.
  Proof. unfold M. eapply num_meas_rel; eauto. Qed.
  Lemma effect_readout m : sm (effect (Readout m)).
  Proof.
    destruct (Nat.ltb_spec m M) as [Hm|Hm].
    - assert (E : forall S, effect (Readout m) S = dsel S (M - m)).
      { intros S. unfold effect. cbn [flips_outcome]. rewrite (xor_unique (seq 1 M) _ (M - m)%nat); [|apply seq_NoDup|apply in_seq; lia|].
        - replace (M - (M - m))%nat with m by lia. now rewrite Nat.eqb_refl, andb_true_r.
        - intros k Hk Nk. apply in_seq in Hk. destruct (Nat.eqb_spec (M - k) m); [lia|apply andb_false_r]. }
      destruct (nth_error (rev data) (M - m - 1)) as [q|] eqn:Eq.
      + exists [q]. split; [intros x y k k' [<-|[]] [<-|[]] E1 E2; congruence|]. intros S _. rewrite E. unfold FaultP3.dsel, selT. rewrite Eq. cbn. now rewrite xorb_false_r.
      + eapply sm_ext; [apply sm_zero|]. intros S _. rewrite E. unfold FaultP3.dsel, selT. now rewrite Eq.
    - eapply sm_ext; [apply sm_zero|]. intros S _. unfold effect. cbn [flips_outcome]. apply xorl_zero. intros k Hk. apply in_seq in Hk.
      destruct (Nat.eqb_spec (M - k) m); [lia|apply andb_false_r].
  Qed.
  Lemma effect_small f : possible c f -> sm (effect f).
  Proof. destruct f; intros P; [apply effect_single|now apply effect_double|apply effect_readout]. Qed.

  (* all the faults *)
  Definition flipped_parity (fs : list fault) (S : list string) : bool :=
    xorl (map (fun k => dsel S k && outcome_flipped c fs (M - k)) (seq 1 M)).
  Lemma faults_small fs : Forall (possible c) fs -> exists Ts, length Ts = length fs /\ Forall (one_line line) Ts /\
    forall S, F S -> flipped_parity fs S = par S (concat Ts).
  Proof.
    induction 1 as [|f fs P _ (Ts & E1 & E2 & E3)].
    - exists []. split; [reflexivity|]. split; [constructor|]. intros S _. unfold flipped_parity. apply xorl_zero. intros k _. apply andb_false_r.
    - destruct (effect_small f P) as (T & O & ET). exists (T :: Ts). split; [cbn; now rewrite E1|]. split; [now constructor|].
      intros S FS. cbn [concat]. rewrite par_app, <- ET, <- E3 by exact FS. unfold flipped_parity, effect. rewrite <- xorl_two. apply xorl_ext'. intros k _.
      unfold outcome_flipped. rewrite !odd_xorl. cbn [map]. rewrite xorl_cons. now destruct (dsel S k).
  Qed.
End Link.
