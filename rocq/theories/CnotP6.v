(** Two layouts with different qubits: their generators, rounds, initialization and
    measurement together. *)
From Coq Require Import QArith Qcanon.
From Verif Require Import Base Lib StimM SetupM NoiseM SpecNoise NoiseP LayoutM SpecLayout LayoutP LayoutP2 MatM MatP DetM SpecDet DetP DetCountP DetLinP DetDetP
  SpecGen GeomP BlockM LogM SpecLog ExpM SpecTrack SpecExp TrackP LiftP ExpDetP ExpP ExpP2 ExpP3 ExpP4 ExpP5 ExpP8 ExpP9 ExpP13 ActP RoundP RoundTopP RepP RepP2 RepP3 RepP4 RepP5 RepP6
  LogP4 LogP10 MergeM SpecMerge MergeP MergeP2 MergeP3 MergeP4 MergeP5 MergeP6 MergeP7 CnotP CnotP2 CnotP3 CnotP4 CnotP5.
Open Scope Z_scope.

(** * Gates on separate sets of qubits *)
Definition lives (Q : list string) (L : list (gate string)) : Prop := forall g q, In g L -> meets q g = true -> In q Q.
Lemma lives_off Q L q : lives Q L -> ~ In q Q -> filter (meets q) L = [].
Proof. intros V N. apply filter_nil_iff. intros g Hg. destruct (meets q g) eqn:E; [|reflexivity]. exfalso. eauto. Qed.
Lemma lives_app Q A B : lives Q (A ++ B) <-> lives Q A /\ lives Q B.
Proof.
  unfold lives. split.
  - intros V. split; intros g q Hg; apply V; apply in_or_app; auto.
  - intros [V W] g q Hg. apply in_app_or in Hg as [Hg|Hg]; [now apply V|now apply W].
Qed.
Lemma lives_incl Q Q' L : incl Q Q' -> lives Q L -> lives Q' L.
Proof. intros I V g q Hg Hq. apply I. eauto. Qed.
Lemma lives_map n l : lives l (map (G1 n) l).
Proof. intros g q Hg Hq. apply in_map_iff in Hg as (x & <- & Hx). cbn in Hq. apply eqb_eq in Hq as ->. exact Hx. Qed.
Lemma pair_gates_in g (l : list string) : lives l (pair_gates g l).
Proof.
  assert (K : forall n (l : list string), (length l <= n)%nat -> lives l (pair_gates g l)).
  { induction n as [|n IH]; intros l0 Hn; (destruct l0 as [|x [|y r]]; [intros ? ? []|intros ? ? []|]); cbn in Hn; [lia|]. cbn [pair_gates].
    intros h q [<-|Hh] M; [cbn in M; apply orb_true_iff in M as [M|M]; apply eqb_eq in M as ->; cbn; auto|]. right. right. eapply (IH r); eauto. lia. }
  eapply K. reflexivity.
Qed.
Lemma lives_blocks bl : lives (ops bl) (lg_blocks bl).
Proof.
  induction bl as [|b bl IH]; [intros ? ? []|]. unfold lg_blocks, ops. cbn [flat_map]. apply lives_app. split; [|eapply lives_incl; [|exact IH]; intros q Hq; apply in_or_app; now right].
  destruct b as [b|]; [|intros ? ? []]. apply lives_incl with (operands b); [intros q Hq; apply in_or_app; now left|]. induction b as [|c b IHb]; [intros ? ? []|].
  unfold lg_block, operands. cbn [flat_map]. apply lives_app. split; [|eapply lives_incl; [|exact IHb]; intros q Hq; apply in_or_app; now right].
  eapply lives_incl; [apply incl_appl, incl_refl|]. destruct c as [o qs|]; [|intros ? ? []]. cbn [lg_call]. destruct (std_gate o) as [g|]; [|intros ? ? []].
  destruct (is_two g); [apply pair_gates_in|apply lives_map].
Qed.

Section Apart.
  Context (Q Q' : list string).
  Hypothesis D : forall q, In q Q -> In q Q' -> False.
  Lemma apart_or A B q : lives Q A -> lives Q' B -> filter (meets q) A = [] \/ filter (meets q) B = [].
  Proof.
    intros V W. destruct (mem q Q) eqn:M.
    - right. apply (lives_off Q' B q W). intros Hq. apply mem_In in M. eauto.
    - left. apply (lives_off Q A q V). intros Hq. apply mem_In in Hq. congruence.
  Qed.
  Lemma teq_swap A B : lives Q A -> lives Q' B -> teq (A ++ B) (B ++ A).
  Proof. intros V W q. rewrite !filter_app. destruct (apart_or A B q V W) as [-> | ->]; now rewrite ?app_nil_r. Qed.
  Lemma teq_mix A A2 B B2 : lives Q A2 -> lives Q' B -> teq ((A ++ B) ++ (A2 ++ B2)) ((A ++ A2) ++ (B ++ B2)).
  Proof. intros V W q. rewrite !filter_app, <- !app_assoc. f_equal. rewrite !app_assoc. f_equal. destruct (apart_or A2 B q V W) as [-> | ->]; now rewrite ?app_nil_r. Qed.
  Lemma teq_mix3 A A2 A3 B B2 B3 : lives Q A2 -> lives Q A3 -> lives Q' B -> lives Q' B2 ->
    teq ((A ++ B) ++ (A2 ++ B2) ++ (A3 ++ B3)) ((A ++ A2 ++ A3) ++ (B ++ B2 ++ B3)).
  Proof.
    intros V2 V3 W W2. eapply teq_trans; [|apply teq_mix; [now apply lives_app|exact W]]. apply teq_app; [apply teq_refl|]. now apply teq_mix.
  Qed.
  Lemma round_teq a g b h reset : incl a Q -> incl b Q' -> lives Q g -> lives Q' h ->
    teq (round_g (a ++ b) (g ++ h) reset) (round_g a g reset ++ round_g b h reset).
  Proof.
    intros Ia Ib Vg Vh. unfold round_g.
    replace (if reset then map (G1 GR) (a ++ b) else []) with ((if reset then map (@G1 string GR) a else []) ++ (if reset then map (G1 GR) b else [])) by (destruct reset; [now rewrite map_app|reflexivity]).
    rewrite map_app. apply teq_mix3; auto.
    - eapply lives_incl; [exact Ia|apply lives_map].
    - destruct reset; [|intros ? ? []]. eapply lives_incl; [exact Ib|apply lives_map].
  Qed.
End Apart.

(** * The generators of both *)
Section Union.
  Context (stc stt st : stabilizers) (ac dc at_ dt : list string).
  Hypothesis Jc : forall a, In a ac -> st a = stc a.
  Hypothesis Jt : forall a, In a at_ -> st a = stt a.
  Hypothesis Sc : forall a q, In a ac -> In q (fst (stc a)) \/ In q (snd (stc a)) -> In q dc.
  Hypothesis St : forall a q, In a at_ -> In q (fst (stt a)) \/ In q (snd (stt a)) -> In q dt.
  Hypothesis Dcc : forall q, In q dc -> ~ In q ac.
  Hypothesis Dtt : forall q, In q dt -> ~ In q at_.
  Hypothesis D : forall q, In q ac \/ In q dc -> In q at_ \/ In q dt -> False.
  Lemma on_out l q : ~ In q l -> on l q = false.
  Proof. unfold on. apply mem_not. Qed.
  Lemma union_st a q : In a (ac ++ at_) -> In q (fst (st a)) \/ In q (snd (st a)) -> In q (dc ++ dt).
  Proof. intros Ha Hq. apply in_or_app. apply in_app_or in Ha as [Ha|Ha]; [rewrite (Jc a Ha) in Hq; left; eauto|rewrite (Jt a Ha) in Hq; right; eauto]. Qed.
  Lemma union_disj q : In q (dc ++ dt) -> ~ In q (ac ++ at_).
  Proof. intros Hq Ha. apply in_app_or in Hq, Ha. destruct Hq as [Hq|Hq], Ha as [Ha|Ha]; [apply (Dcc q)|apply (D q)|apply (D q)|apply (Dtt q)]; auto. Qed.
  Lemma union_nodup (a b : list string) : NoDup a -> NoDup b -> (forall q, In q a -> In q b -> False) -> NoDup (a ++ b).
  Proof. intros Na Nb N. induction Na as [|x a Hx Na IH]; [exact Nb|]. cbn. constructor; [|apply IH; intros q Hq; apply N; now right]. rewrite in_app_iff. intros [X|X]; [contradiction|]. apply (N x); [now left|exact X]. Qed.
  Lemma anti_c X Z a : In a ac -> anti st X Z a = anti stc X Z a.
  Proof. intros Ha. unfold anti. now rewrite (Jc a Ha). Qed.
  Lemma anti_t X Z a : In a at_ -> anti st X Z a = anti stt X Z a.
  Proof. intros Ha. unfold anti. now rewrite (Jt a Ha). Qed.
  Lemma anti_zero s X Z a : (forall q, In q (fst (s a)) \/ In q (snd (s a)) -> X q = false /\ Z q = false) -> anti s X Z a = false.
  Proof.
    intros K. unfold anti. rewrite (GeomP.xorl_false (map Z _)), (GeomP.xorl_false (map X _)); [reflexivity| |]; intros b Hb; apply in_map_iff in Hb as (q & <- & Hq); apply K; auto.
  Qed.
  Lemma union_com : (forall a b, In a ac -> In b ac -> anti stc (on (fst (stc a))) (on (snd (stc a))) b = false) ->
    (forall a b, In a at_ -> In b at_ -> anti stt (on (fst (stt a))) (on (snd (stt a))) b = false) ->
    forall a b, In a (ac ++ at_) -> In b (ac ++ at_) -> anti st (on (fst (st a))) (on (snd (st a))) b = false.
  Proof.
    intros Cc Ct a b Ha Hb. apply in_app_or in Ha, Hb. destruct Ha as [Ha|Ha], Hb as [Hb|Hb].
    - rewrite (anti_c _ _ b Hb), (Jc a Ha). auto.
    - rewrite (anti_t _ _ b Hb), (Jc a Ha). apply anti_zero. intros q Hq. split; apply on_out; intros H; apply (D q); right; [eapply Sc|eapply St|eapply Sc|eapply St]; eauto.
    - rewrite (anti_c _ _ b Hb), (Jt a Ha). apply anti_zero. intros q Hq. split; apply on_out; intros H; apply (D q); right; [eapply Sc|eapply St|eapply Sc|eapply St]; eauto.
    - rewrite (anti_t _ _ b Hb), (Jt a Ha). auto.
  Qed.
  Lemma sumx_union u q : sumx st (ac ++ at_) u q = xorb (sumx stc ac u q) (sumx stt at_ u q).
  Proof. unfold sumx. rewrite map_app, DetP.xorl_app. f_equal; f_equal; apply map_ext_in; intros a Ha; [now rewrite (Jc a Ha)|now rewrite (Jt a Ha)]. Qed.
  Lemma sumz_union u q : sumz st (ac ++ at_) u q = xorb (sumz stc ac u q) (sumz stt at_ u q).
  Proof. unfold sumz. rewrite map_app, DetP.xorl_app. f_equal; f_equal; apply map_ext_in; intros a Ha; [now rewrite (Jc a Ha)|now rewrite (Jt a Ha)]. Qed.
  Lemma sum_off s (l : list string) u q : (forall a, In a l -> ~ In q (fst (s a)) /\ ~ In q (snd (s a))) -> sumx s l u q = false /\ sumz s l u q = false.
  Proof.
    intros K. split; apply GeomP.xorl_false; intros b Hb; apply in_map_iff in Hb as (a & <- & Ha); rewrite on_out by apply (K a Ha); apply andb_false_r.
  Qed.
  Lemma sumc_off u q : ~ In q dc -> sumx stc ac u q = false /\ sumz stc ac u q = false.
  Proof. intros N. apply sum_off. intros a Ha. split; intros H; apply N; eapply Sc; eauto. Qed.
  Lemma sumt_off u q : ~ In q dt -> sumx stt at_ u q = false /\ sumz stt at_ u q = false.
  Proof. intros N. apply sum_off. intros a Ha. split; intros H; apply N; eapply St; eauto. Qed.
  Lemma acts_union g h : acts stc ac g -> acts stt at_ h -> acts st (ac ++ at_) (g ++ h).
  Proof.
    intros [Ng Ag] [Nh Ah]. split; [rewrite num_meas_app; lia|]. intros X u sel HX.
    assert (Nt : forall q, In q ac \/ In q dc -> ~ In q at_ /\ ~ In q dt) by (intros q Hq; split; intros H; apply (D q); auto).
    set (X1 := fun q => if mem q at_ then anti stt X u q else xorb (X q) (sumx stt at_ u q)). set (u1 := fun q => xorb (u q) (sumz stt at_ u q)).
    assert (Kc : forall q, In q ac \/ In q dc -> X1 q = X q /\ u1 q = u q).
    { intros q Hq. destruct (Nt q Hq) as [N1 N2]. unfold X1, u1. destruct (sumt_off u q N2) as [-> ->]. rewrite (mem_not q at_ N1). now rewrite !xorb_false_r. }
    assert (Sx : forall q, sumx stc ac u1 q = sumx stc ac u q /\ sumz stc ac u1 q = sumz stc ac u q).
    { intros q. unfold sumx, sumz. split; f_equal; apply map_ext_in; intros a Ha; now rewrite (proj2 (Kc a (or_introl Ha))). }
    eapply bk_eq; [eapply bk_app; [|apply (Ag X1 u1)]| |].
    - eapply bk_eq; [apply (Ah X u)| |apply peq_refl].
      + intros q Hq. apply HX, in_or_app. now right.
      + apply peq_refl.
    - intros a Ha. rewrite (proj1 (Kc a (or_introl Ha))). apply HX, in_or_app. now left.
    - apply peq_refl.
    - intros q; cbn [px pz]; split.
      + destruct (Sx q) as [-> _]. rewrite mem_app. destruct (mem q ac) eqn:M; cbn [orb].
        * apply mem_In in M. rewrite (anti_c _ _ q M). unfold anti. f_equal; f_equal; apply map_ext_in; intros x Hx; eapply Kc; right; eapply Sc; eauto.
        * unfold X1. destruct (mem q at_) eqn:M2.
          -- apply mem_In in M2. rewrite (anti_t _ _ q M2). destruct (sumc_off u q) as [-> _]; [intros H; apply (D q); auto|]. now rewrite xorb_false_r.
          -- rewrite sumx_union. now rewrite xorb_assoc, (xorb_comm (sumx stt at_ u q)).
      + destruct (Sx q) as [_ ->]. unfold u1. rewrite sumz_union. now rewrite xorb_assoc, (xorb_comm (sumz stt at_ u q)).
  Qed.
End Union.
