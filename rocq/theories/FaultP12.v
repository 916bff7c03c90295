(** The circuit distance is attained: wrong readouts of the data qubits of the other
    logical operator flip the observable and no detector. *)
From Coq Require Import QArith Qcanon.
From Verif Require Import Base Lib StimM SetupM NoiseM SpecNoise NoiseP LayoutM SpecLayout LayoutP LayoutP2 DetM SpecDet DetP DetCountP
  GenM SpecGen GeomP RotP RotP2 UnrotP BlockM ExpM SpecTrack SpecExp SpecFault TrackP LiftP
  ExpDetP ExpP ExpP3 ExpP4 ExpP5 ExpP6 ExpP7 ExpP8 ExpP9 ExpP12 FaultP FaultP3 FaultP4 FaultP5.
Open Scope Z_scope.
Local Opaque rot_ps unrot_ps.

Lemma nth_seq {A} (f : A -> bool) (l : list A) s :
  map (fun k => match nth_error l (k - s) with Some q => f q | None => false end) (seq s (length l)) = map f l.
Proof.
  revert s. induction l as [|x l IH]; intros s; [reflexivity|]. cbn [length seq map]. rewrite Nat.sub_diag. cbn [nth_error]. f_equal.
  rewrite <- (IH (S s)). apply map_ext_in. intros k Hk. apply in_seq in Hk. replace (k - s)%nat with (S (k - S s)) by lia. reflexivity.
Qed.
Lemma filter_nth_len {A} (f : A -> bool) (l : list A) s :
  length (filter (fun i => match nth_error l (i - s) with Some q => f q | None => false end) (seq s (length l))) = length (filter f l).
Proof.
  revert s. induction l as [|x l IH]; intros s; [reflexivity|]. cbn [length seq filter]. rewrite Nat.sub_diag. cbn [nth_error].
  replace (filter _ (seq (S s) (length l))) with (filter (fun i => match nth_error l (i - S s) with Some q => f q | None => false end) (seq (S s) (length l))).
  - destruct (f x); cbn [length]; now rewrite IH.
  - apply filter_ext_in. intros k Hk. apply in_seq in Hk. replace (k - s)%nat with (S (k - S s)) by lia. reflexivity.
Qed.
Lemma overlap (data S : list string) (f : string -> bool) : NoDup data -> NoDup S -> incl S data ->
  xorl (map (fun q => mem q S && f q) data) = xorl (map f S).
Proof.
  intros Nd Ns I. transitivity (xorl (map f (filter (fun q => mem q S) data))).
  - clear Nd I. induction data as [|x d IH]; [reflexivity|]. cbn [map filter]. rewrite xorl_cons, IH. destruct (mem x S); cbn [andb map]; [now rewrite xorl_cons|apply xorb_false_l].
  - apply GeomP.xorl_perm, Permutation_map, NoDup_Permutation; [now apply NoDup_filter|exact Ns|]. intros q. rewrite filter_In, mem_In. split; [tauto|auto].
Qed.
Lemma readouts c ps m : NoDup ps -> outcome_flipped c (map Readout ps) m = existsb (Nat.eqb m) ps.
Proof.
  intros N. unfold outcome_flipped. rewrite odd_xorl, map_map. cbn [flips_outcome]. induction N as [|p ps Hp N IH]; [reflexivity|].
  cbn [map existsb]. rewrite xorl_cons, IH. destruct (Nat.eqb_spec m p) as [->|]; [|apply xorb_false_l].
  replace (existsb (Nat.eqb p) ps) with false; [reflexivity|]. symmetry. apply not_true_iff_false. intros E. apply existsb_exists in E as (x & Hx & E).
  apply Nat.eqb_eq in E as <-. contradiction.
Qed.
Lemma instr_meas_gates i : (0 < num_meas (gates [i]))%nat -> is_meas (nm i) = true /\ (num_meas (gates [i]) <= length (tg i))%nat.
Proof.
  unfold gates, ideal. cbn [flat_map]. rewrite app_nil_r. unfold instr_atoms.
  destruct (is_noise (nm i) || eqb (nm i) GI); [cbn; lia|]. destruct (is_annotation (nm i)); [cbn; lia|]. destruct (is_two (nm i)) eqn:E2.
  - intros H. exfalso. revert H. generalize (tg i). fix F 1. intros [|a [|b r]]; [cbn; lia|cbn; lia|]. cbn [pair_atoms flat_map gate_of_atom].
    destruct a, b; cbn [app]; apply F.
  - induction (tg i) as [|t ts IH]; [cbn; lia|]. cbn [map flat_map]. rewrite num_meas_app. intros H. cbn [length].
    destruct (Nat.eq_dec (num_meas (gate_of_atom (A1 (nm i) t))) 0) as [Z|Z]; [rewrite Z in *; cbn [plus] in *; apply IH in H as [H1 H2]; split; [exact H1|lia]|].
    assert (is_meas (nm i) = true /\ num_meas (gate_of_atom (A1 (nm i) t)) = 1%nat) as [M1 ->].
    { destruct t; cbn [gate_of_atom] in *; [|cbn in Z; lia]. unfold num_meas in *. cbn [filter measures_gate] in *. destruct (is_meas (nm i)); [auto|cbn in Z; lia]. }
    split; [exact M1|]. clear H IH. apply le_n_S. induction ts as [|u ts IH]; [cbn; lia|]. cbn [map flat_map length]. rewrite num_meas_app.
    enough (num_meas (gate_of_atom (A1 (nm i) u)) <= 1)%nat by lia. destruct u; cbn; [|lia]. destruct (is_meas (nm i)); cbn; lia.
Qed.
(* the outcome with a number is one of some measurement *)
Lemma meas_at c : forall m, (m < num_meas (gates c))%nat -> (forall i, In i c -> is_meas (nm i) = true -> ar i <> []) -> caused c (Readout m).
Proof.
  enough (K : forall c' pre m, c = pre ++ c' -> (m < num_meas (gates c'))%nat -> (forall i, In i c -> is_meas (nm i) = true -> ar i <> []) ->
    caused c (Readout (num_meas (gates pre) + m))) by (intros m Hm A; apply (K c [] m eq_refl Hm A)).
  induction c' as [|i c' IH]; intros pre m E Hm A; [cbn in Hm; lia|].
  change (i :: c') with ([i] ++ c') in Hm. rewrite TrackP.gates_app, num_meas_app in Hm.
  destruct (Nat.lt_ge_cases m (num_meas (gates [i]))) as [Lm|Lm].
  - assert (En : nth_error c (length pre) = Some i) by (rewrite E, nth_error_app2, Nat.sub_diag by lia; reflexivity).
    replace pre with (firstn (length pre) c) at 1 by (rewrite E, firstn_app, Nat.sub_diag, firstn_all; apply app_nil_r).
    assert (Mi : is_meas (nm i) = true /\ (num_meas (gates [i]) <= length (tg i))%nat).
    { apply instr_meas_gates. lia. }
    apply (by_readout c _ i); [exact En|apply Mi|apply A; [eapply nth_error_In; eauto|apply Mi]|lia].
  - specialize (IH (pre ++ [i]) (m - num_meas (gates [i]))%nat). rewrite TrackP.gates_app, num_meas_app in IH.
    replace (num_meas (gates pre) + m)%nat with (num_meas (gates pre) + num_meas (gates [i]) + (m - num_meas (gates [i])))%nat by lia.
    apply IH; [now rewrite <- app_assoc|lia|exact A].
Qed.

Section Attained.
  Context (c : circuit) (ML data T : list string).
  Hypothesis Nd : NoDup data.
  Definition picked : list nat := map (fun i => (length ML + i)%nat) (filter (fun i => match nth_error data i with Some q => mem q T | None => false end) (seq 0 (length data))).
  Definition wrong : list fault := map Readout picked.
  Let fl := outcome_flipped c wrong.
  Lemma picked_nodup : NoDup picked.
  Proof. unfold picked. apply FinFun.Injective_map_NoDup; [intros x y; lia|]. apply NoDup_filter, seq_NoDup. Qed.
  Lemma wrong_early p : (p < length ML)%nat -> fl p = false.
  Proof.
    intros Hp. unfold fl, wrong. rewrite readouts by apply picked_nodup. apply not_true_iff_false. intros E. apply existsb_exists in E as (x & Hx & E).
    apply Nat.eqb_eq in E as <-. apply in_map_iff in Hx as (j & Hj & _). lia.
  Qed.
  Lemma wrong_data i q : nth_error data i = Some q -> fl (length ML + i)%nat = mem q T.
  Proof.
    intros Hi. assert (Li : (i < length data)%nat) by (apply nth_error_Some; congruence). unfold fl, wrong. rewrite readouts by apply picked_nodup.
    apply Bool.eq_true_iff_eq. rewrite existsb_exists. split.
    - intros (x & Hx & E). apply Nat.eqb_eq in E as <-. apply in_map_iff in Hx as (j & Hj & Hx). assert (j = i) by lia. subst j. apply filter_In in Hx as [_ Hx]. now rewrite Hi in Hx.
    - intros M. exists (length ML + i)%nat. split; [|apply Nat.eqb_refl]. apply in_map, filter_In. split; [apply in_seq; lia|]. now rewrite Hi.
  Qed.
  Lemma wrong_length : NoDup T -> incl T data -> length wrong = length T.
  Proof.
    intros Nt It. unfold wrong, picked. rewrite !map_length. rewrite <- (weight_on T data Nd Nt It). unfold weight, on.
    rewrite <- (filter_nth_len (fun q => mem q T) data 0). f_equal. apply filter_ext. intros i. now rewrite Nat.sub_0_r.
  Qed.
  Lemma early_check pre i : (num_meas (gates pre) <= length ML)%nat -> check_flipped c wrong pre i = false.
  Proof.
    intros Hn. unfold check_flipped. rewrite odd_xorl. apply xorl_zero. intros k Hk. apply in_seq in Hk. fold fl. rewrite wrong_early by lia. apply andb_false_r.
  Qed.
  Lemma empty_check pre i : tg i = [] -> check_flipped c wrong pre i = false.
  Proof.
    intros E. unfold check_flipped. rewrite odd_xorl. apply xorl_zero. intros k _. unfold lists. rewrite E. reflexivity.
  Qed.
  Lemma end_check qi m L pre i F S : tracked qi m L pre -> mlab L = ML ++ data -> (forall k, (1 <= k)%nat -> lists i k = selT (mlab L) F k) ->
    NoDup S -> incl S data -> (forall q, In q data -> F q 1%nat = mem q S) -> check_flipped c wrong pre i = xorl (map (on T) S).
  Proof.
    intros Tr EM E NS IS HF. transitivity (val fl (mlab L) F).
    { unfold check_flipped, val. rewrite odd_xorl. rewrite mlab_len, (num_meas_rel _ _ _ (tk_rel _ _ _ _ Tr)). apply xorl_ext'. intros k Hk. apply in_seq in Hk. now rewrite E by lia. }
    rewrite EM, val_last; [|exact Nd|].
    2:{ intros p q j Hq _. rewrite wrong_early; [apply andb_false_r|]. apply nth_error_Some. congruence. }
    rewrite <- (overlap data S (on T) Nd NS IS). rewrite (GeomP.xorl_perm (map _ data) (map (fun q => mem q S && on T q) (rev data))) by (apply Permutation_map, Permutation_rev).
    rewrite <- (nth_seq _ (rev data) 1), rev_length. apply xorl_ext'. intros k Hk. apply in_seq in Hk. unfold selT. rewrite rev_nth by lia.
    destruct (nth_error data (length data - k)) as [q|] eqn:Eq; [|reflexivity]. rewrite HF by (eapply nth_error_In; eauto).
    replace (length ML + length data - k)%nat with (length ML + (length data - k))%nat by lia. now rewrite (wrong_data _ q Eq).
  Qed.
End Attained.
Lemma on_sym (a b data : list string) : NoDup data -> NoDup a -> NoDup b -> incl a data -> incl b data -> xorl (map (on a) b) = xorl (map (on b) a).
Proof.
  intros Nd Na Nb Ia Ib. rewrite <- (overlap data b (on a)), <- (overlap data a (on b)) by assumption. apply xorl_ext'. intros q _. unfold on. apply andb_comm.
Qed.
Lemma app_split {A} (a b p : list A) i s : a ++ b = p ++ i :: s -> (exists s', a = p ++ i :: s') \/ (exists p', p = a ++ p' /\ b = p' ++ i :: s).
Proof.
  intros E. apply app_eq_app in E as (l1 & [[E1 E2]|[E1 E2]]).
  - destruct l1 as [|x l1]; [right; exists []; rewrite app_nil_r in *; now subst|]. cbn in E2. injection E2 as <- E2. left. eauto.
  - right. eauto.
Qed.
Section Exp.
  Context (l : layout) (ancs data xs zs lx lz : list string).
  Hypothesis F : css_facts l ancs data xs zs lx lz.
  Context (rot : bool).
  Let T := if rot then lz else lx.
  Let Nd := css_ndata _ _ _ _ _ _ _ F.
  Lemma stab_even a s : In a (if rot then xs else zs) -> NoDup s -> (forall q, In q s <-> In q (support l a)) -> incl s data /\ xorl (map (on T) s) = false.
  Proof.
    intros Ha Ns Es. destruct (cf_code _ _ _ _ _ _ _ F) as [g cc]. destruct (cc_sup _ _ _ _ _ _ _ cc a) as [Nsu Isu]; [destruct rot; auto|].
    split; [intros q Hq; apply Isu, Es, Hq|]. rewrite (GeomP.xorl_perm _ (map (on T) (support l a))) by (apply Permutation_map, NoDup_Permutation; auto).
    apply commutes_xor. unfold T. destruct rot; [now apply (cc_lzx _ _ _ _ _ _ _ cc)|now apply (cc_lxz _ _ _ _ _ _ _ cc)].
  Qed.
  Lemma end_attained c d0 qi reset n ds L ML m c0 c4 : c = c0 ++ c4 -> tracked qi m L c0 -> meas_out d0 qi ancs l rot reset n ds L m c0 c4 ->
    mlab L = ML ++ data ->
    (forall pre i post, c4 = pre ++ i :: post -> nm i = DETECTOR -> check_flipped c (wrong ML data T) (c0 ++ pre) i = false) /\ logical_error c (wrong ML data T).
  Proof.
    intros Ec T0 [(stabs & sup & lg & qs & cd & o & ls & E4 & T4 & An & Es & Esup & El & Eq & No & _ & _ & So & P & F2)] EM.
    destruct (cf_code _ _ _ _ _ _ _ F) as [g cc]. destruct (cc_nodup _ _ _ _ _ _ _ cc) as (_ & Nx & Nz). destruct (cc_log _ _ _ _ _ _ _ cc) as [Ix Iz].
    assert (stabs = if rot then xs else zs) as ->.
    { pose proof (cc_x _ _ _ _ _ _ _ cc). pose proof (cc_z _ _ _ _ _ _ _ cc). destruct rot; congruence. }
    rewrite (cc_logs _ _ _ _ _ _ _ cc) in El. injection El as <-.
    assert (qs = if rot then lx else lz) as ->.
    { pose proof (cc_lx _ _ _ _ _ _ _ cc). pose proof (cc_lz _ _ _ _ _ _ _ cc). destruct rot; congruence. }
    rewrite E4 in An. apply Forall_app in An as [An _]. split.
    - intros pre i post Ei Ni. rewrite E4 in Ei. apply app_split in Ei as [[s' Ei]|[p' [-> Ei]]].
      2:{ destruct p' as [|x [|y p']]; cbn in Ei; [|discriminate|discriminate]. injection Ei as <- _. congruence. }
      rewrite Ei in F2. apply Forall2_app_inv_r in F2 as (l1 & l2 & _ & F2 & ->). inversion F2 as [|a i' l3 s'' (X1 & _ & X2 & X3) _]; subst l2 i' s''.
      assert (Ia : In a (if rot then xs else zs)).
      { assert (In a (l1 ++ a :: l3)) as I by (apply in_app_iff; right; now left). apply (Permutation_in _ P), filter_In in I as [_ I]. now apply mem_In. }
      destruct X2 as [[D1 D2]|X2]; [|now apply empty_check]. destruct (X3 D1 D2) as (s & Hs & Li).
      destruct (support_lemma l _ sup (cf_wf _ _ _ _ _ _ _ F) Esup a Ia) as (s0 & E0 & N0 & H0). rewrite Hs in E0. injection E0 as <-.
      destruct (stab_even a s Ia N0 H0) as [Is Ev]. rewrite Ei in An. apply Forall_app in An as [An _].
      rewrite (end_check c ML data T Nd qi m L (c0 ++ pre) i _ s (tracked_ann _ _ _ _ _ T0 An) EM Li N0 Is); [exact Ev|].
      intros q Hq. unfold form_data. rewrite (proj2 (eqb_neq a q)) by (intros ->; apply (cf_disj _ _ _ _ _ _ _ F q Hq D2)). cbn [andb]. now rewrite xorb_false_r, andb_true_r, odd_mem.
    - exists (c0 ++ cd), o, []. split; [rewrite Ec, E4, <- app_assoc; reflexivity|]. split; [exact No|].
      rewrite (end_check c ML data T Nd qi m L (c0 ++ cd) o _ (if rot then lx else lz) (tracked_ann _ _ _ _ _ T0 An) EM So).
      + pose proof (cc_anti _ _ _ _ _ _ _ cc) as A. apply not_commutes_xor in A. unfold T. destruct rot; [|exact A]. now rewrite (on_sym lz lx data).
      + now destruct rot.
      + now destruct rot.
      + intros q Hq. unfold form_obs. rewrite andb_true_r. apply odd_mem. now destruct rot.
  Qed.
  Definition attained (c : circuit) : Prop := exists fs, length fs = length T /\ Forall (possible c) fs /\
    ((forall i, In i c -> is_meas (nm i) = true -> ar i <> []) -> Forall (caused c) fs) /\ undetected c fs /\ logical_error c fs.
  Lemma wrong_attained c ML : num_meas (gates c) = length (ML ++ data) -> undetected c (wrong ML data T) -> logical_error c (wrong ML data T) -> attained c.
  Proof.
    intros Hn U Lo. destruct (cf_code _ _ _ _ _ _ _ F) as [g cc]. destruct (cc_nodup _ _ _ _ _ _ _ cc) as (_ & Nx & Nz). destruct (cc_log _ _ _ _ _ _ _ cc) as [Ix Iz].
    exists (wrong ML data T). split; [apply wrong_length; [exact Nd|now destruct rot|now destruct rot]|]. split; [|split; [|split; assumption]].
    - apply Forall_forall. intros f Hf. apply in_map_iff in Hf as (m & <- & _). exact Logic.I.
    - intros A. apply Forall_forall. intros f Hf. apply in_map_iff in Hf as (m & <- & Hm). apply meas_at; [|exact A].
      apply in_map_iff in Hm as (j & <- & Hj). apply filter_In in Hj as [Hj _]. apply in_seq in Hj. rewrite Hn, app_length. lia.
  Qed.
  Lemma memory_attained ordt k R di reset dets gauge w w' c : SpecNoise.wf_inds (inds (fst w)) -> NoDup (labels (snd w)) ->
    memory ordt k l R di rot reset dets gauge w = (w', Ok c) -> attained c.
  Proof.
    intros W N E. apply memory_any in E as (HR & ancs' & data' & Ea & Ed & Na & [Hout] & HIm & _ & HDm); [|exact W|exact N].
    rewrite (css_data _ _ _ _ _ _ _ F) in Ed. injection Ed as <-. set (I := lg_blocks (init_of ordt k l di rot)) in *. set (D := lg_blocks (meas_of ordt k l rot)) in *.
    set (G := fun r => lg_blocks (round_k ordt k r l reset)) in *. set (ML := mlab (I ++ Gn G (Z.to_nat R))).
    destruct Hout as (ancs2 & ds & dsf & c01 & c2 & c3 & c4 & w2 & m3 & Ec & Ea2 & _ & B1 & _ & Ht & B3 & T3 & Hm).
    rewrite (cf_anc _ _ _ _ _ _ _ F) in Ea2. injection Ea2 as <-.
    assert (EM : mlab (I ++ Gn G (Z.to_nat R) ++ D) = ML ++ data) by (unfold ML; rewrite !mlab_app, HDm, app_assoc; reflexivity).
    assert (Ec' : c = (c01 ++ c2 ++ c3) ++ c4) by (rewrite Ec, <- !app_assoc; reflexivity).
    destruct (end_attained c _ _ _ _ _ _ _ _ _ _ Ec' T3 Hm EM) as [Un Lo].
    apply (wrong_attained c ML).
    - rewrite <- EM, mlab_len. destruct Hm as [(stabs & sup & lg & qs & cd & o & ls & _ & T4 & _)]. rewrite (num_meas_rel _ _ _ (tk_rel _ _ _ _ T4)), Ec'. reflexivity.
    - intros pre i post Ei Ni. rewrite Ec' in Ei. apply app_split in Ei as [[s' Ei]|[p' [-> Ei]]]; [|now apply (Un _ _ post)].
      rewrite app_assoc in Ei. apply app_split in Ei as [[s2 Ei]|[p' [-> Ei]]].
      + apply early_check. apply trace_state in Ht as [Ht _]. unfold ML. rewrite mlab_len, (num_meas_rel _ _ _ (tk_rel _ _ _ _ Ht)), Ei, TrackP.gates_app, num_meas_app. lia.
      + exfalso. apply (proj1 (Forall_forall _ _) B3 i); [rewrite Ei; apply in_app_iff; right; now left|]. now left.
    - exact Lo.
  Qed.
  Lemma google_attained ordt R di dets gauge w w' c : SpecNoise.wf_inds (inds (fst w)) -> NoDup (labels (snd w)) ->
    memory_google ordt l R di rot dets gauge w = (w', Ok c) -> attained c.
  Proof.
    intros W N E. apply google_any in E as (HR & ancs' & data' & Ea & Ed & Na & [Hout] & HIm & _ & HDm); [|exact W|exact N].
    rewrite (css_data _ _ _ _ _ _ _ F) in Ed. injection Ed as <-. rewrite (cf_anc _ _ _ _ _ _ _ F) in Ea. injection Ea as <-.
    set (I := lg_blocks (init_xzzx_blocks (ordt 1%nat) l di rot)) in *. set (D := lg_blocks (google_meas (ordt 2%nat) l rot)) in *.
    set (G := fun r => lg_blocks (google_round (ordt (3 + r)%nat) l)) in *. set (M0 := mlab (I ++ Gn G (Z.to_nat (R - 1)))).
    destruct Hout as (ancs2 & ds & dsf & c01 & c2 & c3 & c4 & w2 & w3 & Ec & Ea2 & _ & B1 & _ & Ht & Hr & Hm).
    rewrite (cf_anc _ _ _ _ _ _ _ F) in Ea2. injection Ea2 as <-.
    assert (EM : mlab (I ++ Gn G (Z.to_nat (R - 1)) ++ D) = (M0 ++ ancs) ++ data) by (unfold M0; rewrite !mlab_app, HDm, !app_assoc; reflexivity).
    assert (Ec' : c = (c01 ++ c2 ++ c3) ++ c4) by (rewrite Ec, <- !app_assoc; reflexivity).
    destruct Hr as [_ (cb & cd & ls & E3 & Tb & T3 & NC & An & P & F2)]. rewrite <- app_assoc in T3.
    destruct (end_attained c _ _ _ _ _ _ _ _ _ _ Ec' T3 Hm EM) as [Un Lo].
    apply (wrong_attained c (M0 ++ ancs)).
    - rewrite <- EM, mlab_len. destruct Hm as [(stabs & sup & lg & qs & cd' & o & ls' & _ & T4 & _)]. rewrite (num_meas_rel _ _ _ (tk_rel _ _ _ _ T4)), Ec'. reflexivity.
    - intros pre i post Ei Ni. rewrite Ec' in Ei. apply app_split in Ei as [[s' Ei]|[p' [-> Ei]]]; [|now apply (Un _ _ post)].
      rewrite app_assoc in Ei. apply app_split in Ei as [[s2 Ei]|[p' [-> Ei]]].
      + apply early_check. apply trace_state in Ht as [Ht _]. rewrite app_length. unfold M0. rewrite mlab_len, (num_meas_rel _ _ _ (tk_rel _ _ _ _ Ht)), Ei, TrackP.gates_app, num_meas_app. lia.
      + rewrite E3 in Ei. apply app_split in Ei as [[s2 Ei]|[p2 [-> Ei]]].
        * exfalso. apply (proj1 (Forall_forall _ _) NC i); [rewrite Ei; apply in_app_iff; right; now left|]. now left.
        * rewrite Ei in F2, An. apply Forall2_app_inv_r in F2 as (l1 & l2 & _ & F2 & ->). inversion F2 as [|a i' l3 s'' (X1 & _ & X2 & X3) _]; subst l2 i' s''.
          destruct X2 as [[D1 D2]|X2]; [|now apply empty_check]. apply Forall_app in An as [An _]. rewrite app_assoc.
          rewrite (end_check c (M0 ++ ancs) data T Nd _ _ _ _ i _ [] (tracked_ann _ _ _ _ _ Tb An) EM (X3 D1 D2)); [reflexivity|constructor|easy|].
          intros q Hq. unfold form_round. rewrite (proj2 (eqb_neq a q)); [reflexivity|]. intros ->. apply (cf_disj _ _ _ _ _ _ _ F q Hq D2).
    - exact Lo.
  Qed.
End Exp.

Definition reached (c : circuit) (d : nat) : Prop := exists fs, length fs = d /\ Forall (possible c) fs /\
  ((forall i, In i c -> is_meas (nm i) = true -> ar i <> []) -> Forall (caused c) fs) /\ undetected c fs /\ logical_error c fs.
Lemma reached_rot a l ordt k R di rot reset dets gauge w w' c : SpecNoise.wf_inds (inds (fst w)) -> NoDup (labels (snd w)) ->
  1 <= ga_dx a -> 1 <= ga_dz a -> rot_surface_code_rectangle a = Ok l ->
  memory ordt k l R di rot reset dets gauge w = (w', Ok c) -> reached c (Z.to_nat (if rot then ga_dz a else ga_dx a)).
Proof.
  intros W N Hx Hz E H. destruct (rot_planar a) as (l1 & r & E1 & _ & _ & P & _); [lia|lia|]. rewrite E in E1. injection E1 as <-.
  destruct (rot_code a) as (l1 & data & xs & zs & lx & lz & E1 & cc & _ & _ & _ & Ex & Ez); [lia|lia|]. rewrite E in E1. injection E1 as <-.
  pose proof (planar_facts _ _ _ _ _ _ _ _ _ _ _ P cc) as F. apply (memory_attained _ _ _ _ _ _ _ F) in H; [|exact W|exact N].
  unfold reached. replace (Z.to_nat (if rot then ga_dz a else ga_dx a)) with (length (if rot then lz else lx)) by (destruct rot; congruence). exact H.
Qed.
Lemma reached_unrot a l ordt k R di rot reset dets gauge w w' c : SpecNoise.wf_inds (inds (fst w)) -> NoDup (labels (snd w)) ->
  1 <= ga_dx a -> 1 <= ga_dz a -> unrot_surface_code_rectangle a = Ok l ->
  memory ordt k l R di rot reset dets gauge w = (w', Ok c) -> reached c (Z.to_nat (if rot then ga_dz a else ga_dx a)).
Proof.
  intros W N Hx Hz E H. destruct (unrot_planar a) as (l1 & r & E1 & _ & _ & P & _); [lia|lia|]. rewrite E in E1. injection E1 as <-.
  destruct (unrot_code a) as (l1 & data & xs & zs & lx & lz & E1 & cc & _ & _ & Ex & Ez); [lia|lia|]. rewrite E in E1. injection E1 as <-.
  pose proof (planar_facts _ _ _ _ _ _ _ _ _ _ _ P cc) as F. apply (memory_attained _ _ _ _ _ _ _ F) in H; [|exact W|exact N].
  unfold reached. replace (Z.to_nat (if rot then ga_dz a else ga_dx a)) with (length (if rot then lz else lx)) by (destruct rot; congruence). exact H.
Qed.
Lemma reached_google a l ordt R di rot dets gauge w w' c : SpecNoise.wf_inds (inds (fst w)) -> NoDup (labels (snd w)) ->
  1 <= ga_dx a -> 1 <= ga_dz a -> rot_surface_code_rectangle a = Ok l ->
  memory_google ordt l R di rot dets gauge w = (w', Ok c) -> reached c (Z.to_nat (if rot then ga_dz a else ga_dx a)).
Proof.
  intros W N Hx Hz E H. destruct (rot_planar a) as (l1 & r & E1 & _ & _ & P & _); [lia|lia|]. rewrite E in E1. injection E1 as <-.
  destruct (rot_code a) as (l1 & data & xs & zs & lx & lz & E1 & cc & _ & _ & _ & Ex & Ez); [lia|lia|]. rewrite E in E1. injection E1 as <-.
  pose proof (planar_facts _ _ _ _ _ _ _ _ _ _ _ P cc) as F. apply (google_attained _ _ _ _ _ _ _ F) in H; [|exact W|exact N].
  unfold reached. replace (Z.to_nat (if rot then ga_dz a else ga_dx a)) with (length (if rot then lz else lx)) by (destruct rot; congruence). exact H.
Qed.
