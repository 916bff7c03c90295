(** The gates of merged blocks: those of the generators one after the other, up to the order
    of gates on different qubits. *)
From Coq Require Import QArith Qcanon.
From Verif Require Import Base Lib StimM SetupM NoiseM SpecNoise NoiseP DetM LayoutM BlockM ExpM SpecTrack SpecExp TrackP LiftP ExpP ExpP13
  MergeM SpecMerge MergeP MergeP2 MergeP3 MergeP4 MergeP5 MergeP6 MergeP7 CnotP.
Open Scope Z_scope.

(** * Names and targets of a merged circuit *)
Section Okc.
  Context (N : gname -> Prop) (T : target -> Prop).
  Definition okc (c : circuit) : Prop := Forall (fun i => N (nm i) /\ Forall T (tg i)) c.
  Lemma okc_append c i : okc c -> okc [i] -> okc (append c i).
  Proof.
    unfold okc. intros C I. inversion I as [|? ? [I1 I2] _]; subst. destruct (append_app c i) as [->|(c'&j&->&H2&H3&H4&->)]; apply Forall_app; [split; [exact C|now constructor]|].
    apply Forall_app in C as [C J]. inversion J as [|? ? [J1 J2] _]; subst. split; [exact C|]. constructor; [|constructor]. cbn. split; [exact J1|now apply Forall_app].
  Qed.
  Lemma okc_appends js : forall c, okc c -> okc js -> okc (appends c js).
  Proof. induction js as [|j js IH]; intros c C J; [exact C|]. inversion J; subst. unfold appends. cbn [fold_left]. apply IH; [|assumption]. apply okc_append; [exact C|now repeat constructor]. Qed.
  Lemma okc_cat fuse a b : okc a -> okc b -> okc (cat fuse a b).
  Proof. unfold cat. destruct fuse; intros A B; [now apply okc_appends|now apply Forall_app]. Qed.
  Lemma okc_slice t b : okc b -> okc (slice1 t b).
  Proof. intros B. apply Forall_forall. intros i Hi. unfold okc in B. rewrite Forall_forall in B. apply B. now apply (slice_incl t). Qed.
  Lemma okc_fold fuse l : forall acc, okc acc -> Forall okc l -> okc (fold_left (cat fuse) l acc).
  Proof. induction l as [|b l IH]; intros acc A L; [exact A|]. inversion L; subst. cbn. apply IH; [now apply okc_cat|assumption]. Qed.
  Lemma okc_tick fuse bs c : merge_tick_blocks fuse bs = Ok c -> Forall okc bs -> okc c.
  Proof.
    intros H B. destruct (merge_tick_inv _ _ _ H) as (n & _ & _ & ->). apply okc_fold; [constructor|].
    apply Forall_flat_map, Forall_forall. intros t _. apply Forall_map, Forall_forall. intros b Hb. apply okc_slice. rewrite Forall_forall in B.
    apply B. now apply (Permutation_in _ (group_perm bs)).
  Qed.
  Lemma okc_zip fuse n : forall its acc m m' c, (forall it b m1 m2 x, In it its -> In (Ok b) it -> same_model m m1 -> run_block b m1 = (m2, Ok x) -> okc x) ->
    okc acc -> zip_loop fuse n its acc m = (m', Ok c) -> okc c.
  Proof.
    induction n as [|n IH]; intros its acc m m' c Ok_ A H; cbn [zip_loop] in H; [apply sret_ok in H as [_ <-]; exact A|].
    apply sbind_ok in H as (m1 & x & Hz & H). apply zip_next_inv in Hz as (bs & raw & m1' & R & D). destruct x as [[cs rs]|]; [|apply sret_ok in H as [_ <-]; exact A].
    destruct D as (-> & -> & E & Ln). apply sbind_ok in H as (m2 & st & Hm & H). unfold slift in Hm. injection Hm as <- Hm.
    assert (S : same_model m m1) by apply (ran_inv _ _ _ _ R).
    assert (B : Forall okc raw).
    { pose proof (ran_each _ _ _ _ R) as F. assert (Hin : forall b, In b bs -> exists it, In it its /\ In (Ok b) it).
      { intros b Hb. rewrite E. clear -Hb Ln. revert rs Ln. induction bs as [|a bs IH]; intros rs Ln; [destruct Hb|]. destruct rs as [|r rs]; [discriminate|].
        destruct Hb as [->|Hb]; [exists (Ok b :: r); split; now left|]. destruct (IH Hb rs) as (it & I & J); [now injection Ln|]. exists it. split; [now right|exact J]. }
      clear -F Ok_ Hin. induction F as [|b x bs raw (m1 & m2 & S & B) F IH]; constructor.
      - destruct (Hin b (or_introl eq_refl)) as (it & I & J). eapply Ok_; eauto.
      - apply IH. intros; apply Hin; now right. }
    assert (St : okc st). { apply (okc_tick _ _ _ Hm). apply Forall_map. eapply Forall_impl; [|exact B]. intros a Ha. apply okc_cat; [constructor|exact Ha]. }
    eapply IH; [| |exact H].
    - intros it b m3 m4 x I J S3 Hb. assert (X : exists it0, In it0 its /\ In (Ok b) it0).
      { rewrite E. clear -I J Ln. revert rs Ln I. induction bs as [|a bs IH]; intros rs Ln I; (destruct rs as [|r rs]; try discriminate); [destruct I|].
        destruct I as [->|I]; [exists (Ok a :: it); split; [now left|now right]|]. destruct (IH rs) as (it0 & I0 & J0); [now injection Ln|exact I|].
        exists it0. split; [now right|exact J0]. }
      destruct X as (it0 & I0 & J0). eapply Ok_; [exact I0|exact J0| |exact Hb]. eapply same_trans; eauto.
    - destruct st as [|i st]; cbn [add_step]; [apply okc_cat; auto|]. destruct (eqb (nm i) TICK); [|apply okc_cat; auto].
      apply okc_append; [exact A|]. inversion St; subst. now repeat constructor.
  Qed.
  Lemma okc_merged fuse its m m' c : (forall it b m1 m2 x, In it its -> In (Ok b) it -> same_model m m1 -> run_block b m1 = (m2, Ok x) -> okc x) ->
    merged_blocks fuse its m = (m', Ok c) -> okc c.
  Proof.
    intros O H. unfold merged_blocks in H. destruct its as [|f rest]; [apply sret_ok in H as [_ <-]; constructor|]. eapply okc_zip; [exact O|constructor|exact H].
  Qed.
End Okc.

Definition qubit_target (qi : dict string Z) (t : target) : Prop := exists q i, t = TQ i /\ dget q qi = Some i.
Lemma block_okc b m m' c : run_block b m = (m', Ok c) -> okc (fun g => g <> DETECTOR /\ g <> OBSERVABLE_INCLUDE) (qubit_target (inds m)) c.
Proof.
  intros H. pose proof (block_only _ _ _ _ H) as O. apply Forall_forall. intros i Hi. split.
  - revert m m' c H O Hi. induction b as [|x b IH]; intros m m' c H O Hi; cbn in H.
    + apply sret_ok in H as [-> <-]. destruct Hi.
    + apply sbind_ok in H as (m1 & c1 & H1 & H). apply sbind_ok in H as (m2 & c2 & H2 & H). apply sret_ok in H as [-> <-].
      apply in_app_or in Hi as [I|I]; [|eapply IH; [exact H2|apply (block_only _ _ _ _ H2)|exact I]].
      destruct x as [o qs|]; [|apply sret_ok in H1 as [_ <-]; destruct I as [<-|[]]; split; discriminate]. cbn in H1.
      apply apply_char in H1 as (_ & js & (_ & G & _) & _). rewrite Forall_forall in G. destruct (G i I) as [_ A].
      split; intros E; rewrite E in A; discriminate A.
  - unfold only in O. rewrite Forall_forall in O. specialize (O i Hi). eapply Forall_impl; [|exact O]. intros t (q & j & -> & _ & D). exists q, j. auto.
Qed.
Lemma merged_okc fuse its m m' c : merged_blocks fuse its m = (m', Ok c) ->
  okc (fun g => g <> DETECTOR /\ g <> OBSERVABLE_INCLUDE) (qubit_target (inds m)) c.
Proof.
  intros H. eapply okc_merged; [|exact H]. intros it b m1 m2 x _ _ (_ & _ & S) R. rewrite S. eapply block_okc; eauto.
Qed.

(** * The gates of a circuit and its applications *)
Definition gapp (a : application) : list (SpecTrack.gate Z) :=
  if is_noise (name_of a) || eqb (name_of a) GI || is_annotation (name_of a) then [] else
  match snd (fst a) with
  | [TQ i] => if is_two (name_of a) then [] else [G1 (name_of a) i]
  | [TQ i; TQ j] => if is_two (name_of a) then [G2 (name_of a) i j] else []
  | _ => []
  end.
Definition tq (t : target) : Prop := exists i, t = TQ i.
Definition tqs (c : circuit) : Prop := Forall (fun i => Forall tq (tg i)) c.
Lemma gates_uses c : tqs c -> even_targets c -> gates c = flat_map gapp (applications c).
Proof.
  induction c as [|i c IH]; intros T E; [reflexivity|]. inversion T as [|? ? T1 T2]; inversion E as [|? ? E1 E2]; subst.
  unfold gates, ideal, applications. cbn [flat_map]. rewrite !flat_map_app. f_equal; [|now apply IH]. clear -T1 E1. destruct i as [g ts a]. cbn [nm tg] in *.
  unfold instr_atoms, uses. cbn [nm tg ar]. destruct (is_noise g || eqb g GI || is_annotation g) eqn:S.
  - assert (Z : forall l, flat_map gapp (map (fun t => (g, t, a)) l) = []) by (induction l as [|x l IH]; [reflexivity|]; cbn [map flat_map]; rewrite IH; unfold gapp, name_of; cbn [fst]; rewrite S; reflexivity).
    rewrite Z. apply orb_true_iff in S as [->|S]; [reflexivity|]. destruct (is_noise g || eqb g GI); [reflexivity|]. rewrite S. reflexivity.
  - pose proof S as S0. apply orb_false_iff in S as [S1 S2]. rewrite S1, S2. assert (not_fusable g = false) as -> by (destruct g; try reflexivity; discriminate S2).
    destruct (is_two g) eqn:W.
    + specialize (E1 eq_refl). revert T1 E1. clear S1 S2. induction ts as [ts IH] using (well_founded_induction (Wf_nat.well_founded_ltof _ (@length target))). intros T1 E1.
      destruct ts as [|x [|y ts]]; [reflexivity|discriminate|]. inversion T1 as [|? ? [i ->] T2]; subst. inversion T2 as [|? ? [j ->] T3]; subst.
      cbn [pair_atoms pairs_of flat_map map gate_of_atom app]. rewrite IH; [|unfold Wf_nat.ltof; cbn; lia|exact T3|exact E1].
      unfold gapp at 2, name_of. cbn [fst snd]. rewrite S0, W. reflexivity.
    + clear E1. induction T1 as [|t ts [i ->] T1 IH]; [reflexivity|]. cbn [map flat_map gate_of_atom]. rewrite IH. unfold gapp at 2, name_of. cbn [fst snd]. rewrite S0, W. reflexivity.
Qed.
Lemma gapp_eq g ts a : gapp (g, ts, a) = if is_noise g || eqb g GI || is_annotation g then [] else
  match ts with [TQ i] => if is_two g then [] else [G1 g i] | [TQ i; TQ j] => if is_two g then [G2 g i j] else [] | _ => [] end.
Proof. reflexivity. Qed.
Lemma meets_gapp i a : filter (meets i) (gapp a) = if mem (TQ i) (snd (fst a)) then gapp a else [].
Proof.
  destruct a as [[g ts] a]. cbn [fst snd]. rewrite gapp_eq. destruct (is_noise g || eqb g GI || is_annotation g); [now destruct (mem (TQ i) ts)|].
  assert (Z : forall j, eqb (TQ i) (TQ j) = eqb i j). { intros j. destruct (eqb_spec i j) as [->|n]; [apply eqb_refl|]. apply eqb_neq. congruence. }
  destruct ts as [|x ts]; [reflexivity|]. destruct x as [x|x]; [|destruct (mem (TQ i) (TR x :: ts)); reflexivity].
  destruct ts as [|y ts].
  { cbn [mem existsb]. rewrite Z, orb_false_r. destruct (is_two g); cbn [filter meets]; destruct (eqb i x); reflexivity. }
  destruct y as [y|y]; [|destruct (mem (TQ i) (TQ x :: TR y :: ts)); reflexivity]. destruct ts as [|z ts]; [|destruct (mem (TQ i) (TQ x :: TQ y :: z :: ts)); reflexivity].
  cbn [mem existsb]. rewrite !Z, orb_false_r. destruct (is_two g); cbn [filter meets]; destruct (eqb i x || eqb i y); reflexivity.
Qed.
Lemma meets_uses i l : filter (meets i) (flat_map gapp l) = flat_map gapp (on_index i l).
Proof.
  induction l as [|a l IH]; [reflexivity|]. cbn [flat_map]. rewrite filter_app, IH, meets_gapp. unfold on_index at 2. cbn [filter]. fold (on_index i l).
  destruct (mem (TQ i) (snd (fst a))); reflexivity.
Qed.
Lemma tqs_meas c : tqs c -> measured c = map TQ (mlab (gates c)).
Proof.
  induction c as [|i c IH]; intros T; [reflexivity|]. inversion T as [|? ? T1 T2]; subst. unfold measured, gates, ideal. cbn [flat_map].
  rewrite flat_map_app, mlab_app, map_app. fold (measured c). rewrite IH by exact T2. f_equal. destruct i as [g ts a]. unfold instr_meas. cbn [nm tg] in *.
  assert (X : instr_atoms (Instr g ts a) = if is_annotation g && negb (is_noise g || eqb g GI) then [AN g ts a] else instr_atoms (Instr g ts [])).
  { unfold instr_atoms. cbn [nm tg ar]. destruct (is_noise g || eqb g GI); [now rewrite andb_false_r|]. destruct (is_annotation g); reflexivity. }
  rewrite X. destruct (is_annotation g && negb (is_noise g || eqb g GI)) eqn:A.
  { destruct g; try discriminate A; reflexivity. }
  destruct (is_meas g) eqn:M; [|now rewrite atoms_no_meas].
  assert (Y : exists is, ts = map TQ is) by (clear -T1; induction T1 as [|t ts [i ->] T IH]; [exists []; reflexivity|]; destruct IH as [is ->]; exists (i :: is); reflexivity).
  destruct Y as [is ->]. rewrite gates_meas_one, M; [reflexivity| | |]; destruct g; try discriminate M; reflexivity.
Qed.

(** * A merged step *)
Lemma no_meet_rel qi L M i : wf_inds qi -> (forall q, dget q qi = Some i -> False) -> Forall2 (gate_rel qi) L M -> filter (meets i) M = [].
Proof.
  intros W N F. induction F as [|g h L M R F IH]; [reflexivity|]. cbn [filter].
  assert (Z : meets i h = false); [|now rewrite Z].
  assert (K : forall q j, dget q qi = Some j -> eqb i j = false) by (intros q j D; apply eqb_neq; intros ->; eauto).
  destruct g, h; cbn in R |- *; try contradiction.
  - destruct R as [_ R]. eapply K; eauto.
  - destruct R as (_ & R1 & R2). now rewrite (K _ _ R1), (K _ _ R2).
Qed.
Lemma flat_gates_away qi T c i : okc T (qubit_target qi) c -> (forall q, dget q qi = Some i -> False) -> on_index i (applications c) = [].
Proof.
  intros O N. apply (only_away (qubit_target qi)).
  - eapply Forall_impl; [|exact O]. intros x [_ X]. exact X.
  - intros (q & j & E & D). injection E as <-. eauto.
Qed.
Lemma okc_tqs T qi c : okc T (qubit_target qi) c -> tqs c.
Proof. intros O. eapply Forall_impl; [|exact O]. intros x [_ X]. eapply Forall_impl; [|exact X]. intros t (q & i & -> & _). now exists i. Qed.
Lemma okc_nocheck T c : okc (fun g => g <> DETECTOR /\ g <> OBSERVABLE_INCLUDE) T c -> Forall (fun i => ~ is_check i) c.
Proof. intros O. eapply Forall_impl; [|exact O]. intros x [[X Y] _] [E|E]; auto. Qed.
Lemma okc_app N T a b : okc N T a -> okc N T b -> okc N T (a ++ b).
Proof. intros. apply Forall_app; auto. Qed.
Lemma blocks_okc bl : forall m m' c, run_blocks bl m = (m', Ok c) -> okc (fun g => g <> DETECTOR /\ g <> OBSERVABLE_INCLUDE) (qubit_target (inds m)) c /\ even_targets c /\ same_model m m'.
Proof.
  induction bl as [|b bl IH]; intros m m' c H; cbn [run_blocks] in H.
  - apply sret_ok in H as [-> <-]. split; [constructor|]. split; [constructor|apply same_refl].
  - apply sbind_ok in H as (m0 & b' & H0 & H). unfold slift in H0. injection H0 as <- ->.
    apply sbind_ok in H as (m1 & x & H1 & H). apply sbind_ok in H as (m2 & y & H2 & H). apply sret_ok in H as [-> <-].
    pose proof (block_static _ _ _ _ H1) as S. destruct (IH _ _ _ H2) as (O & E & S2). split; [|split].
    + apply okc_app; [eapply block_okc; eauto|]. destruct S as (_ & _ & ->). exact O.
    + apply even_app. split; [eapply block_even; eauto|exact E].
    + eapply same_trans; eauto.
Qed.
(* the qubits given to the operations of a generator *)
Definition ops (bl : blocks) : list string := flat_map (fun b => match b with Ok b => operands b | Err _ => [] end) bl.
Lemma ops_in bl b q : In (Ok b) bl -> In q (operands b) -> In q (ops bl).
Proof. intros I J. apply in_flat_map. exists (Ok b). auto. Qed.
Lemma blocks_away bl q i : forall m m' c, wf_inds (inds m) -> dget q (inds m) = Some i -> ~ In q (ops bl) -> run_blocks bl m = (m', Ok c) ->
  on_index i (applications c) = [].
Proof.
  induction bl as [|b bl IH]; intros m m' c W D N H; cbn [run_blocks] in H; [apply sret_ok in H as [-> <-]; reflexivity|].
  apply sbind_ok in H as (m0 & b' & H0 & H). unfold slift in H0. injection H0 as <- ->.
  apply sbind_ok in H as (m1 & x & H1 & H). apply sbind_ok in H as (m2 & y & H2 & H). apply sret_ok in H as [-> <-].
  pose proof (block_static _ _ _ _ H1) as (_ & _ & S). unfold ops in N. cbn [flat_map] in N. rewrite in_app_iff in N.
  unfold applications. rewrite flat_map_app. fold (applications x) (applications y). rewrite on_app. rewrite (block_away _ _ _ _ q i W D) by (eauto || (intros X; apply N; now left)).
  cbn [app]. eapply IH; [|exact (eq_trans (f_equal (dget q) (eq_sym S)) D)| |exact H2]; [now rewrite <- S|]. intros X. apply N. now right.
Qed.
Lemma zip_loop_like fuse n : forall its acc m m' c, zip_loop fuse n its acc m = (m', Ok c) -> like m m'.
Proof.
  induction n as [|n IH]; intros its acc m m' c H; cbn [zip_loop] in H; [apply sret_ok in H as [-> _]; apply like_refl|].
  apply sbind_ok in H as (m1 & x & Hz & H). apply zip_next_inv in Hz as (bs & raw & m1' & R & D). apply ran_like in R as [R _].
  destruct x as [[cs rs]|]; [|apply sret_ok in H as [-> _]; destruct D as (-> & _); exact R].
  destruct D as (-> & _). apply sbind_ok in H as (m2 & st & Hm & H). unfold slift in Hm. injection Hm as <- _. eapply like_trans; [exact R|]. eauto.
Qed.
Lemma merged_like fuse its m m' c : merged_blocks fuse its m = (m', Ok c) -> forall q, dmem q (order m) = dmem q (order m').
Proof. unfold merged_blocks. destruct its; intros H; [apply sret_ok in H as [-> _]; reflexivity|]. apply zip_loop_like in H. apply H. Qed.
Lemma merged_teq fuse A B m m' c : wf_inds (inds m) -> lockstep [A; B] -> (forall q, In q (ops A) -> In q (ops B) -> False) ->
  ok_blocks A -> ok_blocks B -> merged_blocks fuse [A; B] m = (m', Ok c) ->
  exists M, Forall2 (gate_rel (inds m)) (lg_blocks A ++ lg_blocks B) M /\ teq M (gates c).
Proof.
  intros W K D OA OB H. destruct (merged_alone fuse [A; B] A _ _ _ (or_introl eq_refl) K H) as (ma & ca & Ra).
  destruct (merged_alone fuse [A; B] B _ _ _ (or_intror (or_introl eq_refl)) K H) as (mb & cb & Rb).
  pose proof (blocks_gates _ _ _ _ Ra OA) as (_ & Fa & _). pose proof (blocks_gates _ _ _ _ Rb OB) as (_ & Fb & _).
  destruct (blocks_okc _ _ _ _ Ra) as (Ka & Ea & _). destruct (blocks_okc _ _ _ _ Rb) as (Kb & Eb & _). pose proof (merged_okc _ _ _ _ _ H) as Kc.
  exists (gates ca ++ gates cb). split; [now apply Forall2_app|]. intros i. rewrite filter_app.
  rewrite (gates_uses ca), (gates_uses cb), !meets_uses by eauto using okc_tqs.
  assert (X : (exists q, dget q (inds m) = Some i) \/ (forall q, dget q (inds m) = Some i -> False)).
  { clear. generalize (inds m) as d. intros d. destruct (existsb (fun q => eqb (dget q d) (Some i)) (dkeys d)) eqn:E.
    - apply existsb_exists in E as (q & _ & E). destruct (eqb_spec (dget q d) (Some i)); [eauto|discriminate].
    - right. intros q Dq. assert (Hq : In q (dkeys d)) by exact (dget_Some_key _ _ _ Dq). rewrite <- not_true_iff_false in E. apply E. apply existsb_exists. exists q.
      split; [exact Hq|]. rewrite Dq. apply eqb_refl. }
  destruct X as [[q Dq]|No].
  - assert (Hc : even_targets c /\ on_index i (applications c) = on_index i (applications ca) ++ on_index i (applications cb)).
    { destruct (mem q (ops B)) eqn:M.
      - apply mem_In in M. assert (NA : ~ In q (ops A)) by eauto. rewrite (blocks_away A q i _ _ _ W Dq NA Ra). cbn [app].
        apply (merged_uses fuse [A] B [] m m' c q i mb cb); auto. intros it b [<-|[]] I J. eapply NA, ops_in; eauto.
      - assert (NB : ~ In q (ops B)) by (intros X; apply mem_In in X; congruence). rewrite (blocks_away B q i _ _ _ W Dq NB Rb), app_nil_r.
        apply (merged_uses fuse [] A [B] m m' c q i ma ca); auto. intros it b [<-|[]] I J. eapply NB, ops_in; eauto. }
    destruct Hc as [Ec Hc]. rewrite (gates_uses c) by eauto using okc_tqs. rewrite meets_uses, Hc. symmetry. apply flat_map_app.
  - rewrite (flat_gates_away _ _ _ _ Ka No), (flat_gates_away _ _ _ _ Kb No). cbn [flat_map app].
    symmetry. apply filter_nil_iff. intros g Hg. destruct (meets i g) eqn:Mg; [|reflexivity]. exfalso.
    assert (Z : exists t, In t (flat_map tg c) /\ t = TQ i).
    { clear -Hg Mg Kc. unfold gates, ideal in Hg. apply in_flat_map in Hg as (a & Ha & Hg). apply in_flat_map in Ha as (x & Hx & Ha).
      exists (TQ i). split; [|reflexivity]. apply in_flat_map. exists x. split; [exact Hx|]. clear Kc Hx. revert Ha. unfold instr_atoms. destruct (is_noise (nm x) || eqb (nm x) GI); [intros []|].
      destruct (is_annotation (nm x)); [intros [<-|[]]; destruct Hg|]. destruct (is_two (nm x)).
      - generalize (tg x) as ts. intros ts. induction ts as [ts IH] using (well_founded_induction (Wf_nat.well_founded_ltof _ (@length target))).
        destruct ts as [|u [|v ts]]; cbn [pair_atoms]; [intros []|intros []|]. intros [<-|Ha].
        + cbn [gate_of_atom] in Hg. destruct u as [u|]; [|destruct Hg]. destruct v as [v|]; [|destruct Hg]. destruct Hg as [<-|[]]. cbn [meets] in Mg.
          apply orb_true_iff in Mg as [E|E]; apply eqb_eq in E as ->; [now left|right; now left].
        + right. right. apply (IH ts); [unfold Wf_nat.ltof; cbn; lia|exact Ha].
      - intros Ha. apply in_map_iff in Ha as (t & <- & Ht). cbn [gate_of_atom] in Hg. destruct t as [t|]; [|destruct Hg]. destruct Hg as [<-|[]]. cbn [meets] in Mg.
        apply eqb_eq in Mg as ->. exact Ht. }
    destruct Z as (t & Ht & ->). apply in_flat_map in Ht as (x & Hx & Ht). unfold okc in Kc. rewrite Forall_forall in Kc. destruct (Kc x Hx) as [_ F].
    rewrite Forall_forall in F. destruct (F _ Ht) as (q & j & E & Dq). injection E as <-. eauto.
Qed.
Lemma tracks_merged fuse qi A B m m' c1 L c0 : tracks qi m L c0 -> uniform (stp m) -> lockstep [A; B] -> (forall q, In q (ops A) -> In q (ops B) -> False) ->
  ok_blocks A -> ok_blocks B -> merged_blocks fuse [A; B] m = (m', Ok c1) ->
  tracks qi m' (L ++ lg_blocks A ++ lg_blocks B) (c0 ++ c1) /\ Forall (fun i => ~ is_check i) c1.
Proof.
  intros (L0 & T & E) U K D OA OB H. pose proof (merged_okc _ _ _ _ _ H) as Kc. split; [|eapply okc_nocheck; eauto].
  pose proof (tk_wf _ _ _ _ T) as W. pose proof (tk_qi _ _ _ _ T) as Q. rewrite <- Q in W.
  destruct (merged_teq _ _ _ _ _ _ W K D OA OB H) as (M & F & Te). rewrite Q in F. destruct (teq_lift qi _ _ _ (tk_wf _ _ _ _ T) F Te) as (L1 & F1 & E1).
  destruct (merged_inv _ _ _ _ _ U K W H) as [S I]. destruct S as (_ & _ & S).
  exists (L0 ++ L1). split; [|now apply teq_app]. destruct T as [W0 Q0 I0 K0 R0 M0]. constructor.
  - exact W0.
  - congruence.
  - rewrite measured_app. apply I. exact I0.
  - intros q l Dq. pose proof (merged_like _ _ _ _ _ H q) as Lk. unfold dmem in Lk. rewrite Dq in Lk. destruct (dget q (order m)) as [l0|] eqn:Dm; [|discriminate Lk]. eauto.
  - rewrite LiftP.gates_app. apply Forall2_app; [exact R0|exact F1].
  - rewrite measured_app, LiftP.gates_app, mlab_app, map_app. rewrite M0. f_equal. apply tqs_meas. eapply okc_tqs; eauto.
Qed.
