(** Proofs of the statements about noise channels (C53 to C57). *)
From Coq Require Import QArith Qcanon.
From Verif Require Import Base Lib SetupM StimM NoiseM SpecNoise SpecNoise2 NoiseP ProbP.
Open Scope Z_scope.

(** * C53 *)
Lemma in_op_biased bp op : in_op bp op = biased bp op.
Proof.
  destruct bp as [|b|x|s|l]; try reflexivity. cbn [in_op biased].
  destruct (in_dec string_dec s op) as [H|H].
  - now apply mem_In.
  - destruct (mem s op) eqn:E; [|reflexivity]. now apply mem_In in E.
Qed.
Lemma prefactors_sum f eta n l : prefactors f eta n = Ok l ->
  exists u, l = map (fun op => if f op then (eta * u)%Qc else u) (operators n) /\ sumQ l = Q2Qc 1.
Proof.
  unfold prefactors. destruct (eqb _ (Q2Qc 0)) eqn:E; [discriminate|]. intros [= <-].
  eexists. split; [reflexivity|]. rewrite sumQ_two. apply eqb_neq in E.
  fold (qz (Z.of_nat (length (operators n)))) in *. fold (qz (Z.of_nat (length (filter f (operators n))))) in *.
  set (N := qz (Z.of_nat (length (operators n)))) in *. set (B := qz (Z.of_nat (length (filter f (operators n))))) in *.
  transitivity ((B * (eta - 1) + N) * / (B * (eta - 1) + N))%Qc; [ring|now apply Qcmult_inv_r].
Qed.
Lemma sumQ_scale x l : sumQ (map (fun y => (x * y)%Qc) l) = (x * sumQ l)%Qc.
Proof.
  induction l as [|y l IH]; cbn [map sumQ fold_right]; [ring|].
  fold (sumQ (map (fun y => (x * y)%Qc) l)). rewrite IH. fold (sumQ l). ring.
Qed.
Lemma biased_probs_shape m p qs n a : biased_probs m p qs n = Ok a ->
  exists v x bp bf eta u, param (stp m) p qs = Ok v /\ as_num v = Ok x /\
    param (stp m) "biased_pauli" qs = Ok bp /\ param (stp m) "biased_factor" qs = Ok bf /\
    as_num bf = Ok eta /\
    let probs := map (fun op => if biased bp op then (eta * u)%Qc else u) (operators n) in
    a = map ANum probs /\ sumQ probs = x.
Proof.
  unfold biased_probs, mparam. intros H. dbind H. dbind H. dbind H. dbind H. dbind H. dbind H.
  injection H as <-. apply prefactors_sum in E3 as [u [-> Hs]].
  exists a0, a5, a1, a2, a3, (a5 * u)%Qc. repeat (split; [assumption|]). cbn zeta.
  assert (Hm : map (fun op => if biased a1 op then (a3 * (a5 * u))%Qc else (a5 * u)%Qc) (operators n) =
               map (fun y => (a5 * y)%Qc) (map (fun op => if in_op a1 op then (a3 * u)%Qc else u) (operators n))).
  { rewrite map_map. apply map_ext. intros op. rewrite in_op_biased. destruct (biased a1 op); ring. }
  rewrite Hm. split.
  - now rewrite !map_map.
  - rewrite sumQ_scale, Hs. ring.
Qed.
Lemma biased_noise (m : model) (p : string) qs is js :
  get_inds m qs = Ok is ->
  Forall2 (fun qi j => bchan1 m p (fst qi) (snd qi) = Ok j) (combine qs is) js ->
  Forall2 (fun q a => biased_for m PAULI_CHANNEL_1 pauli1 p [q] a) qs (flat_map instr_noise js).
Proof.
  intros Hi F. apply get_inds_F2 in Hi. revert js F.
  induction Hi as [|q i qs is Hq Hi IH]; simpl; intros js F; inversion F as [|? j ? js' Hj F']; subst; simpl.
  - constructor.
  - simpl in Hj. unfold bchan1 in Hj. dbind Hj. apply mk_ok in Hj as [-> _].
    apply biased_probs_shape in E as (v & x & bp & bf & eta & u & H1 & H2 & H3 & H4 & H5 & H6 & H7).
    unfold instr_noise at 1; simpl. constructor; auto.
    exists [i], v, x, bp, bf, eta, u. split; [unfold get_inds; simpl; unfold dget_err; now rewrite Hq|].
    do 5 (split; [assumption|]). split; [now rewrite H6|exact H7].
Qed.
Lemma biased_noise2 (m : model) (p : string) qs is qp ip js :
  get_inds m qs = Ok is ->
  grouper2 qs = Ok qp -> grouper2 is = Ok ip ->
  Forall2 (fun qi j => bchan2 m p (fst qi) (snd qi) = Ok j) (combine qp ip) js ->
  Forall2 (fun q a => biased_for m PAULI_CHANNEL_2 pauli2 p q a) (pairs_of qs) (flat_map instr_noise js).
Proof.
  intros Hi Hqp Hip. apply get_inds_F2 in Hi.
  assert (Hgen : forall n qs is qp ip js, (length qs <= n)%nat ->
     Forall2 (fun q i => dget q (inds m) = Some i) qs is ->
     grouper2 qs = Ok qp -> grouper2 is = Ok ip ->
     Forall2 (fun qi j => bchan2 m p (fst qi) (snd qi) = Ok j) (combine qp ip) js ->
     Forall2 (fun q a => biased_for m PAULI_CHANNEL_2 pauli2 p q a) (pairs_of qs) (flat_map instr_noise js)).
  { clear qs is qp ip js Hi Hqp Hip.
    induction n as [|n IH]; intros qs is qp ip js Hn Hi Hqp Hip F.
    - destruct qs; simpl in Hn; [|lia]. injection Hqp as <-. inversion F; subst. constructor.
    - destruct qs as [|q [|q' qs]]; [injection Hqp as <-; inversion F; subst; constructor|discriminate|].
      inversion Hi as [|? i ? is1 Hq Hi1]; subst. inversion Hi1 as [|? i' ? is2 Hq' Hi2]; subst.
      simpl in Hqp, Hip. dbind Hqp. dbind Hip. injection Hqp as <-. injection Hip as <-.
      simpl in F. inversion F as [|? j ? js' Hj F']; subst. simpl in Hj.
      unfold bchan2 in Hj. dbind Hj. apply mk_ok in Hj as [-> _].
      apply biased_probs_shape in E1 as (v & x & bp & bf & eta & u & H1 & H2 & H3 & H4 & H5 & H6 & H7).
      simpl. constructor.
      + exists [i; i'], v, x, bp, bf, eta, u.
        split; [unfold get_inds; simpl; unfold dget_err; now rewrite Hq, Hq'|].
        do 5 (split; [assumption|]). split; [|exact H7]. rewrite H6. reflexivity.
      + eapply IH; eauto. simpl in Hn. lia. }
  eauto.
Qed.

Lemma C53_lemma1 m o qs m' c p :
  kind m = Biased -> apply o qs m = (m', Ok c) -> channel1 o = Some (DEPOLARIZE1, p) ->
  Forall2 (fun q a => biased_for m PAULI_CHANNEL_1 pauli1 p [q] a) qs (noise_of c).
Proof.
  intros K H Hc. unfold apply in H. rewrite K in H.
  destruct o; try discriminate Hc; injection Hc as <-; injection H as <- H; first
    [ apply gate1_shape in H; [|reflexivity|apply bchan1_noisy];
      destruct H as (is & js & Hi & F & N & B); rewrite (built_noise _ _ B); simpl;
      eapply biased_noise; eauto
    | apply idle1_shape in H; [|apply bchan1_noisy];
      destruct H as (is & js & Hi & F & N & B); rewrite (built_noise _ _ B); simpl;
      eapply biased_noise; eauto ].
Qed.
Lemma C53_lemma2 m o qs m' c g p :
  kind m = Biased -> apply o qs m = (m', Ok c) -> channel2 o = Some (g, p) ->
  Forall2 (fun q a => biased_for m PAULI_CHANNEL_2 pauli2 p q a) (pairs_of qs) (noise_of c).
Proof.
  intros K H Hc. unfold apply in H. rewrite K in H.
  destruct o; try discriminate Hc; injection Hc as <- <-; injection H as <- H;
    (apply gate2_shape in H; [|reflexivity|apply bchan2_noisy];
     destruct H as (is & qp & ip & js & Hi & Hq & Hp & F & N & B & _); rewrite (built_noise _ _ B); simpl;
     eapply biased_noise2; eauto).
Qed.
Ltac meas_noise H :=
  apply measure1_shape in H; [|reflexivity..];
  destruct H as (is & jn & jm & Hi & Ha & F & N & F2 & B); rewrite (built_noise _ _ B);
  apply (meas_of_meas _ (fun i => i)) in F2; [|reflexivity];
  destruct F2 as (_ & _ & F3); rewrite flat_map_app, F3, app_nil_r;
  eapply channel_noise; eauto.
Lemma C53_lemma3 m o qs m' c g p :
  kind m = Biased -> apply o qs m = (m', Ok c) -> channel1 o = Some (g, p) -> g <> DEPOLARIZE1 ->
  o <> OMY -> Forall2 (fun q a => channel_for m g p [q] a) qs (noise_of c).
Proof.
  intros K H Hc Hg Ho. unfold apply in H. rewrite K in H.
  destruct o; try congruence; try discriminate Hc; injection Hc as <- <-; try congruence;
  first
  [ injection H as <- H;
    apply gate1_shape in H; [|reflexivity|apply chan1_noisy; reflexivity];
      destruct H as (is & js & Hi & F & N & B); rewrite (built_noise _ _ B); simpl;
      eapply channel_noise; eauto
  | meas_noise H ].
Qed.
Lemma C53_lemma0 m o qs m' c :
  kind m = Biased -> apply o qs m = (m', Ok c) -> channel1 o = None -> channel2 o = None -> noise_of c = [].
Proof.
  intros K H H1 H2. unfold apply in H. rewrite K in H.
  destruct o; try discriminate; injection H as <- H; try discriminate H. now subst.
Qed.

(** * C57 *)
Lemma C57_exper1 m o qs m' c g p :
  kind m = Exper -> apply o qs m = (m', Ok c) -> channel1x o = Some (g, p) ->
  Forall2 (fun q a => channel_for m g p [q] a) qs (noise_of c).
Proof.
  intros K H Hc. unfold apply in H. rewrite K in H.
  destruct o; try discriminate Hc; injection Hc as <- <-;
  first
  [ injection H as <- H;
    apply gate1_shape in H; [|reflexivity|apply chan1_noisy; reflexivity];
      destruct H as (is & js & Hi & F & N & B); rewrite (built_noise _ _ B); simpl;
      eapply channel_noise; eauto
  | meas_noise H ].
Qed.
Lemma C57_exper2 m o qs m' c g p :
  kind m = Exper -> apply o qs m = (m', Ok c) -> channel2 o = Some (g, p) ->
  Forall2 (fun q a => channel_for m g p q a) (pairs_of qs) (noise_of c).
Proof.
  intros K H Hc. unfold apply in H. rewrite K in H.
  destruct o; try discriminate Hc; injection Hc as <- <-; injection H as <- H;
    (apply gate2_shape in H; [|reflexivity|apply chan2_noisy; reflexivity];
     destruct H as (is & qp & ip & js & Hi & Hq & Hp & F & N & B & _); rewrite (built_noise _ _ B); simpl;
     eapply channel_noise2; eauto).
Qed.
Lemma C57_phenom m o qs m' c :
  kind m = Phenom -> apply o qs m = (m', Ok c) -> o <> OINC ->
  match channel1x o with
  | Some (g, p) => if measures o then Forall2 (fun q a => channel_for m g p [q] a) qs (noise_of c)
                   else noise_of c = []
  | None => noise_of c = []
  end.
Proof.
  intros K H Ho. unfold apply in H. rewrite K in H.
  destruct o; try congruence; cbn [channel1x measures];
  first
  [ injection H as <- H; first
    [ apply gate0_shape in H; [|reflexivity];
      destruct H as (is & Hi & B & -> & _); reflexivity
    | discriminate H ]
  | meas_noise H ].
Qed.
Lemma C57_incoming m qs m' c :
  apply OINC qs m = (m', Ok c) ->
  ideal c = [] /\
  match kind m with
  | Incoming | Phenom =>
      exists nx nz, noise_of c = nx ++ nz /\
        Forall2 (fun q a => channel_for m X_ERROR "idle_error_prob" [q] a) qs nx /\
        Forall2 (fun q a => channel_for m Z_ERROR "idle_error_prob" [q] a) qs nz
  | _ => noise_of c = []
  end.
Proof.
  intros H. unfold apply in H.
  assert (G : forall c, incoming1 m qs = Ok c -> ideal c = [] /\
     exists nx nz, noise_of c = nx ++ nz /\
        Forall2 (fun q a => channel_for m X_ERROR "idle_error_prob" [q] a) qs nx /\
        Forall2 (fun q a => channel_for m Z_ERROR "idle_error_prob" [q] a) qs nz).
  { clear H c. intros c H. unfold incoming1 in H. dbind H. dbind H.
    apply (chans_shape _ _ _ _ []) in E0; auto using built_nil, chan1_noisy.
    destruct E0 as [js [F [N B]]].
    apply (chans_shape _ _ _ _ js) in H; auto using chan1_noisy.
    destruct H as [js' [F' [N' B']]]. rewrite (built_ideal _ _ B'), (built_noise _ _ B').
    rewrite !flat_map_app, (noise_no_atoms _ N), (noise_no_atoms _ N'). split; [reflexivity|].
    eexists; eexists. split; [reflexivity|]. split; eapply channel_noise; eauto. }
  destruct (kind m); injection H as <- H; first [subst c; split; reflexivity|now apply G].
Qed.

(** * C54 *)
Lemma Qpos_lt x : Qpos x = true -> (Q2Qc 0 < x)%Qc.
Proof.
  unfold Qpos. intros H. apply Qcnot_le_lt. intros L. apply negb_true_iff in H.
  assert (Qle_bool x 0 = true); [|congruence]. now apply Qle_bool_iff.
Qed.
Lemma idle_chan_for m d q j : idle_chan m d q = Ok j ->
  exists x a, as_num d = Ok x /\ instr_noise j = [a] /\ idle_for m x q a.
Proof.
  unfold idle_chan, mparam. intros H. dbind H. dbind H. dbind H. dbind H.
  destruct (negb (Qpos _ && _ && _)) eqn:E3; [discriminate|]. apply bind_ok in H as [a3 [E4 H]]. destruct (negb (Qpos a3)) eqn:E5; [discriminate|].
  apply bind_ok in H as [a4 [E6 H]]. apply mk_ok in H as [-> _]. apply negb_false_iff in E3, E5.
  apply andb_true_iff in E3 as [E3 K3]. apply andb_true_iff in E3 as [K1 K2].
  unfold get_inds in E6. simpl in E6. apply bind_ok in E6 as [a5 [E7 E6]]. injection E6 as <-. unfold dget_err, of_opt in E7.
  destruct (dget q (inds m)) as [i|] eqn:Ei; [|discriminate]. injection E7 as <-.
  eexists; eexists. split; [exact E4|]. split; [reflexivity|].
  exists i, a, a1, a0, a2. repeat (split; [eassumption || apply Qpos_lt; assumption|]). split; [|split; [now apply Qpos_lt|reflexivity]].
  apply Qpos_lt in K3. apply Qclt_minus_iff. exact K3.
Qed.
Lemma idle_dur_for m d qs c : idle_dur m d qs = Ok c ->
  exists js, built c js /\ Forall noise_instr js /\
    forall x, as_num d = Ok x -> Forall2 (idle_for m x) qs (flat_map instr_noise js).
Proof.
  intros H. unfold idle_dur in H.
  apply (foldM_append (idle_chan m d) qs [] c []) in H; auto using built_nil.
  - destruct H as [js [F B]]. exists js. split; [exact B|]. split.
    + eapply (Forall2_noise (idle_chan m d)); [|exact F]. intros x j Hj. now apply idle_chan_shape in Hj.
    + intros x Hx. clear B. induction F as [|q j qs js Hq F IH]; [constructor|].
      apply idle_chan_for in Hq as (x' & a & H1 & H2 & H3). simpl. rewrite H2. simpl.
      rewrite Hx in H1. injection H1 as <-. constructor; auto.
  - intros x i _ Hx. now apply idle_chan_shape in Hx.
Qed.

(* events *)
Definition events' (i : instr) : list event := map Gate (atoms' i) ++ map Noise (instr_noise i).
Lemma additive_events : additive events'.
Proof.
  intros i j H1 H2 H3 Hi Hj. unfold events'.
  rewrite (additive_atoms i j H1 H2 H3 Hi Hj), (additive_noise i j H1 H2 H3 Hi Hj).
  rewrite !map_app. destruct (is_noise (nm j)) eqn:E.
  - assert (A : forall k, nm k = nm j -> atoms' k = []).
    { intros k Hk. unfold atoms', instr_atoms. rewrite Hk, E. simpl. now destruct (is_annotation _). }
    rewrite !A by auto. reflexivity.
  - assert (A : forall k, nm k = nm j -> instr_noise k = []).
    { intros k Hk. unfold instr_noise. now rewrite Hk, E. }
    rewrite !A by auto. simpl. now rewrite !app_nil_r.
Qed.
Lemma plain_events c : plain c -> events c = flat_map events' c.
Proof.
  unfold events. induction 1 as [|i c Hi Hc IH]; simpl; [reflexivity|].
  rewrite IH. unfold events', instr_events, atoms'. now rewrite Hi.
Qed.
Lemma built_events c js : built c js -> events c = flat_map instr_events js.
Proof.
  intros (H1 & H2 & H). rewrite (plain_events c (good_plain _ H2)).
  fold (events js). rewrite (plain_events js (good_plain _ H1)). apply H, additive_events.
Qed.
Lemma noise_events js : Forall noise_instr js ->
  flat_map instr_events js = map Noise (flat_map instr_noise js).
Proof.
  induction 1 as [|j js Hj _ IH]; simpl; [reflexivity|].
  rewrite IH, map_app. unfold instr_events, instr_atoms. rewrite Hj. reflexivity.
Qed.
Lemma gate_events js : Forall (fun j => is_noise (nm j) = false) js ->
  flat_map instr_events js = map Gate (flat_map instr_atoms js).
Proof.
  induction 1 as [|j js Hj _ IH]; simpl; [reflexivity|].
  rewrite IH, map_app. unfold instr_events, instr_noise. rewrite Hj. simpl. now rewrite app_nil_r.
Qed.
Lemma gate_nonoise js : Forall (fun j => is_noise (nm j) = false) js -> flat_map instr_noise js = [].
Proof.
  induction 1 as [|j js Hj _ IH]; simpl; [reflexivity|]. rewrite IH. unfold instr_noise. now rewrite Hj.
Qed.
Lemma placed c j1 jg j2 : built c (j1 ++ jg ++ j2) ->
  Forall noise_instr j1 -> Forall noise_instr j2 -> Forall (fun j => is_noise (nm j) = false) jg ->
  events c = map Noise (flat_map instr_noise j1) ++ map Gate (ideal c) ++ map Noise (flat_map instr_noise j2) /\
  noise_of c = flat_map instr_noise j1 ++ flat_map instr_noise j2.
Proof.
  intros B N1 N2 G. rewrite (built_events _ _ B), (built_ideal _ _ B), (built_noise _ _ B), !flat_map_app.
  rewrite (noise_events _ N1), (noise_events _ N2), (gate_events _ G), (gate_nonoise _ G),
    (noise_no_atoms _ N1), (noise_no_atoms _ N2). simpl. now rewrite app_nil_r.
Qed.
Lemma meas_of_gates g js is : is_meas g = true -> Forall2 (fun i j => meas_of g i j) is js ->
  Forall (fun j => is_noise (nm j) = false) js.
Proof.
  intros Hg. induction 1 as [|i j is js (E & _) _ IH]; constructor; auto. rewrite E. now destruct g.
Qed.

Lemma half_dur_num m n d : half_dur m n = Ok d -> exists v x,
  gate_duration (stp m) n = Ok v /\ as_num v = Ok x /\ d = VNum (Q2Qc (1 # 2) * x)%Qc.
Proof. unfold half_dur, mdur. intros H. dbind H. dbind H. injection H as <-. eauto. Qed.
Lemma generic_sym m n g qs c : is_annotation g = false -> is_noise g = false ->
  generic_op m true n g qs = Ok c -> sym_noise m n qs c.
Proof.
  intros Hg Hn H. unfold generic_op in H. dbind H. dbind H. dbind H. dbind H. dbind H. injection H as <-.
  apply half_dur_num in E as (v & x & D1 & D2 & ->).
  apply mk_good in E2 as [-> Hgood]; auto.
  apply idle_dur_for in E0 as (j1 & B1 & N1 & F1). apply idle_dur_for in E3 as (j2 & B2 & N2 & F2).
  assert (B : built (append a0 (Instr g (map TQ a1) []) ++ a3) (j1 ++ [Instr g (map TQ a1) []] ++ j2)).
  { rewrite app_assoc. apply built_app; auto. now apply built_append. }
  apply placed in B; auto. destruct B as [B _].
  exists v, x, (flat_map instr_noise j1), (flat_map instr_noise j2). repeat split; auto.
Qed.
Lemma idle_num m d q qs c : idle_dur m d (q :: qs) = Ok c -> exists x, as_num d = Ok x.
Proof.
  intros H. unfold idle_dur in H. cbn [foldM] in H. dbind H. dbind E. apply idle_chan_for in E0 as (x & _ & Hx & _).
  eauto.
Qed.
Lemma generic_asym m n g qs c : is_annotation g = false -> is_noise g = false ->
  generic_op m false n g qs = Ok c -> asym_noise m n qs c.
Proof.
  intros Hg Hn H. unfold generic_op in H. dbind H. dbind H. dbind H. dbind H. injection H as <-.
  destruct qs as [|q qs]; [now left|right].
  destruct (idle_num _ _ _ _ _ E2) as [x Hx].
  apply mk_good in E1 as [-> Hgood]; auto.
  apply idle_dur_for in E2 as (j2 & B2 & N2 & F2).
  assert (B : built (append [] (Instr g (map TQ a0) []) ++ a2) ([] ++ [Instr g (map TQ a0) []] ++ j2)).
  { apply (built_app (append [] (Instr g (map TQ a0) [])) [Instr g (map TQ a0) []]); auto. now apply built_one. }
  apply placed in B; auto. destruct B as [B _].
  exists a, x, (flat_map instr_noise j2). repeat split; auto.
Qed.
Lemma idle_for_static m m1 x qs ns : same_static m m1 ->
  Forall2 (idle_for m1 x) qs ns -> Forall2 (idle_for m x) qs ns.
Proof.
  intros (_ & K2 & K3) F. eapply Forall2_impl'; [|exact F]. intros q a. unfold idle_for.
  now rewrite K2, K3.
Qed.
Lemma meas_sym m m' n g qs c : is_meas g = true ->
  measure_decoh true n g qs m = (m', Ok c) -> sym_noise m n qs c.
Proof.
  intros Hg H. unfold measure_decoh in H.
  apply sbind_ok in H as (m1 & d & H1 & H). apply sread_ok in H1 as [-> H1].
  apply sbind_ok in H as (m1 & c1 & H2 & H). apply sread_ok in H2 as [-> H2].
  apply sbind_ok in H as (m2 & c2 & H3 & H).
  apply sbind_ok in H as (m3 & c3 & H4 & H). apply sread_ok in H4 as [-> H4].
  apply sret_ok in H as [-> <-].
  apply half_dur_num in H1 as (v & x & D1 & D2 & ->).
  apply idle_dur_for in H2 as (j1 & B1 & N1 & F1). apply idle_dur_for in H4 as (j2 & B2 & N2 & F2).
  apply (meas_loop_labels (fun q m => do is <- get_inds m [q]; meas_instr m g q (nth 0 is 0)) g qs c1 j1) in H3;
      auto.
  - destruct H3 as [Ha [is [jm [G [F B]]]]]. apply add_all_static in Ha.
    assert (B' : built (c2 ++ c3) (j1 ++ jm ++ j2)) by (rewrite app_assoc; now apply built_app).
    apply placed in B'; auto; [|eapply meas_of_gates; eauto]. destruct B' as [B' _].
    exists v, x, (flat_map instr_noise j1), (flat_map instr_noise j2). repeat split; auto.
    eapply idle_for_static; eauto.
  - intros q m1 i (K1 & K2 & K3) Hi. dbind Hi. unfold get_inds in E. simpl in E. dbind E.
    injection E as <-. unfold dget_err, of_opt in E0. rewrite K3 in E0.
    destruct (dget q (inds m)) as [z|]; [|discriminate]. injection E0 as <-. exists z. split; auto.
    simpl in Hi. eapply meas_instr_shape; eauto.
Qed.
Lemma meas_asym m m' n g qs c : measure_decoh false n g qs m = (m', Ok c) -> asym_noise m n qs c.
Proof.
  intros H. unfold measure_decoh in H. apply sbind_ok in H as (m1 & d & H1 & H).
  destruct qs as [|q qs]; [now left|]. apply sbind_ok in H as (m2 & [] & _ & H). discriminate.
Qed.
Lemma C54_sym m o n qs m' c : kind m = Decoh true -> apply o qs m = (m', Ok c) ->
  duration_name o = Some n -> sym_noise m n qs c.
Proof.
  intros K H Hn. unfold apply in H. rewrite K in H.
  destruct o; try discriminate Hn; injection Hn as <-;
    first [ apply pair_equal_spec in H as [<- H]; eapply generic_sym; [| |exact H]; reflexivity
          | eapply meas_sym; [|exact H]; reflexivity ].
Qed.
Lemma C54_asym m o n qs m' c : kind m = Decoh false -> apply o qs m = (m', Ok c) ->
  duration_name o = Some n -> asym_noise m n qs c.
Proof.
  intros K H Hn. unfold apply in H. rewrite K in H.
  destruct o; try discriminate Hn; injection Hn as <-;
    first [ apply pair_equal_spec in H as [<- H]; eapply generic_asym; [| |exact H]; reflexivity
          | eapply meas_asym; exact H ].
Qed.
Lemma C54_idle m qs d m' c : (exists s, kind m = Decoh s) \/ kind m = Exper ->
  apply (OIDLED d) qs m = (m', Ok c) -> ideal c = [] /\ Forall2 (idle_for m d) qs (noise_of c).
Proof.
  intros K H. unfold apply in H.
  assert (G : forall c, idle_dur m (VNum d) qs = Ok c -> ideal c = [] /\ Forall2 (idle_for m d) qs (noise_of c)).
  { clear H c. intros c H. apply idle_dur_for in H as (js & B & N & F).
    rewrite (built_ideal _ _ B), (built_noise _ _ B), (noise_no_atoms _ N). split; auto. }
  destruct K as [[s K]|K]; rewrite K in H; injection H as <- H; now apply G.
Qed.

(** * C55 *)
Lemma additive_readout : additive instr_readout.
Proof.
  intros i j H1 H2 H3 Hi Hj. unfold instr_readout; simpl. rewrite H1, H2.
  destruct (is_meas (nm j)); [|reflexivity]. apply map_app.
Qed.
Lemma built_readouts c js : built c js -> readouts c = flat_map instr_readout js.
Proof. intros (_ & _ & H). apply H, additive_readout. Qed.
Lemma noise_no_readout js : Forall noise_instr js -> flat_map instr_readout js = [].
Proof.
  induction 1 as [|j js Hj _ IH]; simpl; [reflexivity|].
  unfold instr_readout. unfold noise_instr in Hj. destruct (nm j); try discriminate Hj; exact IH.
Qed.

Lemma meas_loop_gen {A} (qof : A -> string) (step : A -> model -> res instr) (P : A -> instr -> Prop) l :
  forall c js0 m m' c',
  (forall x m1 i, same_static m m1 -> In x l -> step x m1 = Ok i -> P x i /\ good i) ->
  built c js0 ->
  sfold (fun c x => sdo _ <- add_meas (qof x); sdo i <- sread (step x); sret (append c i)) l c m
    = (m', Ok c') ->
  exists js, Forall2 P l js /\ built c' (js0 ++ js).
Proof.
  induction l as [|x l IH]; simpl; intros c js0 m m' c' Hs Hb H.
  - apply sret_ok in H as [-> <-]. exists []. rewrite app_nil_r. auto.
  - apply sbind_ok in H as (m1 & c1 & H1 & H).
    apply sbind_ok in H1 as (m2 & [] & Ha & H1).
    apply sbind_ok in H1 as (m3 & i & Hr & H1).
    apply sread_ok in Hr as [-> Hi]. apply sret_ok in H1 as [-> <-].
    pose proof (add_meas_ok _ _ _ Ha) as Hst.
    assert (Hm : P x i /\ good i) by (eapply Hs; eauto).
    destruct (IH (append c i) (js0 ++ [i]) m2 m' c') as [js [F B]]; auto.
    + intros y m1 j K1 K2 K3. apply (Hs y m1 j); auto. exact (same_static_trans _ _ _ Hst K1).
    + apply built_append; auto. apply Hm.
    + exists (i :: js). split; [constructor; auto; apply Hm|]. now rewrite <- app_assoc in B.
Qed.
Definition reads (m : model) (q : string) (j : instr) : Prop :=
  exists a, instr_readout j = [a] /\ readout_for m q a.
Lemma meas_instr_reads m m1 g q i j : is_meas g = true -> same_static m m1 -> dget q (inds m) = Some i ->
  meas_instr m1 g q i = Ok j -> reads m q j /\ good j.
Proof.
  intros Hg (_ & K2 & K3) Hi H. unfold meas_instr, mparam in H. rewrite K2 in H. dbind H.
  assert (is_annotation g = false) by now destruct g.
  destruct (truthy a) eqn:Et.
  - dbind H. dbind H. apply mk_good in H as [-> Hj]; auto. split; auto.
    exists (g, TQ i, [ANum a1]). unfold instr_readout; simpl. rewrite Hg. split; auto.
    exists g, i, a. rewrite Et. simpl. repeat split; eauto.
  - apply mk_good in H as [-> Hj]; auto. split; auto.
    exists (g, TQ i, []). unfold instr_readout; simpl. rewrite Hg. split; auto.
    exists g, i, a. rewrite Et. simpl. repeat split; eauto.
Qed.
Lemma reads_all {A} m (qof : A -> string) l js : Forall2 (fun x j => reads m (qof x) j) l js ->
  Forall2 (readout_for m) (map qof l) (flat_map instr_readout js).
Proof.
  induction 1 as [|x j l js (a & E & Ha) _ IH]; simpl; [constructor|]. rewrite E. simpl. now constructor.
Qed.
Lemma measure1_readouts e g qs m m' c : is_noise e = true -> is_meas g = true ->
  measure1 e g qs m = (m', Ok c) -> Forall2 (readout_for m) qs (readouts c).
Proof.
  intros He Hg H. unfold measure1 in H.
  apply sbind_ok in H as (m1 & is & H1 & H). apply sread_ok in H1 as [-> H1].
  apply sbind_ok in H as (m1 & c1 & H2 & H). apply sread_ok in H2 as [-> H2].
  apply (chans_shape _ _ _ _ []) in H2; auto using built_nil, chan1_noisy.
  destruct H2 as [jn [F [N B]]]. pose proof (get_inds_length _ _ _ H1) as Hl. apply get_inds_F2 in H1.
  apply (meas_loop_gen fst (fun qi m => meas_instr m g (fst qi) (snd qi))
           (fun qi j => reads m (fst qi) j) _ _ jn) in H; auto.
  - destruct H as [jm [F2 B2]]. rewrite (built_readouts _ _ B2), flat_map_app, (noise_no_readout _ N). simpl.
    apply reads_all in F2. now rewrite map_fst_combine in F2.
  - intros [q i] m1 j Hst Hin Hj. eapply meas_instr_reads; eauto. simpl in *.
    clear -H1 Hin. induction H1 as [|q0 i0 qs is E _ IH]; simpl in Hin; [easy|].
    destruct Hin as [[= -> ->]|Hin]; auto.
Qed.
Lemma measure_decoh_readouts s n g qs m m' c : is_meas g = true ->
  measure_decoh s n g qs m = (m', Ok c) -> Forall2 (readout_for m) qs (readouts c).
Proof.
  intros Hg H. unfold measure_decoh in H. destruct s.
  - apply sbind_ok in H as (m1 & d & H1 & H). apply sread_ok in H1 as [-> H1].
    apply sbind_ok in H as (m1 & c1 & H2 & H). apply sread_ok in H2 as [-> H2].
    apply sbind_ok in H as (m2 & c2 & H3 & H).
    apply sbind_ok in H as (m3 & c3 & H4 & H). apply sread_ok in H4 as [-> H4].
    apply sret_ok in H as [-> <-].
    apply idle_dur_for in H2 as (j1 & B1 & N1 & F1). apply idle_dur_for in H4 as (j2 & B2 & N2 & F2).
    apply (meas_loop_gen (fun q => q) (fun q m => do is <- get_inds m [q]; meas_instr m g q (nth 0 is 0))
             (fun q j => reads m q j) qs c1 j1) in H3; auto.
    + destruct H3 as [jm [F B]]. assert (B' := built_app _ _ _ _ B B2).
      rewrite (built_readouts _ _ B'), !flat_map_app, (noise_no_readout _ N1), (noise_no_readout _ N2).
      simpl. rewrite app_nil_r. apply reads_all in F. now rewrite map_id in F.
    + intros q m1 j (K1 & K2 & K3) _ Hj. dbind Hj. unfold get_inds in E. simpl in E. dbind E.
      injection E as <-. unfold dget_err, of_opt in E0. rewrite K3 in E0.
      destruct (dget q (inds m)) as [z|] eqn:Ez; [|discriminate]. injection E0 as <-.
      simpl in Hj. eapply meas_instr_reads; eauto. repeat split; auto.
  - apply sbind_ok in H as (m1 & d & H1 & H).
    destruct qs as [|q qs]; [|apply sbind_ok in H as (m2 & [] & _ & H); discriminate].
    apply sret_ok in H as [_ <-]. constructor.
Qed.
Lemma C55_lemma m o qs m' c : apply o qs m = (m', Ok c) -> measures o = true ->
  kind m <> Noiseless -> kind m <> Incoming -> Forall2 (readout_for m) qs (readouts c).
Proof.
  intros H Ho K1 K2. unfold apply in H.
  destruct (kind m) eqn:K, o; try discriminate Ho; try congruence;
    first [ eapply measure1_readouts; [| |exact H]; reflexivity
          | eapply measure_decoh_readouts; [|exact H]; reflexivity ].
Qed.
Lemma C55_lemma0 m o qs m' c : apply o qs m = (m', Ok c) -> measures o = true ->
  kind m = Noiseless \/ kind m = Incoming ->
  Forall2 (fun q a => exists g i, dget q (inds m) = Some i /\ a = (g, TQ i, [])) qs (readouts c).
Proof.
  intros H Ho K. 
  assert (G : forall g, is_meas g = true -> measure0 g qs m = (m', Ok c) ->
     Forall2 (fun q a => exists g i, dget q (inds m) = Some i /\ a = (g, TQ i, [])) qs (readouts c)).
  { clear H. intros g Hg H. unfold measure0 in H.
    apply (meas_loop_gen (fun q => q) (fun q m => do is <- get_inds m [q]; mk g (map TQ is) [])
       (fun q j => exists i, dget q (inds m) = Some i /\ j = Instr g [TQ i] []) qs [] []) in H; auto using built_nil.
    - destruct H as [js [F B]]. rewrite (built_readouts _ _ B). simpl. clear B.
      induction F as [|q j qs js (i & Hi & ->) _ IH]; simpl; [constructor|].
      unfold instr_readout; simpl. rewrite Hg. simpl. constructor; eauto.
    - intros q m1 j (K1 & K2 & K3) _ Hj. dbind Hj. unfold get_inds in E. simpl in E. dbind E.
      injection E as <-. unfold dget_err, of_opt in E0. rewrite K3 in E0.
      destruct (dget q (inds m)) as [z|] eqn:Ez; [|discriminate]. injection E0 as <-.
      simpl in Hj. apply mk_good in Hj as [-> Hgd]; [|now destruct g]. split; eauto. }
  unfold apply in H. destruct K as [K|K]; rewrite K in H; destruct o; try discriminate Ho; eapply G; eauto; reflexivity.
Qed.

(** * C56 *)
Lemma place_gate c g is js : is_annotation g = false -> is_noise g = false ->
  Forall noise_instr js -> built c (Instr g (map TQ is) [] :: js) ->
  events c = map Gate (ideal c) ++ map Noise (noise_of c).
Proof.
  intros Ha Hn N B. pose proof (placed c [] [Instr g (map TQ is) []] js B) as P.
  destruct P as [P1 P2]; auto. rewrite P1, P2. reflexivity.
Qed.
Lemma place_idle c js : Forall noise_instr js -> built c js ->
  events c = map Gate (ideal c) ++ map Noise (noise_of c).
Proof.
  intros N B. pose proof (placed c [] [] js B) as P. destruct P as [P1 P2]; auto. rewrite P1, P2. reflexivity.
Qed.
Lemma C56_after m o qs m' c : apply o qs m = (m', Ok c) -> measures o = false ->
  (forall s, kind m <> Decoh s) ->
  events c = map Gate (ideal c) ++ map Noise (noise_of c).
Proof.
  intros H Ho K. unfold apply in H.
  destruct (kind m) as [| |s| | | |] eqn:Ek; try (exfalso; exact (K s eq_refl)); destruct o; try discriminate Ho;
    injection H as <- H; first
    [ discriminate H
    | subst c; reflexivity
    | apply incoming1_shape in H; destruct H as (js & N & B); eapply place_idle; eauto
    | apply gate0_shape in H; [|reflexivity]; destruct H as (is & _ & B & _);
      eapply (place_gate c _ is []); eauto; reflexivity
    | apply gate1_shape in H; [|reflexivity|apply chan1_noisy; reflexivity];
      destruct H as (is & js & _ & _ & N & B); eapply place_gate; eauto; reflexivity
    | apply gate1_shape in H; [|reflexivity|apply bchan1_noisy];
      destruct H as (is & js & _ & _ & N & B); eapply place_gate; eauto; reflexivity
    | apply gate2_shape in H; [|reflexivity|apply chan2_noisy; reflexivity];
      destruct H as (is & qp & ip & js & _ & _ & _ & _ & N & B & _); eapply place_gate; eauto; reflexivity
    | apply gate2_shape in H; [|reflexivity|apply bchan2_noisy];
      destruct H as (is & qp & ip & js & _ & _ & _ & _ & N & B & _); eapply place_gate; eauto; reflexivity
    | apply idle1_shape in H; [|apply chan1_noisy; reflexivity];
      destruct H as (is & js & _ & _ & N & B); eapply place_idle; eauto
    | apply idle1_shape in H; [|apply bchan1_noisy];
      destruct H as (is & js & _ & _ & N & B); eapply place_idle; eauto
    | apply idle_dur_shape in H; destruct H as (is & js & _ & N & B); eapply place_idle; eauto ].
Qed.
Lemma C56_before m o qs m' c : apply o qs m = (m', Ok c) -> measures o = true ->
  (forall s, kind m <> Decoh s) ->
  events c = map Noise (noise_of c) ++ map Gate (ideal c).
Proof.
  intros H Ho K. unfold apply in H.
  assert (G1 : forall e g, is_noise e = true -> is_meas g = true -> measure1 e g qs m = (m', Ok c) ->
     events c = map Noise (noise_of c) ++ map Gate (ideal c)).
  { clear H. intros e g He Hg H. apply measure1_shape in H; auto.
    destruct H as (is & jn & jm & _ & _ & _ & N & F & B).
    destruct (placed c jn jm []) as [P1 P2]; auto.
    - now rewrite app_nil_r.
    - eapply meas_of_gates; eauto.
    - rewrite P1, P2. simpl. now rewrite !app_nil_r. }
  assert (G0 : forall g, is_meas g = true -> measure0 g qs m = (m', Ok c) ->
     events c = map Noise (noise_of c) ++ map Gate (ideal c)).
  { clear H. intros g Hg H. apply measure0_shape in H; auto.
    destruct H as (is & jm & _ & _ & F & B).
    destruct (placed c [] jm []) as [P1 P2]; auto.
    - now rewrite app_nil_r.
    - eapply meas_of_gates; eauto.
    - rewrite P1, P2. simpl. now rewrite !app_nil_r. }
  destruct (kind m) as [| |s| | | |] eqn:Ek; try (exfalso; exact (K s eq_refl)); destruct o; try discriminate Ho;
    first [ eapply G1; [| |exact H]; reflexivity | eapply G0; [|exact H]; reflexivity ].
Qed.
(* the flip channels match the basis *)
Lemma forall2_noise m g p qs l : Forall2 (fun q a => channel_for m g p [q] a) qs l ->
  forall a, In a l -> fst (fst a) = g.
Proof.
  induction 1 as [|q a qs l Ha _ IH]; simpl; [easy|]. intros b [<-|Hb]; auto.
  destruct Ha as (is & v & x & _ & _ & _ & ->). reflexivity.
Qed.
Lemma gate_of_ideal o qs m m' c g : apply o qs m = (m', Ok c) -> gate_of (kind m) o = Some g ->
  is_two g = false -> is_annotation g = false -> forall g' t, In (A1 g' t) (ideal c) -> g' = g.
Proof.
  intros H Hg H2 Ha g' t Hin. apply apply_char in H as [_ [js [B G]]]. rewrite (built_ideal _ _ B) in Hin.
  rewrite Hg in G. destruct G as (is & _ & _ & G & _). rewrite G in Hin. unfold instr_atoms in Hin. cbn [nm tg] in Hin.
  rewrite H2, Ha in Hin. destruct (is_noise g || eqb g GI); [easy|].
  apply in_map_iff in Hin as (t' & [= <- <-] & _). reflexivity.
Qed.
Lemma C56_flips m o qs m' c : apply o qs m = (m', Ok c) -> measures o || prepares o = true ->
  (forall s, kind m <> Decoh s) -> ~ (kind m = Biased /\ o = OMY) ->
  forall n g t, In n (noise_of c) -> In (A1 g t) (ideal c) -> flips (fst (fst n)) g = true.
Proof.
  intros H Ho K Hb n g t Hn Hg.
  assert (E : exists e p g0, gate_of (kind m) o = Some g0 /\ is_two g0 = false /\ is_annotation g0 = false /\     flips e g0 = true /\ (noise_of c = [] \/ Forall2 (fun q a => channel_for m e p [q] a) qs (noise_of c))).
  { destruct (kind m) eqn:Ek.
    - destruct (channel1 o) as [[e p]|] eqn:Ec; [|destruct o; discriminate].
      pose proof (C18_lemma1 _ _ _ _ _ _ _ Ek H Ec) as F.
      destruct o; try discriminate Ho; injection Ec as <- <-;
        eexists; eexists; eexists; (split; [reflexivity|]); (split; [reflexivity|]); (split; [reflexivity|]); (split; [|right; exact F]); reflexivity.
    - destruct (channel1 o) as [[e p]|] eqn:Ec; [|destruct o; discriminate].
      assert (F : Forall2 (fun q a => channel_for m e p [q] a) qs (noise_of c)).
      { apply (C53_lemma3 m o qs m' c e p Ek H Ec).
        - intros ->. destruct o; discriminate.
        - intros ->. apply Hb. split; reflexivity. }
      destruct o; try discriminate Ho; injection Ec as <- <-; try (exfalso; apply Hb; split; reflexivity);
        eexists; eexists; eexists; (split; [reflexivity|]); (split; [reflexivity|]); (split; [reflexivity|]); (split; [|right; exact F]); reflexivity.
    - exfalso; exact (K sym eq_refl).
    - destruct (channel1x o) as [[e p]|] eqn:Ec; [|destruct o; discriminate].
      pose proof (C57_exper1 _ _ _ _ _ _ _ Ek H Ec) as F.
      destruct o; try discriminate Ho; injection Ec as <- <-;
        eexists; eexists; eexists; (split; [reflexivity|]); (split; [reflexivity|]); (split; [reflexivity|]); (split; [|right; exact F]); reflexivity.
    - assert (F : noise_of c = []).
      { destruct (C17_lemma _ _ _ _ _ H) as (m0 & c0 & H0 & H1 & _); [intros [Eb _]; congruence|].
        unfold apply in H, H0. rewrite Ek in H.
        replace (without_duration o) with o in H0 by (destruct o; try reflexivity; discriminate Ho).
        replace (as_noiseless m) with m in H0 by (destruct m; simpl in *; now subst).
        rewrite Ek in H0. rewrite H in H0. injection H0 as <- <-. exact H1. }
      destruct o; try discriminate Ho;
      first [ exists X_ERROR, ""; eexists; split; [reflexivity|]; (split; [reflexivity|]); (split; [reflexivity|]); (split; [|left; exact F]); reflexivity
            | exists Z_ERROR, ""; eexists; split; [reflexivity|]; (split; [reflexivity|]); (split; [reflexivity|]); (split; [|left; exact F]); reflexivity ].
    - assert (F : noise_of c = []).
      { unfold apply in H. rewrite Ek in H. destruct o; try discriminate Ho;
          first [ apply measure0_shape in H; [|reflexivity]; destruct H as (is & jm & _ & _ & F & B);
                  rewrite (built_noise _ _ B); eapply gate_nonoise, meas_of_gates; [|exact F]; reflexivity
                | injection H as <- H; apply gate0_shape in H; [|reflexivity];
                  destruct H as (is & _ & _ & -> & _); reflexivity ]. }
      destruct o; try discriminate Ho;
      first [ exists X_ERROR, ""; eexists; split; [reflexivity|]; (split; [reflexivity|]); (split; [reflexivity|]); (split; [|left; exact F]); reflexivity
            | exists Z_ERROR, ""; eexists; split; [reflexivity|]; (split; [reflexivity|]); (split; [reflexivity|]); (split; [|left; exact F]); reflexivity ].
    - pose proof (C57_phenom _ _ _ _ _ Ek H) as F.
      destruct o; try discriminate Ho; specialize (F ltac:(discriminate)); cbn [channel1x measures] in F;
        first [ exists X_ERROR, "meas_error_prob"; eexists; (split; [reflexivity|]); (split; [reflexivity|]); (split; [reflexivity|]); (split; [|right; exact F]); reflexivity
              | exists Z_ERROR, "meas_error_prob"; eexists; (split; [reflexivity|]); (split; [reflexivity|]); (split; [reflexivity|]); (split; [|right; exact F]); reflexivity
              | exists X_ERROR, ""; eexists; (split; [reflexivity|]); (split; [reflexivity|]); (split; [reflexivity|]); (split; [|left; exact F]); reflexivity
              | exists Z_ERROR, ""; eexists; (split; [reflexivity|]); (split; [reflexivity|]); (split; [reflexivity|]); (split; [|left; exact F]); reflexivity ]. }
  destruct E as (e & p & g0 & E1 & E2 & E3 & E4 & [E5|E5]).
  - rewrite E5 in Hn. easy.
  - rewrite (gate_of_ideal _ _ _ _ _ _ H E1 E2 E3 _ _ Hg), (forall2_noise _ _ _ _ _ E5 _ Hn). exact E4.
Qed.
