(** Proofs about the action of the transversal gates on the logical operators (C72). *)
From Coq Require Import QArith Qcanon Permutation.
From Verif Require Import Base Lib StimM NoiseM SpecNoise NoiseP DetM LayoutM SpecLayout LayoutP LayoutP2 GenM GenP SpecGen GeomP BlockM SpecTrack TrackP
  RoundP RotP RotP2 UnrotP LiftP SpecLog SpecSign LogM LogP LogP2 LogP3 LogP4 LogP5 LogP6 LogP7 LogP8 LogP9 LogP10 LogP11 LogP12 LogP13 RepP7 SignP SignP2 SignP3
  SpecSpan SpanP SpanP2 SpecLogical.
Open Scope Z_scope.
Local Notation on := SpecGen.on.

Lemma on_sym a b : NoDup a -> NoDup b -> xorl (map (on a) b) = xorl (map (on b) a).
Proof.
  intros Na Nb. rewrite <- !odd_xorl. f_equal. apply Permutation_length, NoDup_Permutation; [now apply NoDup_filter|now apply NoDup_filter|].
  intros q. rewrite !filter_In. unfold on. rewrite !mem_In. tauto.
Qed.
Lemma product_cons l g gens q : product l (g :: gens) q = xorb (on (support l g) q) (product l gens q).
Proof. unfold product. rewrite !odd_xorl. cbn [map]. now rewrite xorl_cons. Qed.
Lemma xorl_xorb {A} (f g : A -> bool) l : xorl (map (fun x => xorb (f x) (g x)) l) = xorb (xorl (map f l)) (xorl (map g l)).
Proof. induction l as [|x l IH]; [reflexivity|]. cbn [map]. rewrite !xorl_cons, IH. destruct (f x), (g x), (xorl (map f l)), (xorl (map g l)); reflexivity. Qed.
Lemma product_commutes l gens qs : NoDup qs -> (forall g, In g gens -> NoDup (support l g) /\ commutes (on qs) (support l g)) -> xorl (map (product l gens) qs) = false.
Proof.
  intros N. induction gens as [|g gens IH]; intros H.
  - apply xorl_false. intros b Hb. apply in_map_iff in Hb as (q & <- & _). reflexivity.
  - rewrite (map_ext _ _ (product_cons l g gens)), xorl_xorb, IH by (intros; apply H; now right). destruct (H g (or_introl eq_refl)) as [Ng C].
    apply commutes_xor in C. now rewrite on_sym, C.
Qed.
Lemma weight_one f l (x : string) : NoDup l -> In x l -> f x = true -> (forall y, In y l -> f y = true -> y = x) -> xorl (map f l) = true.
Proof.
  intros N I Fx U. rewrite <- odd_xorl. replace (filter f l) with [x]; [reflexivity|]. revert N I U. induction l as [|y l IH]; intros N I U; [destruct I|].
  inversion N as [|? ? Hn N']; subst. cbn [filter]. destruct (f y) eqn:Fy.
  - assert (y = x) as -> by (apply U; [now left|exact Fy]). f_equal. symmetry. apply filter_all_false. intros z Hz. apply not_true_is_false. intros Fz.
    apply Hn. rewrite <- (U z (or_intror Hz) Fz). exact Hz.
  - destruct I as [->|I]; [congruence|]. apply IH; auto. intros z Hz. apply U. now right.
Qed.
Lemma sum_one (f : string -> Z) l x : NoDup l -> In x l -> (forall y, In y l -> y <> x -> f y = 0) -> sum_of (map f l) = f x.
Proof.
  intros N I U. revert N I U. induction l as [|y l IH]; intros N I U; [destruct I|]. inversion N as [|? ? Hn N']; subst. unfold sum_of in *. cbn [map fold_right].
  destruct I as [->|I].
  - rewrite (sum_ext f (fun _ => 0)); [|intros z Hz; apply U; [now right|intros ->; contradiction]].
    replace (sum_of (map (fun _ => 0) l)) with 0; [lia|]. clear. induction l; [reflexivity|]. unfold sum_of in *. cbn [map fold_right]. lia.
  - rewrite IH; auto; [|intros z Hz; apply U; now right]. rewrite U; [lia|now left|intros ->; contradiction].
Qed.
(* an operator that commutes with the X-type generators but not with log_x is log_z, up to generators *)
Lemma is_logical_z l g data xs zs lx lz M : css_code l g data xs zs lx lz -> complete l data xs zs lx lz ->
  (forall x, In x xs -> commutes M (support l x)) -> xorl (map M lx) = true -> (forall q, ~ In q data -> M q = false) ->
  exists gens, some_of gens zs /\ forall q, M q = times (on lz) (product l gens) q.
Proof.
  intros C K Hc Ha Ho. destruct C. destruct (cp_z _ _ _ _ _ _ K M Hc) as (gens & b & N & I & E). destruct cc_nodup as (N0 & N1 & N2), cc_log as [Il Ilz].
  exists gens. split; [split; assumption|]. assert (b = true) as ->.
  { destruct b; [reflexivity|]. exfalso. rewrite (map_ext_in _ (product l gens)) in Ha.
    - rewrite product_commutes in Ha; [discriminate|exact N1|]. intros z Hz. split; [apply cc_sup; right; now apply I|now apply cc_lxz, I].
    - intros q Hq. rewrite E by now apply Il. apply xorb_false_r. }
  intros q. unfold times. destruct (mem q data) eqn:Mq.
  - apply mem_In in Mq. rewrite E by exact Mq. rewrite andb_true_l. apply xorb_comm.
  - assert (Nq : ~ In q data) by (intros H; apply mem_In in H; congruence). rewrite (Ho q Nq). symmetry.
    replace (on lz q) with false; [|symmetry; apply not_true_is_false; intros H; apply Nq, Ilz; now apply mem_In].
    rewrite xorb_false_l. unfold product. rewrite filter_all_false; [reflexivity|]. intros z Hz. apply not_true_is_false. intros H. apply mem_In in H.
    apply Nq, (proj2 (cc_sup z (or_intror (I z Hz)))). exact H.
Qed.
Lemma is_logical_x l g data xs zs lx lz M : css_code l g data xs zs lx lz -> complete l data xs zs lx lz ->
  (forall z, In z zs -> commutes M (support l z)) -> xorl (map M lz) = true -> (forall q, ~ In q data -> M q = false) ->
  exists gens, some_of gens xs /\ forall q, M q = times (on lx) (product l gens) q.
Proof.
  intros C K Hc Ha Ho. destruct C. destruct (cp_x _ _ _ _ _ _ K M Hc) as (gens & b & N & I & E). destruct cc_nodup as (N0 & N1 & N2), cc_log as [Il Ilz].
  exists gens. split; [split; assumption|]. assert (b = true) as ->.
  { destruct b; [reflexivity|]. exfalso. rewrite (map_ext_in _ (product l gens)) in Ha.
    - rewrite product_commutes in Ha; [discriminate|exact N2|]. intros z Hz. split; [apply cc_sup; left; now apply I|now apply cc_lzx, I].
    - intros q Hq. rewrite E by now apply Ilz. apply xorb_false_r. }
  intros q. unfold times. destruct (mem q data) eqn:Mq.
  - apply mem_In in Mq. rewrite E by exact Mq. rewrite andb_true_l. apply xorb_comm.
  - assert (Nq : ~ In q data) by (intros H; apply mem_In in H; congruence). rewrite (Ho q Nq). symmetry.
    replace (on lx q) with false; [|symmetry; apply not_true_is_false; intros H; apply Nq, Il; now apply mem_In].
    rewrite xorb_false_l. unfold product. rewrite filter_all_false; [reflexivity|]. intros z Hz. apply not_true_is_false. intros H. apply mem_In in H.
    apply Nq, (proj2 (cc_sup z (or_introl (I z Hz)))). exact H.
Qed.

(** * Rows and columns of the unrotated code *)
Section Lines.
  Context (a : gen_args) (l : layout).
  Hypothesis Hx : 1 <= ga_dx a.
  Hypothesis Hz : 1 <= ga_dz a.
  Hypothesis P : planar l unrot_shifts unrot_dirn (ga_pt a) (unrot_ps a).
  Hypothesis Lg : l_logs l = [ga_log a].
  Hypothesis Lz : l_logz l = [(ga_log a, unrot_logz a)].
  Hypothesis Lx : l_logx l = [(ga_log a, unrot_logx a)].
  Notation ps := (unrot_ps a).
  Lemma uplace_logx p : In p ps -> knd p = KD -> on (unrot_logx a) (pl_lab p) = (snd (pos p) =? 0).
  Proof.
    intros Hp K. destruct (ups_pos a p Hp) as [U Kp]. apply eq_true_iff_eq. rewrite (udata_label a p Hp K), ulogx_In, Z.eqb_eq by (auto; congruence). reflexivity.
  Qed.
  Lemma uplace_logz p : In p ps -> knd p = KD -> on (unrot_logz a) (pl_lab p) = (fst (pos p) =? 0).
  Proof.
    intros Hp K. destruct (ups_pos a p Hp) as [U Kp]. apply eq_true_iff_eq. rewrite (udata_label a p Hp K), ulogz_In, Z.eqb_eq by (auto; congruence). reflexivity.
  Qed.
  Lemma ucss : css_code l (ga_log a) (labs ps KD) (labs ps KX) (labs ps KZ) (unrot_logx a) (unrot_logz a).
  Proof.
    apply (css_intro _ _ _ _ _ P); auto using unrot_shifts_nodup.
    - now apply ulogx_nodup.
    - now apply ulogz_nodup.
    - now apply ulogx_data.
    - now apply ulogz_data.
    - now apply unrot_stabs.
    - now apply unrot_lzx.
    - now apply unrot_lxz.
    - unfold commutes, weight. rewrite unrot_shared by assumption. discriminate.
  Qed.
  Lemma urow M r0 : 0 <= r0 < 2 * ga_dx a - 1 -> r0 mod 2 = 0 -> (forall p, In p ps -> knd p = KD -> M (pl_lab p) = (fst (pos p) =? r0)) ->
    (forall q, ~ In q (labs ps KD) -> M q = false) -> exists gens, some_of gens (labs ps KZ) /\ forall q, M q = times (on (unrot_logz a)) (product l gens) q.
  Proof.
    intros B E H O. eapply is_logical_z; [exact ucss|now apply unrot_complete| | |exact O].
    - intros x Ix. apply labs_place in Ix as (p & Hp & K & <-). apply commutes_xor. rewrite (usup_xor a l P M p Hp).
      destruct (ups_pos a p Hp) as [U Kp]. rewrite K in Kp. symmetry in Kp. destruct (pos p) as [r c] eqn:Ep. apply ukind_Xiff in Kp.
      assert (F : forall r c, (r + c) mod 2 = 0 -> fv ps M (r, c) = (0 <=? c) && (c <? 2 * ga_dz a - 1) && (r =? r0)).
      { clear - H O P B Hx. intros r c Ev. destruct (uin_dec a (r, c)) as [U|U].
        - destruct (pos_ups a (r, c) U) as (q & Hq & Kq & Eq). rewrite <- Eq, (fv_at ps _ q (pn_npos _ _ _ _ _ P) Hq).
          apply ukind_Diff in Ev. rewrite Ev in Kq. rewrite (H q Hq Kq), Eq. cbn [fst]. unfold uin in U. cbn [fst snd] in U.
          replace (0 <=? c) with true by lia. replace (c <? 2 * ga_dz a - 1) with true by lia. reflexivity.
        - rewrite (ufv_out a) by exact U. symmetry. apply not_true_is_false. intros T. rewrite !andb_true_iff, Z.leb_le, Z.ltb_lt, Z.eqb_eq in T. apply U. unfold uin. cbn [fst snd]. lia. }
      unfold uin in U. cbn [fst snd] in U. rewrite !F by lia. replace (r + 1 =? r0) with false by lia. replace (r + -1 =? r0) with false by lia.
      rewrite !andb_false_r. replace (0 <=? c + 1) with true by lia. replace (0 <=? c + -1) with true by lia.
      replace (c + 1 <? 2 * ga_dz a - 1) with true by lia. replace (c + -1 <? 2 * ga_dz a - 1) with true by lia. now destruct (r =? r0).
    - assert (U : uin (ga_dx a) (ga_dz a) (r0, 0)) by (unfold uin; cbn [fst snd]; lia). destruct (pos_ups a _ U) as (p & Hp & K & Ep).
      assert (Kd : ukind (r0, 0) = KD) by (apply ukind_Diff; lia). rewrite Kd in K.
      apply (weight_one M _ (pl_lab p)).
      + now apply ulogx_nodup.
      + apply mem_In. change (on (unrot_logx a) (pl_lab p) = true). rewrite uplace_logx, Ep by assumption. reflexivity.
      + rewrite H, Ep by assumption. cbn [fst]. lia.
      + intros y Iy My. pose proof (ulogx_data a Hz y Iy) as Dy. apply labs_place in Dy as (p' & Hp' & K' & <-). rewrite H in My by assumption.
        assert (Iy' : on (unrot_logx a) (pl_lab p') = true) by now apply mem_In. rewrite uplace_logx in Iy' by assumption. f_equal.
        apply (pos_eq _ _ _ _ _ P); auto. rewrite Ep. destruct (pos p'). cbn [fst snd] in *. f_equal; lia.
  Qed.
  Lemma ucolumn M k0 : 0 <= k0 < 2 * ga_dz a - 1 -> k0 mod 2 = 0 -> (forall p, In p ps -> knd p = KD -> M (pl_lab p) = (snd (pos p) =? k0)) ->
    (forall q, ~ In q (labs ps KD) -> M q = false) -> exists gens, some_of gens (labs ps KX) /\ forall q, M q = times (on (unrot_logx a)) (product l gens) q.
  Proof.
    intros B E H O. eapply is_logical_x; [exact ucss|now apply unrot_complete| | |exact O].
    - intros x Ix. apply labs_place in Ix as (p & Hp & K & <-). apply commutes_xor. rewrite (usup_xor a l P M p Hp).
      destruct (ups_pos a p Hp) as [U Kp]. rewrite K in Kp. symmetry in Kp. destruct (pos p) as [r c] eqn:Ep. apply ukind_Ziff in Kp.
      assert (F : forall r c, (r + c) mod 2 = 0 -> fv ps M (r, c) = (0 <=? r) && (r <? 2 * ga_dx a - 1) && (c =? k0)).
      { clear - H O P B Hx. intros r c Ev. destruct (uin_dec a (r, c)) as [U|U].
        - destruct (pos_ups a (r, c) U) as (q & Hq & Kq & Eq). rewrite <- Eq, (fv_at ps _ q (pn_npos _ _ _ _ _ P) Hq).
          apply ukind_Diff in Ev. rewrite Ev in Kq. rewrite (H q Hq Kq), Eq. cbn [snd]. unfold uin in U. cbn [fst snd] in U.
          replace (0 <=? r) with true by lia. replace (r <? 2 * ga_dx a - 1) with true by lia. reflexivity.
        - rewrite (ufv_out a) by exact U. symmetry. apply not_true_is_false. intros T. rewrite !andb_true_iff, Z.leb_le, Z.ltb_lt, Z.eqb_eq in T. apply U. unfold uin. cbn [fst snd]. lia. }
      unfold uin in U. cbn [fst snd] in U. rewrite !F by lia. replace (c + 1 =? k0) with false by lia. replace (c + -1 =? k0) with false by lia.
      rewrite !andb_false_r. replace (0 <=? r + 1) with true by lia. replace (0 <=? r + -1) with true by lia.
      replace (r + 1 <? 2 * ga_dx a - 1) with true by lia. replace (r + -1 <? 2 * ga_dx a - 1) with true by lia. now destruct (c =? k0).
    - assert (U : uin (ga_dx a) (ga_dz a) (0, k0)) by (unfold uin; cbn [fst snd]; lia). destruct (pos_ups a _ U) as (p & Hp & K & Ep).
      assert (Kd : ukind (0, k0) = KD) by (apply ukind_Diff; lia). rewrite Kd in K.
      apply (weight_one M _ (pl_lab p)).
      + now apply ulogz_nodup.
      + apply mem_In. change (on (unrot_logz a) (pl_lab p) = true). rewrite uplace_logz, Ep by assumption. reflexivity.
      + rewrite H, Ep by assumption. cbn [snd]. lia.
      + intros y Iy My. pose proof (ulogz_data a Hx y Iy) as Dy. apply labs_place in Dy as (p' & Hp' & K' & <-). rewrite H in My by assumption.
        assert (Iy' : on (unrot_logz a) (pl_lab p') = true) by now apply mem_In. rewrite uplace_logz in Iy' by assumption. f_equal.
        apply (pos_eq _ _ _ _ _ P); auto. rewrite Ep. destruct (pos p'). cbn [fst snd] in *. f_equal; lia.
  Qed.
End Lines.

(** * S and H of the unrotated code *)
Lemma s_op_x data pf loc X (M : string -> bool) :
  (forall q, M q = xorb (match pf q with Some b => X b | None => false end) (mem q data && is_s (loc q) && X q)) ->
  peq (s_op data pf loc (Pauli X M)) (Pauli X nothing).
Proof. intros E q. split; [reflexivity|]. cbn [s_op px pz]. rewrite E. apply xorb_nilpotent. Qed.
Lemma s_op_z data pf loc Z : peq (s_op data pf loc (Pauli nothing Z)) (Pauli nothing Z).
Proof. intros q. split; [reflexivity|]. cbn [s_op px pz]. unfold nothing. rewrite andb_false_r. destruct (pf q); apply xorb_false_r. Qed.
Lemma h_op_z data pf X (M : string -> bool) : pairing data pf -> (forall q, ~ In q data -> X q = false) ->
  (forall q, M q = mem q data && X (odef q (pf q))) ->
  peq (h_op data pf (Pauli nothing M)) (Pauli X nothing) /\ peq (h_op data pf (Pauli M nothing)) (Pauli nothing X).
Proof.
  intros Hp O E. assert (K : forall q, mem q data = true -> M (odef q (pf q)) = X q).
  { intros q Mq. rewrite E. destruct (pf q) as [b|] eqn:Pq; cbn [odef].
    - destruct (Hp q b Pq) as (_ & Ib & Pb & _). rewrite Pb. cbn [odef]. now rewrite (proj2 (mem_In b _) Ib).
    - now rewrite Mq, Pq. }
  assert (K' : forall q, mem q data = false -> M (odef q (pf q)) = false /\ X q = false).
  { intros q Mq. split; [|apply O; intros I; apply mem_In in I; congruence]. destruct (pf q) as [b|] eqn:Pq; cbn [odef].
    - destruct (Hp q b Pq) as (I & _). apply mem_In in I. congruence.
    - rewrite E, Mq. reflexivity. }
  split; intros q; unfold h_op, had; cbn [px pz]; unfold nothing; destruct (mem q data) eqn:Mq; split; auto; try (symmetry; now apply K'); now apply K'.
Qed.
Section Unrot.
  Context (ord : nat -> list string -> list string) (ordp : nat -> list (string * string) -> list (string * string)).
  Hypothesis Hord : forall n s, Permutation (ord n s) s.
  Hypothesis Hordp : forall n s, Permutation (ordp n s) s.
  Context (a : gen_args) (l0 l l1 l2 : layout) (dq : string) (w w' : world) (c : circuit).
  Hypothesis A1 : annotated structure l0 l.
  Hypothesis W : SpecNoise.wf_inds (inds (fst w)).
  Hypothesis G : unrot_surface_code_rectangle a = Ok l0.
  Notation ps := (unrot_ps a).
  Lemma uwhole : planar l0 unrot_shifts unrot_dirn (ga_pt a) ps /\ l_logs l0 = [ga_log a] /\ l_logz l0 = [(ga_log a, unrot_logz a)] /\ l_logx l0 = [(ga_log a, unrot_logx a)].
  Proof.
    destruct (unrot_sizes _ _ G) as [Sx Sz]. destruct (unrot_planar a Sx Sz) as (l' & r & E & _ & _ & P & Lg & Lz & Lx & _). assert (l' = l0) as -> by congruence. auto.
  Qed.
  Lemma uoperators : operators l0 (ga_log a) (labs ps KX) (labs ps KZ) (unrot_logx a) (unrot_logz a).
  Proof.
    destruct uwhole as (P & Lg & Lz & Lx). unfold operators. rewrite Lz, Lx. cbn. rewrite !eqb_refl. repeat split; auto; apply P.
  Qed.
  Lemma usize q : In q (labs ps KD) -> 1 <= ga_dx a /\ 1 <= ga_dz a.
  Proof. intros H. apply labs_place in H as (p & Hp & _ & _). destruct (ups_pos a p Hp) as [U _]. unfold uin in U. lia. Qed.
  Section Mirror.
    Context (c0 e : Z * Z).
    Hypothesis E1 : fst e = 1 \/ fst e = -1.
    Hypothesis E2 : snd e = 1 \/ snd e = -1.
    Hypothesis Kc : ukind c0 = KD.
    Hypothesis Sx : 1 <= ga_dx a.
    Hypothesis Sz : 1 <= ga_dz a.
    Hypothesis Hm : forall p, In p ps -> knd p = KD -> exists p', In p' ps /\ knd p' = KD /\ pos p' = mirror c0 e (pos p).
    Definition mrow : Z := fst c0 - fst e * snd e * snd c0.
    Definition mcol : Z := snd c0 - fst e * snd e * fst c0.
    Lemma mirror_row rc : (snd (mirror c0 e rc) =? 0) = (fst rc =? mrow).
    Proof. apply eq_true_iff_eq. rewrite !Z.eqb_eq. unfold mirror, mrow. cbn [snd]. destruct E1 as [-> | ->], E2 as [-> | ->]; lia. Qed.
    Lemma mirror_col rc : (fst (mirror c0 e rc) =? 0) = (snd rc =? mcol).
    Proof. apply eq_true_iff_eq. rewrite !Z.eqb_eq. unfold mirror, mcol. cbn [fst]. destruct E1 as [-> | ->], E2 as [-> | ->]; lia. Qed.
    Lemma mirror_box : 0 <= mrow < 2 * ga_dx a - 1 /\ mrow mod 2 = 0 /\ 0 <= mcol < 2 * ga_dz a - 1 /\ mcol mod 2 = 0.
    Proof.
      destruct (pos_ups a (0, 0)) as (p & Hp & K & Ep); [unfold uin; cbn [fst snd]; lia|]. change (ukind (0, 0)) with KD in K.
      destruct (Hm p Hp K) as (p' & Hp' & K' & Ep'). destruct (ups_pos a p' Hp') as [U _]. rewrite Ep', Ep in U. unfold uin, mirror in U. cbn [fst snd] in U.
      assert (Ev : (fst c0 + snd c0) mod 2 = 0) by (destruct c0; now apply ukind_Diff in Kc). unfold mrow, mcol.
      destruct E1 as [F1|F1], E2 as [F2|F2]; rewrite F1, F2 in *; lia.
    Qed.
  End Mirror.
  Lemma C72_s_unrot_lemma : set_trans_s_unrot l dq = Ok l1 ->
    annotated (("trans-s_" ++ ga_log a) :: structure)%string l1 l2 -> log_trans_s ord ordp l2 w = (w', Ok c) ->
    exists xs zs lx lz gens, operators l0 (ga_log a) xs zs lx lz /\ some_of gens zs /\
      becomes (inds (fst w)) c 0 nothing (on lz) 0 nothing (on lz) /\
      becomes (inds (fst w)) c 0 (on lx) nothing 1 (on lx) (times (on lz) (product l0 gens)).
  Proof.
    intros S B H. destruct (unrot_after _ _ _ G (annotated_touched _ _ _ A1)) as (P & Hlog & Hc & Hx & Hz & An & Cs).
    destruct (unrot_s_facts a l l1 l2 dq P Hlog Hc Hx Hz (annotated_touched _ _ _ B) S) as
      (c0 & e & tab & cz & s & nd & E1 & E2 & Kc & Sq & Et & Ec & Es & Hp & El & En & A & At & Sh).
    pose proof (partner_at a l P c0 e E1 E2 Kc tab Et cz Ec) as Pa.
    assert (Sz : 1 <= ga_dx a /\ 1 <= ga_dz a).
    { pose proof S as S'. unfold set_trans_s_unrot in S'. apply bind_ok in S' as [[] [F _]]. apply fold_data in F as (data & Ed & Id & _).
      rewrite (pn_data _ _ _ _ _ P) in Ed. injection Ed as <-. exact (usize _ Id). }
    destruct Sz as [Sx Sz]. destruct uwhole as (P0 & Lg & Lz & Lx).
    destruct (mirror_box c0 e E1 E2 Kc Sx Sz) as (B1 & B2 & _); [intros p Hp' K; destruct (Pa p Hp' K) as (p' & ? & ? & ? & _); eauto|].
    pose (M := fun q => xorb (match czf cz (labs ps KD) q with Some b => on (unrot_logx a) b | None => false end) (mem q (labs ps KD) && is_s (sf s q) && on (unrot_logx a) q)).
    assert (Czf : forall p, In p ps -> knd p = KD -> exists p', In p' ps /\ knd p' = KD /\ pos p' = mirror c0 e (pos p) /\
      czf cz (labs ps KD) (pl_lab p) = (if eqb (pl_lab p') (pl_lab p) then None else Some (pl_lab p'))).
    { intros p Hp' K. destruct (Pa p Hp' K) as (p' & I' & K' & E' & D). exists p'. do 3 (split; [assumption|]). unfold czf.
      rewrite (proj2 (mem_In _ (labs ps KD))) by (apply labs_place; eauto). now rewrite D. }
    assert (Fix : forall y, along c0 e y = across c0 e y <-> mirror c0 e y = y).
    { intros [y1 y2]. unfold along, across, mirror. cbn [fst snd]. split.
      - intros Q. destruct E1 as [F1|F1], E2 as [F2|F2]; rewrite F1, F2 in *; f_equal; lia.
      - intros Q. pose proof (f_equal fst Q) as Q1. pose proof (f_equal snd Q) as Q2. cbn [fst snd] in Q1, Q2. destruct E1 as [F1|F1], E2 as [F2|F2]; rewrite F1, F2 in *; lia. }
    assert (Loc : forall p, In p ps -> sf s (pl_lab p) = if along c0 e (pos p) =? across c0 e (pos p) then dgate (along c0 e (pos p)) else "I").
    { intros p Hp'. apply (loc_at a l P Hz Sq c0 e E1 E2 tab Et s Es). now apply (labat_lab _ _ _ _ _ P). }
    destruct (urow a l0 Sx Sz P0 Lg Lz Lx M (mrow c0 e) B1 B2) as (gens & Sg & Eg).
    { intros p Hp' K. rewrite <- mirror_row by assumption. destruct (Czf p Hp' K) as (p' & I' & K' & E' & D). unfold M. rewrite D, Loc by assumption.
      rewrite (proj2 (mem_In _ (labs ps KD))) by (apply labs_place; eauto). cbn [andb].
      destruct (eqb_spec (pl_lab p') (pl_lab p)) as [Eq|Ne].
      - assert (p' = p) as -> by (now apply (lab_eq _ _ _ _ _ P)). rewrite <- E'. rewrite xorb_false_l, uplace_logx by assumption.
        replace (along c0 e (pos p) =? across c0 e (pos p)) with true by (symmetry; apply Z.eqb_eq, Fix; congruence).
        unfold dgate. destruct (Z.even _); reflexivity.
      - rewrite uplace_logx, E' by assumption. destruct (Z.eqb_spec (along c0 e (pos p)) (across c0 e (pos p))) as [Q|Q].
        + exfalso. apply Ne. f_equal. apply (pos_eq _ _ _ _ _ P); auto. rewrite E'. now apply Fix.
        + apply xorb_false_r. }
    { intros q Hq. unfold M, czf. now rewrite mem_not by exact Hq. }
    exists (labs ps KX), (labs ps KZ), (unrot_logx a), (unrot_logz a), gens. split; [exact uoperators|]. split; [exact Sg|].
    assert (T : touched structure l l2) by (eapply after_all'; [eapply s_unrot_touched; exact S|exact B]).
    assert (Sign : forall k X Z0, exists R, sback (lg_blocks (trans_s_blocks ord ordp l2)) (k, Pauli X Z0) = Some (k + s_phase (labs ps KD) (czf cz (labs ps KD)) (sf s) X, R)).
    { intros k X Z0. apply (trans_s_sign ord ordp Hord Hordp l2 (labs ps KD) (ga_log a) (czf cz (labs ps KD)) (sf s)); auto.
      - rewrite (touched_role _ _ _ T (incl_refl _)). apply P.
      - apply (kind_nodup _ _ _ _ _ P).
      - unfold trans_code_ok. destruct (touched_fields _ _ _ T) as (-> & _). now rewrite Hc. }
    split.
    - eapply (label_becomes "trans-s_" trans_s_blocks l2); [exact Hord|exact Hordp|exact El|exact A|exact W|exact H|apply s_op_z|apply Sign|].
      unfold nothing. now rewrite s_phase_none.
    - eapply becomes_ext; [reflexivity|reflexivity|reflexivity|exact Eg|].
      eapply (label_becomes "trans-s_" trans_s_blocks l2); [exact Hord|exact Hordp|exact El|exact A|exact W|exact H|now apply s_op_x|apply Sign|].
      assert (U : uin (ga_dx a) (ga_dz a) (mrow c0 e, 0)) by (unfold uin; cbn [fst snd]; lia). destruct (pos_ups a _ U) as (p & Ip & K & Ep).
      assert (Kd : ukind (mrow c0 e, 0) = KD) by (apply ukind_Diff; lia). rewrite Kd in K.
      assert (Term : forall p, In p ps -> knd p = KD -> on (unrot_logx a) (pl_lab p) = true ->
        s_term (czf cz (labs ps KD)) (sf s) (on (unrot_logx a)) (pl_lab p) = if fst (pos p) =? mrow c0 e then (if Z.even (along c0 e (pos p)) then -1 else 1) else 0).
      { clear p Ip K Ep. intros p Ip K O. rewrite uplace_logx in O by assumption. unfold s_term. destruct (Czf p Ip K) as (p' & I' & K' & E' & ->). rewrite Loc by assumption.
        pose proof (mirror_row c0 e E1 E2 (pos p)) as Mr. rewrite <- E' in Mr.
        destruct (Z.eqb_spec (fst (pos p)) (mrow c0 e)) as [Q|Q].
        - assert (p' = p) as ->.
          { apply (pos_eq _ _ _ _ _ P); auto. rewrite E'. destruct (pos p) as [r k]. cbn [fst snd] in *. unfold mirror, mrow in *. cbn [fst snd]. clear - E1 E2 Q O.
            apply Z.eqb_eq in O. destruct E1 as [F1|F1], E2 as [F2|F2]; rewrite F1, F2 in *; f_equal; lia. }
          rewrite eqb_refl. replace (along c0 e (pos p) =? across c0 e (pos p)) with true by (symmetry; apply Z.eqb_eq, Fix; congruence).
          unfold dgate. destruct (Z.even _); reflexivity.
        - destruct (eqb_spec (pl_lab p') (pl_lab p)) as [Eq|Ne].
          + assert (p' = p) as -> by (now apply (lab_eq _ _ _ _ _ P)). exfalso. rewrite O in Mr. discriminate Mr.
          + rewrite uplace_logx by assumption. rewrite Mr. destruct (Z.eqb_spec (along c0 e (pos p)) (across c0 e (pos p))) as [Q'|Q']; [|reflexivity].
            exfalso. apply Ne. f_equal. apply (pos_eq _ _ _ _ _ P); auto. rewrite E'. now apply Fix. }
      assert (Op : on (unrot_logx a) (pl_lab p) = true) by (rewrite uplace_logx, Ep by assumption; reflexivity).
      unfold s_phase. rewrite (sum_one _ _ (pl_lab p)).
      + rewrite (Term p Ip K Op), Ep. cbn [fst]. rewrite Z.eqb_refl.
        replace (Z.even (along c0 e (mrow c0 e, 0))) with true; [reflexivity|]. symmetry. apply Z.even_spec.
        pose proof (dg_box a l P Hz Sq c0 e E1 tab Et s Es 0 ltac:(lia)) as D0. pose proof (dg_box a l P Hz Sq c0 e E1 tab Et s Es (2 * ga_dx a - 2) ltac:(lia)) as D1.
        unfold uin, dg, padd, pscale in D0, D1. cbn [fst snd] in D0, D1. rewrite Sq in *. unfold along, mrow in *. cbn [fst] in *.
        clear - D0 D1 E1 E2.
        assert (snd c0 = 0 \/ snd c0 = 2 * (ga_dx a - 1)) as Q by (destruct E1 as [F1|F1], E2 as [F2|F2]; rewrite F1, F2 in *; lia).
        exists (- (snd c0 / 2) * snd e). destruct E1 as [F1|F1], E2 as [F2|F2]; rewrite F1, F2 in *; lia.
      + apply NoDup_filter, (kind_nodup _ _ _ _ _ P).
      + apply filter_In. split; [apply labs_place; eauto|exact Op].
      + intros y Iy Ne. apply filter_In in Iy as [Iy Oy]. apply labs_place in Iy as (p' & Ip' & K' & <-). rewrite (Term p' Ip' K' Oy).
        destruct (Z.eqb_spec (fst (pos p')) (mrow c0 e)) as [Q|Q]; [|reflexivity]. exfalso. apply Ne. f_equal. apply (pos_eq _ _ _ _ _ P); auto.
        rewrite uplace_logx in Oy by assumption. rewrite Ep. destruct (pos p'). cbn [fst snd] in *. f_equal; lia.
  Qed.
  Lemma C72_h_lemma : set_trans_h l dq = Ok l1 ->
    annotated (("trans-h_" ++ ga_log a) :: structure)%string l1 l2 -> log_trans_h ord ordp l2 w = (w', Ok c) ->
    exists xs zs lx lz gz gx, operators l0 (ga_log a) xs zs lx lz /\ some_of gz zs /\ some_of gx xs /\
      becomes (inds (fst w)) c 0 (on lx) nothing 0 nothing (times (on lz) (product l0 gz)) /\
      becomes (inds (fst w)) c 0 nothing (on lz) 0 (times (on lx) (product l0 gx)) nothing.
  Proof.
    intros S B H. destruct (unrot_after _ _ _ G (annotated_touched _ _ _ A1)) as (P & Hlog & Hc & Hx & Hz & An & Cs).
    destruct (unrot_h_labels_at a l l1 l2 dq P Hlog Hc S (annotated_touched _ _ _ B)) as (pf & nd & Hp & El & En & A & Rd & Hc3 & At & Sh & c0 & e & E1 & E2 & Kc & Pa).
    assert (Sz : 1 <= ga_dx a /\ 1 <= ga_dz a).
    { pose proof S as S'. unfold set_trans_h in S'. apply bind_ok in S' as [[] [F _]]. apply fold_data in F as (data & Ed & Id & _).
      rewrite (pn_data _ _ _ _ _ P) in Ed. injection Ed as <-. exact (usize _ Id). }
    destruct Sz as [Sx Sz]. destruct uwhole as (P0 & Lg & Lz & Lx).
    destruct (mirror_box c0 e E1 E2 Kc Sx Sz) as (B1 & B2 & B3 & B4); [intros p Hp' K; destruct (Pa p Hp' K) as (p' & ? & ? & ? & _); eauto|].
    pose (M := fun f q => mem q (labs ps KD) && on f (odef q (pf q))).
    assert (Out : forall f q, ~ In q (labs ps KD) -> M f q = false) by (intros f q Hq; unfold M; now rewrite mem_not).
    assert (In_ : forall p, In p ps -> knd p = KD -> mem (pl_lab p) (labs ps KD) = true) by (intros p Hp' K; apply mem_In, labs_place; eauto).
    destruct (urow a l0 Sx Sz P0 Lg Lz Lx (M (unrot_logx a)) (mrow c0 e) B1 B2) as (gz & Sg & Eg); [|apply Out|].
    { intros p Hp' K. rewrite <- mirror_row by assumption. destruct (Pa p Hp' K) as (p' & I' & K' & E' & D). unfold M. rewrite D, In_, <- E' by assumption. now apply uplace_logx. }
    destruct (ucolumn a l0 Sx Sz P0 Lg Lz Lx (M (unrot_logz a)) (mcol c0 e) B3 B4) as (gx & Sg' & Eg'); [|apply Out|].
    { intros p Hp' K. rewrite <- mirror_col by assumption. destruct (Pa p Hp' K) as (p' & I' & K' & E' & D). unfold M. rewrite D, In_, <- E' by assumption. now apply uplace_logz. }
    exists (labs ps KX), (labs ps KZ), (unrot_logx a), (unrot_logz a), gz, gx. split; [exact uoperators|]. split; [exact Sg|]. split; [exact Sg'|].
    assert (Sign : forall X Z0, (forall q : string, X q && Z0 q = false) -> exists R, sback (lg_blocks (trans_h_blocks ord ordp l2)) (0, Pauli X Z0) = Some (0, R)).
    { intros X Z0 O. eapply (trans_h_sign ord ordp Hord Hordp l2 (labs ps KD) (ga_log a) pf (fun _ => "H")); auto. rewrite Hc3. reflexivity. }
    assert (Dx : forall q, ~ In q (labs ps KD) -> on (unrot_logx a) q = false) by (intros q Hq; apply mem_not; intros I; now apply Hq, ulogx_data).
    assert (Dz : forall q, ~ In q (labs ps KD) -> on (unrot_logz a) q = false) by (intros q Hq; apply mem_not; intros I; now apply Hq, ulogz_data).
    split.
    - eapply becomes_ext; [reflexivity|reflexivity|reflexivity|exact Eg|].
      eapply (label_becomes "trans-h_" trans_h_blocks l2); [exact Hord|exact Hordp|exact El|exact A|exact W|exact H| |now apply Sign|reflexivity].
      now apply (h_op_z _ _ _ _ Hp Dx).
    - eapply becomes_ext; [reflexivity|reflexivity|exact Eg'|reflexivity|].
      eapply (label_becomes "trans-h_" trans_h_blocks l2); [exact Hord|exact Hordp|exact El|exact A|exact W|exact H| |apply Sign; intros q; apply andb_false_r|reflexivity].
      now apply (h_op_z _ _ _ _ Hp Dz).
  Qed.
End Unrot.

(** * S of the rotated code *)
Section Rot.
  Context (ord : nat -> list string -> list string) (ordp : nat -> list (string * string) -> list (string * string)).
  Hypothesis Hord : forall n s, Permutation (ord n s) s.
  Hypothesis Hordp : forall n s, Permutation (ordp n s) s.
  Context (a : gen_args) (l0 l l1 l2 : layout) (dq : string) (w w' : world) (c : circuit).
  Hypothesis A1 : annotated structure l0 l.
  Hypothesis W : SpecNoise.wf_inds (inds (fst w)).
  Hypothesis G : rot_surface_code_rectangle a = Ok l0.
  Notation ps := (rot_ps a).
  Lemma rwhole : planar l0 rot_shifts rot_dirn (rot_pt a) ps /\ l_logs l0 = [ga_log a] /\ l_logz l0 = [(ga_log a, rot_logz a)] /\ l_logx l0 = [(ga_log a, rot_logx a)].
  Proof.
    destruct (rot_sizes _ _ G) as [Sx Sz]. destruct (rot_planar a Sx Sz) as (l' & r & E & _ & _ & P & Lg & Lz & Lx & _). assert (l' = l0) as -> by congruence. auto.
  Qed.
  Lemma roperators : operators l0 (ga_log a) (labs ps KX) (labs ps KZ) (rot_logx a) (rot_logz a).
  Proof.
    destruct rwhole as (P & Lg & Lz & Lx). unfold operators. rewrite Lz, Lx. cbn. rewrite !eqb_refl. repeat split; auto; apply P.
  Qed.
  Lemma rplace_logx p : In p ps -> knd p = KD -> on (rot_logx a) (pl_lab p) = (snd (pos p) =? 1).
  Proof using.
    clear. intros Hp K. pose proof (ps_kpos a p Hp) as D. rewrite K in D. cbn [kpos] in D. apply eq_true_iff_eq. rewrite (data_label a p Hp K), logx_In, Z.eqb_eq by (unfold dpos in *; cbn [fst snd] in *; lia). reflexivity.
  Qed.
  Lemma rplace_logz p : In p ps -> knd p = KD -> on (rot_logz a) (pl_lab p) = (fst (pos p) =? 1).
  Proof using.
    clear. intros Hp K. pose proof (ps_kpos a p Hp) as D. rewrite K in D. cbn [kpos] in D. apply eq_true_iff_eq. rewrite (data_label a p Hp K), logz_In, Z.eqb_eq by (unfold dpos in *; cbn [fst snd] in *; lia). reflexivity.
  Qed.
  Lemma C72_s_rot_lemma : set_trans_s_rot l dq = Ok l1 ->
    annotated (("trans-s_" ++ ga_log a) :: structure)%string l1 l2 -> log_trans_s ord ordp l2 w = (w', Ok c) ->
    exists xs zs lx lz, operators l0 (ga_log a) xs zs lx lz /\
      becomes (inds (fst w)) c 0 nothing (on lz) 0 nothing (on lz) /\
      becomes (inds (fst w)) c 0 (on lx) nothing 1 (on lx) (on lz).
  Proof.
    intros S B H. destruct (rot_big a l0 l l1 dq A1 G S) as [Bx _].
    destruct (rot_after _ _ _ G (annotated_touched _ _ _ A1)) as (P & Hlog & Hc & Hx & Hz & An & Cs).
    destruct (rot_s_labels_at ord Hord a l l1 l2 dq P Hlog Hc Hx Hz S (annotated_touched _ _ _ B)) as (pf & loc & nd & Hp & El & En & A & At & Sh & Pl & _).
    pose proof Pl as [Dz Pl'].
    assert (Cell : forall q, In q (labs ps KD) -> exists i j, cell a i j = Some q /\ 0 <= i < ga_dx a /\ 0 <= j < ga_dx a + 1).
    { intros q Hq. apply labs_place in Hq as (p & Hp' & Kp & <-). pose proof (ps_kpos a p Hp') as K. rewrite Kp in K. cbn [kpos] in K. unfold dpos in K.
      exists (fst (pos p) / 2), (snd (pos p) / 2). split; [|lia]. unfold cell.
      replace (2 * (fst (pos p) / 2) + 1, 2 * (snd (pos p) / 2) + 1) with (pos p); [now apply (labat_lab _ _ _ _ _ P)|].
      rewrite (surjective_pairing (pos p)) at 1. f_equal; lia. }
    assert (Onx : forall i j q, cell a i j = Some q -> on (rot_logx a) q = (j =? 0) /\ on (rot_logz a) q = (i =? 0) /\ In q (labs ps KD)).
    { intros i j q E. apply (labat_some _ _ _ _ _ P) in E as (p & Hp' & Ep & <-).
      assert (K : knd p = KD). { pose proof (ps_kpos a p Hp') as K. rewrite Ep in K. destruct (knd p); [reflexivity| |]; cbn [kpos] in K; unfold xpos, zpos in K; cbn [fst snd] in K; lia. }
      rewrite rplace_logx, rplace_logz, Ep by assumption. cbn [fst snd]. split; [|split; [|apply labs_place; eauto]]; apply eq_true_iff_eq; rewrite !Z.eqb_eq; lia. }
    assert (Dx : forall q, ~ In q (labs ps KD) -> on (rot_logx a) q = false) by (intros q Hq; apply mem_not; intros I; apply Hq, logx_data; [lia|exact I]).
    assert (Dzz : forall q, ~ In q (labs ps KD) -> on (rot_logz a) q = false) by (intros q Hq; apply mem_not; intros I; apply Hq, logz_data; [lia|exact I]).
    assert (Far : forall i j q, 0 <= i -> 0 <= j -> cell a i j = Some q -> match pf q with Some b => on (rot_logx a) b | None => false end = (i =? 0) && (1 <=? j)).
    { intros i j q I J E. destruct (Pl' i j q I J E) as [-> _]. assert (R : 0 <= i < ga_dx a /\ 0 <= j < ga_dx a + 1) by (apply (cell_some a l pf loc P Pl); eauto).
      destruct (cell a (fst (other (i, j))) (snd (other (i, j)))) as [b|] eqn:Eb.
      - destruct (Onx _ _ _ Eb) as [-> _]. unfold other. cbn [fst snd]. destruct (Z.leb_spec j i); cbn [fst snd]; lia.
      - symmetry. apply not_true_is_false. intros T. assert (i = 0 /\ 1 <= j) as [-> J1] by lia.
        assert (N : ~ exists b, cell a (fst (other (0, j))) (snd (other (0, j))) = Some b) by (intros [b Q]; congruence).
        apply N, (cell_some a l pf loc P Pl). unfold other. cbn [fst snd]. replace (j <=? 0) with false by lia. cbn [fst snd]. lia. }
    exists (labs ps KX), (labs ps KZ), (rot_logx a), (rot_logz a). split; [exact roperators|].
    assert (T : touched structure l l2) by (eapply after_all'; [eapply s_rot_touched; exact S|exact B]).
    assert (Sign : forall k X Z0, exists R, sback (lg_blocks (trans_s_blocks ord ordp l2)) (k, Pauli X Z0) = Some (k + s_phase (labs ps KD) pf loc X, R)).
    { intros k X Z0. apply (trans_s_sign ord ordp Hord Hordp l2 (labs ps KD) (ga_log a) pf loc); auto.
      - rewrite (touched_role _ _ _ T (incl_refl _)). apply P.
      - apply (kind_nodup _ _ _ _ _ P).
      - unfold trans_code_ok. destruct (touched_fields _ _ _ T) as (-> & _). now rewrite Hc. }
    split.
    - eapply (label_becomes "trans-s_" trans_s_blocks l2); [exact Hord|exact Hordp|exact El|exact A|exact W|exact H|apply s_op_z|apply Sign|].
      unfold nothing. now rewrite s_phase_none.
    - eapply (label_becomes "trans-s_" trans_s_blocks l2); [exact Hord|exact Hordp|exact El|exact A|exact W|exact H| |apply Sign|].
      + apply s_op_x. intros q. destruct (mem q (labs ps KD)) eqn:Mq.
        * apply mem_In in Mq. destruct (Cell q Mq) as (i & j & E & I & J). rewrite (Far i j q) by (assumption || lia). destruct (Onx i j q E) as (-> & -> & _).
          destruct (Pl' i j q ltac:(lia) ltac:(lia) E) as [_ ->]. cbn [andb]. destruct (Z.eqb_spec j 0) as [->|Nj].
          -- destruct (Z.eqb_spec i 0) as [->|Ni]; [reflexivity|]. cbn [andb]. replace (0 =? i + 1) with false by lia. reflexivity.
          -- rewrite andb_false_r, xorb_false_r. replace (1 <=? j) with true by lia. symmetry. apply andb_true_r.
        * assert (Nq : ~ In q (labs ps KD)) by (intros I; apply mem_In in I; congruence). rewrite (Dzz q Nq). cbn [andb].
          destruct (pf q) as [b|] eqn:Pq; [|reflexivity]. destruct (Hp q b Pq) as [I _]. contradiction.
      + destruct (proj2 (cell_some a l pf loc P Pl 0 0) ltac:(lia)) as [q0 E0]. destruct (Onx 0 0 q0 E0) as (O0 & _ & I0).
        unfold s_phase. rewrite (sum_one _ _ q0).
        * unfold s_term. rewrite (Far 0 0 q0) by (assumption || lia). destruct (Pl' 0 0 q0 ltac:(lia) ltac:(lia) E0) as [_ ->]. reflexivity.
        * apply NoDup_filter, (kind_nodup _ _ _ _ _ P).
        * apply filter_In. auto.
        * intros y Iy Ne. apply filter_In in Iy as [Iy Oy]. destruct (Cell y Iy) as (i & j & E & I & J). destruct (Onx i j y E) as (O & _ & _).
          rewrite Oy in O. assert (j = 0) as -> by lia. assert (i <> 0) by (intros ->; congruence).
          unfold s_term. rewrite (Far i 0 y) by (assumption || lia). destruct (Pl' i 0 y ltac:(lia) ltac:(lia) E) as [_ ->].
          replace (i =? 0) with false by lia. replace (0 =? i + 1) with false by lia. reflexivity.
  Qed.
End Rot.

(** * CNOT *)
Section Two.
  Context (ord : nat -> list string -> list string) (ordp : nat -> list (string * string) -> list (string * string)).
  Hypothesis Hordp : forall n s, Permutation (ordp n s) s.
  Context (a a' : gen_args) (lc0 lc lc1 lc2 lt0 lt lt1 lt2 : layout) (monos : list (dict string string)) (w w' : world) (c : circuit).
  Hypothesis Ac : annotated structure lc0 lc.
  Hypothesis At : annotated structure lt0 lt.
  Hypothesis Hm : Forall (monomorphism lc lt) monos.
  Let gate := ("trans-cnot_" ++ ga_log a ++ "_" ++ ga_log a')%string.
  Hypothesis Ac2 : annotated (gate :: structure) lc1 lc2.
  Hypothesis At2 : annotated (gate :: structure) lt1 lt2.
  Hypothesis W : SpecNoise.wf_inds (inds (fst w)).
  Hypothesis H : log_trans_cnot ord ordp lc2 lt2 w = (w', Ok c).
  Definition cnot_action lxc lzc lxt lzt : Prop :=
    becomes (inds (fst w)) c 0 (on lxc) nothing 0 (times (on lxc) (on lxt)) nothing /\
    becomes (inds (fst w)) c 0 nothing (on lzc) 0 nothing (on lzc) /\
    becomes (inds (fst w)) c 0 (on lxt) nothing 0 (on lxt) nothing /\
    becomes (inds (fst w)) c 0 nothing (on lzt) 0 nothing (times (on lzc) (on lzt)).
  Lemma cnot_acts pc pt fw bw lxc lzc lxt lzt :
    run_blocks (trans_cnot_blocks ord ordp lc2 lt2) (fst w) = (fst w', Ok c) -> ok_blocks (trans_cnot_blocks ord ordp lc2 lt2) ->
    (forall P, bk (lg_blocks (trans_cnot_blocks ord ordp lc2 lt2)) (fun _ => false) P (cnot_op (labs pc KD) (labs pt KD) fw bw P)) -> matches pc pt fw bw ->
    incl lxc (labs pc KD) -> incl lzc (labs pc KD) -> incl lxt (labs pt KD) -> incl lzt (labs pt KD) ->
    (forall p p', In p pc -> In p' pt -> pos p' = pos p -> knd p = KD -> knd p' = KD -> on lxc (pl_lab p) = on lxt (pl_lab p') /\ on lzc (pl_lab p) = on lzt (pl_lab p')) ->
    cnot_action lxc lzc lxt lzt.
  Proof.
    intros R O Bk (FP & BP & Dis) I1 I2 I3 I4 E.
    assert (Of : forall q, In q (labs pc KD) -> In (fw q) (labs pt KD) /\ bw (fw q) = q).
    { intros q I. apply labs_place in I as (y & Hy & K & <-). destruct (FP y Hy) as (y' & Hy' & _ & K' & -> & E'). split; [|exact E'].
      apply labs_place. exists y'. split; [exact Hy'|]. split; [congruence|reflexivity]. }
    assert (Obw : forall q, In q (labs pt KD) -> In (bw q) (labs pc KD) /\ fw (bw q) = q).
    { intros q I. apply labs_place in I as (y' & Hy' & K & <-). destruct (BP y' Hy') as (y & Hy & _ & K' & E' & ->). split; [|exact E'].
      apply labs_place. exists y. split; [exact Hy|]. split; [congruence|reflexivity]. }
    assert (Od : forall q, In q (labs pc KD) -> ~ In q (labs pt KD)).
    { intros q I I'. apply labs_place in I as (y & Hy & K & <-). apply labs_place in I' as (y' & Hy' & _ & E'). symmetry in E'. now apply (Dis y y' Hy Hy'). }
    assert (Out : forall f data q, incl f data -> ~ In q data -> on f q = false) by (intros f data q If Hq; apply mem_not; auto).
    assert (Ab : forall q, In q (labs pc KD) -> on lxc q = on lxt (fw q) /\ on lzc q = on lzt (fw q)).
    { intros q I. apply labs_place in I as (y & Hy & K & <-). destruct (FP y Hy) as (y' & Hy' & Ep & K' & -> & _). apply E; congruence. }
    assert (Go : forall xs zs xs' zs', peq (cnot_op (labs pc KD) (labs pt KD) fw bw (Pauli xs' zs')) (Pauli xs zs) -> becomes (inds (fst w)) c 0 xs zs 0 xs' zs').
    { intros xs zs xs' zs' Q. eapply blocks_becomes; [exact R|exact O|exact W| |apply trans_cnot_sign|reflexivity]. eapply turns_intro; eauto. }
    unfold cnot_action. split; [|split; [|split]]; apply Go.
    - apply op_xc'; auto; try (intros q; apply Out; assumption). intros q I; now apply Ab.
    - apply (op_zc _ _ _ _ (on lzc) (on lzt)); auto; try (intros q; apply Out; assumption). intros q I; now apply Ab.
    - apply (op_xt _ _ _ _ (on lxc) (on lxt)); auto; try (intros q; apply Out; assumption). intros q I; now apply Ab.
    - apply op_zt'; auto; try (intros q; apply Out; assumption). intros q I; now apply Ab.
  Qed.
  Lemma C72_cnot_rot_lemma : rot_surface_code_rectangle a = Ok lc0 -> rot_surface_code_rectangle a' = Ok lt0 -> 1 <= ga_dx a -> 1 <= ga_dz a ->
    set_trans_cnot_rot monos lc lt = Ok (lc1, lt1) ->
    exists xc zc lxc lzc xt zt lxt lzt, operators lc0 (ga_log a) xc zc lxc lzc /\ operators lt0 (ga_log a') xt zt lxt lzt /\ cnot_action lxc lzc lxt lzt.
  Proof.
    intros G G' D1 D2 S. destruct (rot_after _ _ _ G (annotated_touched _ _ _ Ac)) as (P & Hlog & Hc & Hx & Hz & An & Cs).
    destruct (rot_after _ _ _ G' (annotated_touched _ _ _ At)) as (P' & Hlog' & Hc' & Hx' & Hz' & An' & Cs').
    destruct (cnot_sizes lc lc1 lt lt1 monos _ S) as [Sx Sz].
    assert (It : map pl_item (rot_ps a) = map pl_item (rot_ps a')).
    { unfold rot_ps. rewrite !place_items. congruence. }
    destruct (cnot_facts ord ordp Hordp lc lt lc1 lt1 lc2 lt2 _ _ _ _ _ _ _ P P' rot_shifts_nodup It "rotated_surface_code" monos (ga_log a) (ga_log a')
      (or_introl eq_refl) Hm Hlog Hlog' S (annotated_touched _ _ _ Ac2) (annotated_touched _ _ _ At2) w w' c W H) as (nc & nt & fw & bw & E1 & E2 & U & I & K & R & O & Bk & Ma).
    exists (labs (rot_ps a) KX), (labs (rot_ps a) KZ), (rot_logx a), (rot_logz a), (labs (rot_ps a') KX), (labs (rot_ps a') KZ), (rot_logx a'), (rot_logz a').
    split; [now apply roperators|]. split; [now apply roperators|].
    eapply cnot_acts; eauto; try (now apply logx_data + now apply logz_data).
    - apply logx_data. lia.
    - apply logz_data. lia.
    - intros p p' Ip Ip' Ep Kp Kp'. rewrite !rplace_logx, !rplace_logz, Ep by assumption. auto.
  Qed.
  Lemma C72_cnot_unrot_lemma : unrot_surface_code_rectangle a = Ok lc0 -> unrot_surface_code_rectangle a' = Ok lt0 -> 1 <= ga_dx a -> 1 <= ga_dz a ->
    set_trans_cnot_unrot monos lc lt = Ok (lc1, lt1) ->
    exists xc zc lxc lzc xt zt lxt lzt, operators lc0 (ga_log a) xc zc lxc lzc /\ operators lt0 (ga_log a') xt zt lxt lzt /\ cnot_action lxc lzc lxt lzt.
  Proof.
    intros G G' D1 D2 S. destruct (unrot_after _ _ _ G (annotated_touched _ _ _ Ac)) as (P & Hlog & Hc & Hx & Hz & An & Cs).
    destruct (unrot_after _ _ _ G' (annotated_touched _ _ _ At)) as (P' & Hlog' & Hc' & Hx' & Hz' & An' & Cs').
    destruct (cnot_sizes lc lc1 lt lt1 monos _ S) as [Sx Sz].
    assert (It : map pl_item (unrot_ps a) = map pl_item (unrot_ps a')).
    { unfold unrot_ps. rewrite !place_items. congruence. }
    destruct (cnot_facts ord ordp Hordp lc lt lc1 lt1 lc2 lt2 _ _ _ _ _ _ _ P P' unrot_shifts_nodup It "unrotated_surface_code" monos (ga_log a) (ga_log a')
      (or_intror eq_refl) Hm Hlog Hlog' S (annotated_touched _ _ _ Ac2) (annotated_touched _ _ _ At2) w w' c W H) as (nc & nt & fw & bw & E1 & E2 & U & I & K & R & O & Bk & Ma).
    exists (labs (unrot_ps a) KX), (labs (unrot_ps a) KZ), (unrot_logx a), (unrot_logz a), (labs (unrot_ps a') KX), (labs (unrot_ps a') KZ), (unrot_logx a'), (unrot_logz a').
    split; [now apply uoperators|]. split; [now apply uoperators|].
    eapply cnot_acts; eauto; try (now apply ulogx_data + now apply ulogz_data).
    - apply ulogx_data. lia.
    - apply ulogz_data. lia.
    - intros p p' Ip Ip' Ep Kp Kp'. rewrite !uplace_logx, !uplace_logz, Ep by (assumption || lia). auto.
  Qed.
End Two.
