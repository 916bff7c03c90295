(** Repeated S and H experiments on the generated layouts. *)
From Coq Require Import QArith Qcanon.
From Verif Require Import Base Lib StimM SetupM NoiseM SpecNoise NoiseP LayoutM SpecLayout LayoutP LayoutP2 DetM GenM GenP SpecGen GeomP RotP RotP2 UnrotP
  BlockM LogM SpecLog ExpM SpecTrack SpecExp TrackP ActP RoundP RoundTopP ExpP9 RepP5 RepP6 LogP LogP2 LogP4 LogP5 LogP6 LogP7 LogP12 LogP13.
Open Scope Z_scope.
Local Opaque rot_ps unrot_ps.

Lemma touched_code keep l l' g data xs zs lx lz : touched keep l l' -> incl structure keep -> css_code l g data xs zs lx lz -> css_code l' g data xs zs lx lz.
Proof.
  intros T K C. destruct (touched_fields _ _ _ T) as (_ & F2 & _ & _ & F5 & F6 & _).
  assert (S : forall a, support l' a = support l a) by (intros a; unfold support; now rewrite (touched_nbrs _ _ _ T)).
  destruct C as [C1 C2 C3 C4 C5 C6 C7 C8 C9 C10 C11 C12 C13 C14]. constructor; auto.
  - now rewrite (touched_role _ _ _ T K).
  - now rewrite (touched_stabs _ _ _ T K).
  - now rewrite (touched_stabs _ _ _ T K).
  - now rewrite (touched_role _ _ _ T K).
  - now rewrite F2.
  - now rewrite F6.
  - now rewrite F5.
  - intros a Ha. rewrite S. auto.
  - intros x z Hx Hz. rewrite !S. auto.
  - intros x Hx. rewrite S. auto.
  - intros z Hz. rewrite S. auto.
Qed.
Lemma gens_ext st st' v : (forall a, st a = st' a) -> peq (gens st v) (gens st' v).
Proof.
  intros E q. cbn [gens px pz]. unfold prod_x, prod_z. split; f_equal; f_equal; apply filter_ext; intros a; now rewrite E.
Qed.
Lemma label_act_ext bl st st' ancs op nd : (forall p q, peq p q -> peq (op p) (op q)) -> (forall a, st a = st' a) -> label_act bl st ancs op nd -> label_act bl st' ancs op nd.
Proof.
  intros O E [A B C D]. constructor; auto. intros a v H. destruct (D a v H) as [E1 E2]. split.
  - eapply peq_trans; [apply O, peq_sym, gens_ext, E|]. eapply peq_trans; [exact E1|now apply gens_ext].
  - eapply peq_trans; [apply O, peq_sym, gens_ext, E|]. eapply peq_trans; [exact E2|now apply gens_ext].
Qed.
Lemma h_op_swaps data pf : pairing data pf -> forall p : pauli string, (forall q, ~ In q data -> px p q = false /\ pz p q = false) ->
  ((forall q, px p q = false) -> forall q, pz (h_op data pf p) q = false) /\ ((forall q, pz p q = false) -> forall q, px (h_op data pf p) q = false).
Proof.
  intros H p Z. split; intros X q; unfold h_op, had; cbn [px pz]; destruct (mem q data) eqn:M; auto.
  - destruct (pf q) eqn:E; cbn [odef]; [apply H in E as (E & _); apply mem_In in E; congruence|]. apply Z. intros Hi. apply mem_In in Hi. congruence.
  - destruct (pf q) eqn:E; cbn [odef]; [apply H in E as (E & _); apply mem_In in E; congruence|]. apply Z. intros Hi. apply mem_In in Hi. congruence.
Qed.

(** * The attribute of a gate *)
Lemma s_new g : ~ In ("trans-s_" ++ g)%string structure.
Proof. cbn. intuition discriminate. Qed.
Lemma h_new g : ~ In ("trans-h_" ++ g)%string structure.
Proof. cbn. intuition discriminate. Qed.
Lemma s_end_touched cz s both fixed l g l1 : trans_s_end cz s both fixed l ("trans-s_" ++ g) = Ok l1 -> touched structure l l1.
Proof.
  unfold trans_s_end. intros H. do 4 apply bind_ok in H as (? & _ & H). apply bind_ok in H as (l' & H1 & H). apply bind_ok in H as (? & _ & H).
  eapply touched_trans; [eapply set_params_ok; [apply s_new|exact H1]|eapply set_params_ok; [apply s_new|exact H]].
Qed.
Lemma s_rot_touched l dq l1 : set_trans_s_rot l dq = Ok l1 -> touched structure l l1.
Proof.
  unfold set_trans_s_rot, gate_s. intros H. do 2 apply bind_ok in H as (? & _ & H). apply bind_ok in H as (g & Eg & H). apply bind_ok in Eg as (g' & _ & Eg). injection Eg as <-.
  apply bind_ok in H as ([[ax p] h] & _ & H). cbv zeta in H. do 2 apply bind_ok in H as (? & _ & H). apply bind_ok in H as ([s e] & _ & H). now apply s_end_touched in H.
Qed.
Lemma s_unrot_touched l dq l1 : set_trans_s_unrot l dq = Ok l1 -> touched structure l l1.
Proof.
  unfold set_trans_s_unrot, gate_s. intros H. do 2 apply bind_ok in H as (? & _ & H). apply bind_ok in H as (g & Eg & H). apply bind_ok in Eg as (g' & _ & Eg). injection Eg as <-.
  apply bind_ok in H as ([[ax p] h] & _ & H). do 3 apply bind_ok in H as (? & _ & H). now apply s_end_touched in H.
Qed.
Lemma h_touched l dq l1 : set_trans_h l dq = Ok l1 -> touched structure l l1.
Proof.
  unfold set_trans_h, gate_h. intros H. do 3 apply bind_ok in H as (? & _ & H). apply bind_ok in H as (g & Eg & H). apply bind_ok in Eg as (g' & _ & Eg). injection Eg as <-.
  apply bind_ok in H as ([[ax p] h] & _ & H). do 2 apply bind_ok in H as (? & _ & H). apply bind_ok in H as (l' & H1 & H). apply bind_ok in H as (? & _ & H).
  eapply touched_trans; [eapply set_params_ok; [apply h_new|exact H1]|eapply set_params_ok; [apply h_new|exact H]].
Qed.

Section Generated.
  Context (ordt : nat -> nat -> list string -> list string) (ordp : nat -> nat -> list (string * string) -> list (string * string)).
  Hypothesis Hp : forall t n s, Permutation (ordt t n s) s.
  Hypothesis Hpp : forall t n s, Permutation (ordp t n s) s.
  Context (a : gen_args) (l0 l l1 l2 : layout) (dq : string).
  Hypothesis A1 : annotated structure l0 l.
  Context (n R : Z) (di : dict string Z) (rot reset : bool) (dets : option (list string)) (w w' : world) (c : circuit).
  Hypothesis W : SpecNoise.wf_inds (inds (fst w)).
  Hypothesis N : NoDup (labels (snd w)).
  Hypothesis Fr : dfr (snd w) <> GateIndep.
  Lemma after_all gate : touched structure l l1 -> annotated (gate :: structure) l1 l2 -> touched structure l0 l2.
  Proof.
    intros T B. eapply touched_trans; [apply (annotated_touched _ _ _ A1)|]. eapply touched_trans; [exact T|].
    eapply touched_incl; [|apply (annotated_touched _ _ _ B)]. intros x Hx. now right.
  Qed.
  Section Rot.
    Hypothesis G : rot_surface_code_rectangle a = Ok l0.
    Hypothesis S : set_trans_s_rot l dq = Ok l1.
    Hypothesis B : annotated (("trans-s_" ++ ga_log a) :: structure)%string l1 l2.
    Hypothesis Hx : 1 <= ga_dx a.
    Hypothesis Hz : 1 <= ga_dz a.
    Lemma rot_repeated it : (forall t, exists g, round_of l2 (css l2) (it (ordt t) l2) (ancs (rot_ps a)) g) ->
      repeated_with ordt it (fun t => log_trans_s (ordt t) (ordp t)) false l2 n R di rot reset dets false w = (w', Ok c) -> all_deterministic c.
    Proof.
      intros Hr H. pose proof (after_all _ (s_rot_touched _ _ _ S) B) as T.
      destruct (rot_after _ _ _ G (annotated_touched _ _ _ A1)) as (P & Hlog & Hc & Edx & Edz & _ & Cs).
      destruct (rot_after _ _ _ G T) as (P2 & _ & _ & _ & _ & _ & Cs2).
      destruct (rot_code a) as (l' & data & xs & zs & lx & lz & E1 & cc & _); [lia|lia|]. rewrite G in E1. injection E1 as <-.
      apply (touched_code _ _ _ _ _ _ _ _ _ T (incl_refl _)) in cc. pose proof (planar_facts _ _ _ _ _ _ _ _ _ _ _ P2 cc) as F.
      assert (Ed : data = labs (rot_ps a) KD) by (pose proof (cc_data _ _ _ _ _ _ _ cc) as E; rewrite (pn_data _ _ _ _ _ P2) in E; now injection E).
      destruct (rot_s_labels (ordt 0%nat) (Hp 0%nat) a l l1 l2 dq P Hlog Hc Edx Edz S (annotated_touched _ _ _ B)) as (pf & loc & nd & Hpf & El & End & LA).
      rewrite <- Ed in *. pose proof (s_op_good data pf loc Hpf) as GO.
      eapply (rep_css ordt ordp Hp Hpp l2 (ancs (rot_ps a)) data xs zs lx lz F it Hr trans_s_blocks "trans-s_" (ga_log a) nd (s_op data pf loc) false El End);
        [|exact GO|intros ? ?; apply RepP5.trans_s_quiet|discriminate|exact W|exact N|exact Fr|exact H].
      eapply label_act_ext; [apply GO| |exact LA]. intros x. now rewrite Cs, Cs2.
    Qed.
  End Rot.
  Section Unrot.
    Hypothesis G : unrot_surface_code_rectangle a = Ok l0.
    Hypothesis Hx : 1 <= ga_dx a.
    Hypothesis Hz : 1 <= ga_dz a.
    Context (it : (nat -> list string -> list string) -> layout -> bool -> blocks).
    Hypothesis Hr : forall t, exists g, round_of l2 (css l2) (it (ordt t) l2) (ancs (unrot_ps a)) g.
    Lemma unrot_repeated_s : set_trans_s_unrot l dq = Ok l1 -> annotated (("trans-s_" ++ ga_log a) :: structure)%string l1 l2 ->
      repeated_with ordt it (fun t => log_trans_s (ordt t) (ordp t)) false l2 n R di rot reset dets false w = (w', Ok c) -> all_deterministic c.
    Proof.
      intros S B H. pose proof (after_all _ (s_unrot_touched _ _ _ S) B) as T.
      destruct (unrot_after _ _ _ G (annotated_touched _ _ _ A1)) as (P & Hlog & Hc & Edx & Edz & _ & Cs).
      destruct (unrot_after _ _ _ G T) as (P2 & _ & _ & _ & _ & _ & Cs2).
      destruct (unrot_code a) as (l' & data & xs & zs & lx & lz & E1 & cc & _); [lia|lia|]. rewrite G in E1. injection E1 as <-.
      apply (touched_code _ _ _ _ _ _ _ _ _ T (incl_refl _)) in cc. pose proof (planar_facts _ _ _ _ _ _ _ _ _ _ _ P2 cc) as F.
      assert (Ed : data = labs (unrot_ps a) KD) by (pose proof (cc_data _ _ _ _ _ _ _ cc) as E; rewrite (pn_data _ _ _ _ _ P2) in E; now injection E).
      destruct (unrot_s_labels a l l1 l2 dq P Hlog Hc S (annotated_touched _ _ _ B)) as (pf & loc & nd & Hpf & El & End & LA).
      rewrite <- Ed in *. pose proof (s_op_good data pf loc Hpf) as GO.
      eapply (rep_css ordt ordp Hp Hpp l2 (ancs (unrot_ps a)) data xs zs lx lz F it Hr trans_s_blocks "trans-s_" (ga_log a) nd (s_op data pf loc) false El End);
        [|exact GO|intros ? ?; apply RepP5.trans_s_quiet|discriminate|exact W|exact N|exact Fr|exact H].
      eapply label_act_ext; [apply GO| |exact LA]. intros x. now rewrite Cs, Cs2.
    Qed.
    Lemma unrot_repeated_h : set_trans_h l dq = Ok l1 -> annotated (("trans-h_" ++ ga_log a) :: structure)%string l1 l2 ->
      repeated_with ordt it (fun t => log_trans_h (ordt t) (ordp t)) true l2 n R di rot reset dets false w = (w', Ok c) -> all_deterministic c.
    Proof.
      intros S B H. pose proof (after_all _ (h_touched _ _ _ S) B) as T.
      destruct (unrot_after _ _ _ G (annotated_touched _ _ _ A1)) as (P & Hlog & Hc & Edx & Edz & _ & Cs).
      destruct (unrot_after _ _ _ G T) as (P2 & _ & _ & _ & _ & _ & Cs2).
      destruct (unrot_code a) as (l' & data & xs & zs & lx & lz & E1 & cc & _); [lia|lia|]. rewrite G in E1. injection E1 as <-.
      apply (touched_code _ _ _ _ _ _ _ _ _ T (incl_refl _)) in cc. pose proof (planar_facts _ _ _ _ _ _ _ _ _ _ _ P2 cc) as F.
      assert (Ed : data = labs (unrot_ps a) KD) by (pose proof (cc_data _ _ _ _ _ _ _ cc) as E; rewrite (pn_data _ _ _ _ _ P2) in E; now injection E).
      destruct (unrot_h_labels a l l1 l2 dq P Hlog Hc S (annotated_touched _ _ _ B)) as (pf & nd & Hpf & El & End & LA).
      rewrite <- Ed in *. pose proof (h_op_good data pf Hpf) as GO.
      eapply (rep_css ordt ordp Hp Hpp l2 (ancs (unrot_ps a)) data xs zs lx lz F it Hr trans_h_blocks "trans-h_" (ga_log a) nd (h_op data pf) true El End);
        [|exact GO|intros ? ?; apply RepP5.trans_h_quiet|intros _; now apply h_op_swaps|exact W|exact N|exact Fr|exact H].
      eapply label_act_ext; [apply GO| |exact LA]. intros x. now rewrite Cs, Cs2.
    Qed.
  End Unrot.
  Lemma order_after shape gate : touched structure l l1 -> annotated (gate :: structure) l1 l2 -> l_order l0 = shape -> l_order l2 = shape.
  Proof. intros T B <-. now destruct (touched_fields _ _ _ (after_all _ T B)) as (_ & _ & _ & _ & _ & _ & _ & _ & ->). Qed.

  Lemma rot_big : rot_surface_code_rectangle a = Ok l0 -> set_trans_s_rot l dq = Ok l1 -> 1 <= ga_dx a /\ 2 <= ga_dz a.
  Proof.
    intros G S. destruct (rot_after _ _ _ G (annotated_touched _ _ _ A1)) as (P & _ & _ & Edx & Edz & _).
    unfold set_trans_s_rot in S. apply bind_ok in S as ([] & F & _). apply fold_data in F as (data & Ed & Id & _ & Es).
    rewrite (pn_data _ _ _ _ _ P) in Ed. injection Ed as <-. apply labs_place in Id as (d & Hd & Kd & _). apply (proj1 (eqb_eq (l_dz l) (l_dx l + 1))) in Es. rewrite Edx, Edz in Es.
    pose proof (ps_kpos a d Hd) as K. rewrite Kd in K. cbn [kpos] in K. unfold dpos in K. lia.
  Qed.
  Lemma unrot_big code sizes ax p v : unrot_surface_code_rectangle a = Ok l0 -> fold_checks l code sizes dq = Ok tt -> fold_line l dq = Ok (ax, p, v) -> sizes = eqb (l_dz l) (l_dx l) ->
    1 <= ga_dx a /\ 2 <= ga_dz a.
  Proof.
    intros G F L E. destruct (unrot_after _ _ _ G (annotated_touched _ _ _ A1)) as (P & _ & _ & Edx & Edz & _).
    apply fold_data in F as (data & Ed & Id & _ & Es). rewrite Es in E. symmetry in E. apply (proj1 (eqb_eq (l_dz l) (l_dx l))) in E. rewrite Edx, Edz in E.
    rewrite (pn_data _ _ _ _ _ P) in Ed. injection Ed as <-. apply labs_place in Id as (d & Hd & Kd & <-).
    destruct (fold_line_ok _ _ _ _ _ P d ax p v Hd L) as (pa & pz & ph & s1 & s2 & Ha & Hz & Hh & S1 & S2 & Ka & Kz & _).
    destruct (ups_pos _ _ Ha) as [U K]. pose proof (ukind_spec (pos pa)) as X. rewrite <- K, Ka in X. unfold uin in U. lia.
  Qed.
  Lemma unrot_s_big : unrot_surface_code_rectangle a = Ok l0 -> set_trans_s_unrot l dq = Ok l1 -> 1 <= ga_dx a /\ 2 <= ga_dz a.
  Proof.
    intros G S. unfold set_trans_s_unrot in S. apply bind_ok in S as ([] & F & S). do 2 apply bind_ok in S as (? & _ & S). apply bind_ok in S as ([[ax p] v] & L & _).
    eapply unrot_big; eauto.
  Qed.
  Lemma unrot_h_big : unrot_surface_code_rectangle a = Ok l0 -> set_trans_h l dq = Ok l1 -> 1 <= ga_dx a /\ 2 <= ga_dz a.
  Proof.
    intros G S. unfold set_trans_h in S. apply bind_ok in S as ([] & F & S). do 3 apply bind_ok in S as (? & _ & S). apply bind_ok in S as ([[ax p] v] & L & _).
    eapply unrot_big; eauto.
  Qed.

  Lemma C66_rot_lemma : rot_surface_code_rectangle a = Ok l0 -> set_trans_s_rot l dq = Ok l1 -> annotated (("trans-s_" ++ ga_log a) :: structure)%string l1 l2 ->
    repeated_s_rot_css ordt ordp l2 n R di rot reset dets false w = (w', Ok c) -> all_deterministic c.
  Proof.
    intros G S B H. destruct (rot_big G S) as [Hx Hz]. eapply rot_repeated; try eassumption; [lia|]. intros t.
    destruct (rot_after _ _ _ G (after_all _ (s_rot_touched _ _ _ S) B)) as (P & _ & Hc & _).
    apply rot_css_round_at; auto. eapply order_after; eauto using s_rot_touched.
    destruct (rot_planar a) as (l' & r & E' & K); [lia|lia|]. rewrite G in E'. injection E' as <-. apply K.
  Qed.
  Lemma C66_pipe_lemma : rot_surface_code_rectangle a = Ok l0 -> set_trans_s_rot l dq = Ok l1 -> annotated (("trans-s_" ++ ga_log a) :: structure)%string l1 l2 ->
    repeated_s_css_pipelined ordt ordp l2 n R di rot reset dets false w = (w', Ok c) -> all_deterministic c.
  Proof.
    intros G S B H. destruct (rot_big G S) as [Hx Hz]. eapply rot_repeated; try eassumption; [lia|]. intros t.
    destruct (rot_after _ _ _ G (after_all _ (s_rot_touched _ _ _ S) B)) as (P & _ & Hc & _).
    apply rot_css_pipe_at; auto; [lia|]. eapply order_after; eauto using s_rot_touched.
    destruct (rot_planar a) as (l' & r & E' & K); [lia|lia|]. rewrite G in E'. injection E' as <-. apply K.
  Qed.
  Lemma C66_unrot_s_lemma : unrot_surface_code_rectangle a = Ok l0 -> set_trans_s_unrot l dq = Ok l1 -> annotated (("trans-s_" ++ ga_log a) :: structure)%string l1 l2 ->
    repeated_s_unrot_css ordt ordp l2 n R di rot reset dets false w = (w', Ok c) -> all_deterministic c.
  Proof.
    intros G S B H. destruct (unrot_s_big G S) as [Hx Hz]. eapply unrot_repeated_s; try eassumption; [lia|]. intros t.
    destruct (unrot_after _ _ _ G (after_all _ (s_unrot_touched _ _ _ S) B)) as (P & _ & Hc & _).
    apply unrot_css_round_at; auto. eapply order_after; eauto using s_unrot_touched.
    destruct (unrot_planar a) as (l' & r & E' & K); [lia|lia|]. rewrite G in E'. injection E' as <-. apply K.
  Qed.
  Lemma C66_unrot_h_lemma : unrot_surface_code_rectangle a = Ok l0 -> set_trans_h l dq = Ok l1 -> annotated (("trans-h_" ++ ga_log a) :: structure)%string l1 l2 ->
    repeated_h_unrot_css ordt ordp l2 n R di rot reset dets false w = (w', Ok c) -> all_deterministic c.
  Proof.
    intros G S B H. destruct (unrot_h_big G S) as [Hx Hz]. eapply unrot_repeated_h; try eassumption; [lia|]. intros t.
    destruct (unrot_after _ _ _ G (after_all _ (h_touched _ _ _ S) B)) as (P & _ & Hc & _).
    apply unrot_css_round_at; auto. eapply order_after; eauto using h_touched.
    destruct (unrot_planar a) as (l' & r & E' & K); [lia|lia|]. rewrite G in E'. injection E' as <-. apply K.
  Qed.
End Generated.
