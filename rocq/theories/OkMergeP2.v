(** The rounds and the measurements of two layouts of the same size have the same form. *)
From Coq Require Import QArith Qcanon.
From Verif Require Import Base Lib StimM SetupM NoiseM SpecNoise NoiseP LayoutM SpecLayout LayoutP LayoutP2 DetM DetP GenM GenP SpecGen GeomP RotP RotP2 UnrotP BlockM ExpM MergeM SpecTrack TrackP ActP RoundP OneP CnotP7 SpecOk OkP OkP2 OkP3 OkP4 OkMergeP.
Open Scope Z_scope.

Section Form.
  Context (l l' : layout) (shifts : list (Z * Z)) (dirn : Z * Z -> string) (pt pt' : Qc * Qc) (ps ps' : list placed).
  Hypothesis P : planar l shifts dirn pt ps.
  Hypothesis P' : planar l' shifts dirn pt' ps'.
  Hypothesis It : map pl_item ps = map pl_item ps'.
  Hypothesis Ho : l_order l = rot_order \/ l_order l = unrot_order.
  Hypothesis Eo : l_order l = l_order l'.
  Context (ord ord' : nat -> list string -> list string).
  Hypothesis Hp : forall k s, Permutation (ord k s) s.
  Hypothesis Hp' : forall k s, Permutation (ord' k s) s.

  Lemma partner p : In p ps -> exists p', In p' ps' /\ pl_item p' = pl_item p.
  Proof. intros H. apply (in_map pl_item) in H. rewrite It in H. apply in_map_iff in H as (p' & E & H). eauto. Qed.
  Lemma partner' p' : In p' ps' -> exists p, In p ps /\ pl_item p = pl_item p'.
  Proof. intros H. apply (in_map pl_item) in H. rewrite <- It in H. apply in_map_iff in H as (p & E & H). eauto. Qed.
  Lemma same_pos p p' : pl_item p' = pl_item p -> pos p' = pos p /\ knd p' = knd p.
  Proof. unfold pos, knd. intros ->. auto. Qed.
  (* the same places of the two layouts *)
  Record eqv (S S' : list string) : Prop := {
    ev_in : incl S (map pl_lab ps); ev_in' : incl S' (map pl_lab ps');
    ev_iff : forall p p', In p ps -> In p' ps' -> pl_item p' = pl_item p -> (In (pl_lab p) S <-> In (pl_lab p') S') }.
  Lemma eqv_nil S S' : eqv S S' -> (S = [] <-> S' = []).
  Proof.
    intros [I I' E]. split; intros ->.
    - destruct S' as [|q S']; [reflexivity|]. exfalso. pose proof (I' q (or_introl eq_refl)) as H. apply in_map_iff in H as (p' & <- & H). destruct (partner' p' H) as (p & Hp0 & Ep).
      apply (E p p' Hp0 H (eq_sym Ep)). now left.
    - destruct S as [|q S]; [reflexivity|]. exfalso. pose proof (I q (or_introl eq_refl)) as H. apply in_map_iff in H as (p & <- & H). destruct (partner p H) as (p' & Hp0 & Ep).
      apply (E p p' H Hp0 Ep). now left.
  Qed.
  Lemma in_labs f p (Q : list placed) : NoDup (map pl_lab Q) -> In p Q -> In (pl_lab p) (map pl_lab (filter f Q)) <-> f p = true.
  Proof.
    intros N H. rewrite in_map_iff. split.
    - intros (q & E & Hq). apply filter_In in Hq as [Hq F]. assert (q = p); [|now subst]. clear -N H Hq E.
      induction Q as [|x Q IH]; [destruct H|]. cbn in N. inversion N as [|? ? N1 N2]; subst. destruct H as [->|H], Hq as [->|Hq]; auto.
      + exfalso. apply N1. rewrite <- E. now apply in_map.
      + exfalso. apply N1. rewrite E. now apply in_map.
    - intros F. exists p. split; [reflexivity|]. now apply filter_In.
  Qed.
  Lemma eqv_filter f : (forall p p', pl_item p' = pl_item p -> f p = f p') -> eqv (map pl_lab (filter f ps)) (map pl_lab (filter f ps')).
  Proof.
    intros Hf. split.
    - intros q H. apply in_map_iff in H as (p & <- & H). apply filter_In in H as [H _]. now apply in_map.
    - intros q H. apply in_map_iff in H as (p & <- & H). apply filter_In in H as [H _]. now apply in_map.
    - intros p p' H H' E. rewrite (in_labs f p ps (pn_nlab _ _ _ _ _ P) H), (in_labs f p' ps' (pn_nlab _ _ _ _ _ P') H'). now rewrite (Hf p p' E).
  Qed.
  Lemma eqv_kind k : eqv (labs ps k) (labs ps' k).
  Proof. apply eqv_filter. intros p p' E. destruct (same_pos p p' E) as [_ K]. unfold isk. now rewrite K. Qed.
  Lemma eqv_anc : eqv (ancs ps) (ancs ps').
  Proof. apply eqv_filter. intros p p' E. destruct (same_pos p p' E) as [_ K]. unfold isanc. now rewrite K. Qed.
  Lemma eqv_empty : eqv [] [].
  Proof. split; [intros q []..|]. intros; tauto. Qed.
  Lemma eqv_app a a' b b' : eqv a a' -> eqv b b' -> eqv (a ++ b) (a' ++ b').
  Proof. intros [A A' E] [B B' F]. split; [now apply incl_app|now apply incl_app|]. intros p p' H H' Ep. rewrite !in_app_iff, (E p p'), (F p p') by auto. tauto. Qed.
  Lemma eqv_dedup a a' : eqv a a' -> eqv (dedup a) (dedup a').
  Proof. intros [A A' E]. split; [intros q H; apply A, dedup_In, H|intros q H; apply A', dedup_In, H|]. intros p p' H H' Ep. rewrite !dedup_In. now apply E. Qed.
  Lemma eqv_diff a a' b b' : eqv a a' -> eqv b b' -> eqv (diff a b) (diff a' b').
  Proof.
    intros [A A' E] [B B' F]. unfold diff. split; [intros q H; apply A; now apply filter_In in H|intros q H; apply A'; now apply filter_In in H|].
    intros p p' H H' Ep. rewrite !filter_In, !negb_true_iff, <- !not_true_iff_false, !mem_In, (E p p'), (F p p') by auto. tauto.
  Qed.
  Lemma eqv_ord k k' a a' : eqv a a' -> eqv (ord k a) (ord' k' a').
  Proof.
    intros [A A' E]. split; [intros q H; apply A; eapply Permutation_in; [apply Hp|exact H]|intros q H; apply A'; eapply Permutation_in; [apply Hp'|exact H]|].
    intros p p' H H' Ep. split; intros X.
    - eapply Permutation_in; [symmetry; apply Hp'|]. apply (E p p'); auto. eapply Permutation_in; [apply Hp|exact X].
    - eapply Permutation_in; [symmetry; apply Hp|]. apply (E p p'); auto. eapply Permutation_in; [apply Hp'|exact X].
  Qed.
  Lemma lab_eq1 p q : In p ps -> In q ps -> pl_lab p = pl_lab q -> p = q.
  Proof. intros H H' E. eapply (lab_eq _ _ _ _ _ P); eauto. Qed.
  Lemma lab_eq2 p q : In p ps' -> In q ps' -> pl_lab p = pl_lab q -> p = q.
  Proof. intros H H' E. eapply (lab_eq _ _ _ _ _ P'); eauto. Qed.
  (* the pairs correspond *)
  Lemma pair_fwd S S' d p p' q q' : eqv S S' -> In p ps -> In p' ps' -> pl_item p' = pl_item p -> In q ps -> In q' ps' -> pl_item q' = pl_item q ->
    In (pl_lab p, pl_lab q) (get_pairs l S (Some d)) <-> In (pl_lab p', pl_lab q') (get_pairs l' S' (Some d)).
  Proof.
    intros [A A' E] H H' Ep Hq Hq' Eq. rewrite (pn_dir _ _ _ _ _ P), (pn_dir _ _ _ _ _ P'), (E p p') by auto.
    destruct (same_pos _ _ Ep) as [Pp _], (same_pos _ _ Eq) as [Pq _]. unfold next. split; intros [X (a & b & s & Ha & Hb & Hs & L1 & L2 & Ed & Eb)]; (split; [exact X|]).
    - apply lab_eq1 in L1, L2; auto. subst a b. exists p', q', s. repeat split; auto. congruence.
    - apply lab_eq2 in L1, L2; auto. subst a b. exists p, q, s. repeat split; auto. congruence.
  Qed.
  Lemma pair_src S d a b : In (a, b) (get_pairs l S (Some d)) -> exists p q, In p ps /\ In q ps /\ a = pl_lab p /\ b = pl_lab q.
  Proof. intros H. apply (pn_dir _ _ _ _ _ P) in H as [_ (p & q & s & H1 & H2 & _ & <- & <- & _)]. exists p, q. auto. Qed.
  Lemma pair_src' S d a b : In (a, b) (get_pairs l' S (Some d)) -> exists p q, In p ps' /\ In q ps' /\ a = pl_lab p /\ b = pl_lab q.
  Proof. intros H. apply (pn_dir _ _ _ _ _ P') in H as [_ (p & q & s & H1 & H2 & _ & <- & <- & _)]. exists p, q. auto. Qed.
  Lemma in_flat x L : In x (flat_pairs L) <-> exists a b, In (a, b) L /\ (x = a \/ x = b).
  Proof.
    unfold flat_pairs. rewrite in_flat_map. split.
    - intros ([a b] & H & [<-|[<-|[]]]); exists a, b; auto.
    - intros (a & b & H & [-> | ->]); exists (a, b); cbn; auto.
  Qed.
  Lemma eqv_flat S S' d : eqv S S' -> eqv (flat_pairs (get_pairs l S (Some d))) (flat_pairs (get_pairs l' S' (Some d))).
  Proof.
    intros E. split.
    - intros x H. apply in_flat in H as (a & b & H & Hx). apply pair_src in H as (p & q & H1 & H2 & -> & ->). destruct Hx as [-> | ->]; now apply in_map.
    - intros x H. apply in_flat in H as (a & b & H & Hx). apply pair_src' in H as (p & q & H1 & H2 & -> & ->). destruct Hx as [-> | ->]; now apply in_map.
    - intros p p' H H' Ep. rewrite !in_flat. split; intros (a & b & Hab & Hx).
      + destruct (pair_src _ _ _ _ Hab) as (u & v & Hu & Hv & -> & ->). destruct (partner u Hu) as (u' & Hu' & Eu), (partner v Hv) as (v' & Hv' & Ev).
        exists (pl_lab u'), (pl_lab v'). split; [apply (pair_fwd S S' d u u' v v'); auto|]. destruct Hx as [X|X]; [left|right]; apply lab_eq1 in X; auto; subst.
        * destruct (same_pos _ _ Ep) as [E1 _], (same_pos _ _ Eu) as [E2 _]. f_equal. eapply (pos_eq _ _ _ _ _ P'); eauto; congruence.
        * destruct (same_pos _ _ Ep) as [E1 _], (same_pos _ _ Ev) as [E2 _]. f_equal. eapply (pos_eq _ _ _ _ _ P'); eauto; congruence.
      + destruct (pair_src' _ _ _ _ Hab) as (u' & v' & Hu' & Hv' & -> & ->). destruct (partner' u' Hu') as (u & Hu & Eu), (partner' v' Hv') as (v & Hv & Ev).
        exists (pl_lab u), (pl_lab v). split; [apply (pair_fwd S S' d u u' v v'); auto|]. destruct Hx as [X|X]; [left|right]; apply lab_eq2 in X; auto; subst.
        * destruct (same_pos _ _ Ep) as [E1 _], (same_pos _ _ Eu) as [E2 _]. f_equal. eapply (pos_eq _ _ _ _ _ P); eauto; congruence.
        * destruct (same_pos _ _ Ep) as [E1 _], (same_pos _ _ Ev) as [E2 _]. f_equal. eapply (pos_eq _ _ _ _ _ P); eauto; congruence.
  Qed.
  Lemma eqv_nbr S S' d : eqv S S' -> eqv (get_neighbors l S (Some d)) (get_neighbors l' S' (Some d)).
  Proof.
    intros E. unfold get_neighbors. split.
    - intros x H. apply in_map_iff in H as ([a b] & <- & H). apply pair_src in H as (p & q & H1 & H2 & -> & ->). cbn [snd]. now apply (in_map pl_lab).
    - intros x H. apply in_map_iff in H as ([a b] & <- & H). apply pair_src' in H as (p & q & H1 & H2 & -> & ->). cbn [snd]. now apply (in_map pl_lab).
    - intros p p' H H' Ep. rewrite !in_map_iff. split; intros ([a b] & Hx & Hab); cbn [snd] in Hx.
      + destruct (pair_src _ _ _ _ Hab) as (u & v & Hu & Hv & -> & ->). apply lab_eq1 in Hx; auto. subst v. destruct (partner u Hu) as (u' & Hu' & Eu).
        exists (pl_lab u', pl_lab p'). split; [reflexivity|]. apply (pair_fwd S S' d u u' p p'); auto.
      + destruct (pair_src' _ _ _ _ Hab) as (u' & v' & Hu' & Hv' & -> & ->). apply lab_eq2 in Hx; auto. subst v'. destruct (partner' u' Hu') as (u & Hu & Eu).
        exists (pl_lab u, pl_lab p). split; [reflexivity|]. apply (pair_fwd S S' d u u' p p'); auto.
  Qed.

  Lemma like_eqv o a a' : eqv a a' -> like_call (Call o a) (Call o a').
  Proof. intros E. split; [reflexivity|]. now apply eqv_nil. Qed.
  Ltac ev := repeat first [ apply eqv_kind | exact eqv_anc | apply eqv_empty | apply eqv_ord | apply eqv_diff | apply eqv_dedup | apply eqv_app | apply eqv_flat | apply eqv_nbr
    | progress unfold union | assumption ].
  Ltac calls := repeat (first [apply Forall2_nil | apply Forall2_cons]); first [exact I|apply like_eqv; ev|idtac].
  Ltac blk := unfold tick_block, had_block; eexists _, _; split; [reflexivity|split; [reflexivity|]]; calls.
  Ltac blks := repeat (first [apply Forall2_nil | apply Forall2_cons]).
  Lemma start_alike reset : Forall2 alike (round_start (labs ps KD) (ancs ps) reset) (round_start (labs ps' KD) (ancs ps') reset).
  Proof. unfold round_start. destruct reset; cbn [app]; blks; blk. Qed.
  Lemma cz_alike site qs qs' k : (k < 4)%nat -> eqv qs qs' -> alike (cz_block ord site l qs k) (cz_block ord' site l' qs' k).
  Proof.
    intros Hk E. unfold cz_block, cz_lists. rewrite <- Eo, (order_keys l Ho). cbn [mapM].
    rewrite (pn_x _ _ _ _ _ P), (pn_z _ _ _ _ _ P), (pn_x _ _ _ _ _ P'), (pn_z _ _ _ _ _ P'). cbn [bind].
    assert (O : forall t, order_at l' t k = order_at l t k) by (intros t; unfold order_at; now rewrite Eo). rewrite !O.
    destruct (order_ok l ord Hp Ho "x_type" k) as [dx ->]; [now left|lia|]. destruct (order_ok l ord Hp Ho "z_type" k) as [dz ->]; [right; now left|lia|]. cbn [bind map app concat].
    pose proof (eqv_kind KX) as X. pose proof (eqv_kind KZ) as Z. unfold labs in X, Z.
    eexists _, _. split; [reflexivity|split; [reflexivity|]]. calls.
  Qed.
  Lemma css_alike code reset : l_code l = code -> l_code l' = code -> Forall2 alike (css_round ord code l reset) (css_round ord' code l' reset).
  Proof.
    intros Hc Hc'. unfold css_round. rewrite Hc, Hc', eqb_refl. cbn [negb].
    rewrite (pn_data _ _ _ _ _ P), (pn_anc _ _ _ _ _ P), (pn_x _ _ _ _ _ P), (pn_data _ _ _ _ _ P'), (pn_anc _ _ _ _ _ P'), (pn_x _ _ _ _ _ P'). cbn [bind generator].
    change (map pl_lab (filter (isk KD) ps)) with (labs ps KD). change (map pl_lab (filter isanc ps)) with (ancs ps). change (map pl_lab (filter (isk KX) ps)) with (labs ps KX).
    change (map pl_lab (filter (isk KD) ps')) with (labs ps' KD). change (map pl_lab (filter isanc ps')) with (ancs ps'). change (map pl_lab (filter (isk KX) ps')) with (labs ps' KX).
    apply Forall2_app; [apply start_alike|]. apply Forall2_app; [|unfold round_end; blks; blk].
    assert (O : forall t k, order_at l' t k = order_at l t k) by (intros t k; unfold order_at; now rewrite Eo). unfold css_rot. rewrite !O.
    destruct (order_ok l ord Hp Ho "x_type" 0) as [d ->]; [now left|lia|]. destruct (order_ok l ord Hp Ho "x_type" 3) as [d' ->]; [now left|lia|]. cbn [bind].
    blks; try (apply cz_alike; [lia|ev]); blk.
  Qed.
  Lemma meas_alike rot : Forall2 alike (log_meas_blocks l rot) (log_meas_blocks l' rot).
  Proof.
    unfold log_meas_blocks. rewrite (pn_data _ _ _ _ _ P), (pn_anc _ _ _ _ _ P), (pn_data _ _ _ _ _ P'), (pn_anc _ _ _ _ _ P'). cbn [bind generator].
    pose proof (eqv_kind KD) as D. pose proof eqv_anc as A. unfold labs, ancs in D, A. destruct rot; cbn [app]; blks; blk.
  Qed.
End Form.
