(** Proofs about the QEC rounds on layouts whose qubits are on a grid. *)
From Coq Require Import QArith Qcanon.
From Verif Require Import Base Lib StimM SetupM NoiseM SpecNoise NoiseP LayoutM SpecLayout LayoutP LayoutP2 DetM
  GenM GenP SpecGen GeomP BlockM SpecTrack TrackP ActP.
Open Scope Z_scope.

Definition psub (p s : Z * Z) : Z * Z := (fst p - fst s, snd p - snd s).
Lemma padd_psub p s : padd (psub p s) s = p.
Proof. destruct p. unfold padd, psub; cbn. f_equal; lia. Qed.
Lemma psub_padd p s : psub (padd p s) s = p.
Proof. destruct p. unfold padd, psub; cbn. f_equal; lia. Qed.

(* the product of the stabilizers of [ts] selected by [u] *)
Definition stabsum (l : layout) (ts : list string) (u : string -> bool) (q : string) : bool :=
  xorl (map (fun a => u a && on (support l a) q) ts).

Section Grid.
  Context (l : layout) (shifts : list (Z * Z)) (dirn : Z * Z -> string) (pt : Qc * Qc) (ps : list placed).
  Hypothesis P : planar l shifts dirn pt ps.
  Hypothesis Ns : NoDup shifts.
  Let npos : NoDup (map pos ps) := pn_npos _ _ _ _ _ P.
  Definition labs (k : kind) : list string := map pl_lab (filter (isk k) ps).
  Definition ancs : list string := map pl_lab (filter isanc ps).

  Lemma mem_labs k p : In p ps -> mem (pl_lab p) (labs k) = isk k p.
  Proof.
    intros Hp. destruct (isk k p) eqn:E.
    - apply mem_In. apply in_map. now apply filter_In.
    - apply mem_not. intros H. apply in_map_iff in H as (q & L & H). apply filter_In in H as [H K].
      apply (lab_eq _ _ _ _ _ P) in L; auto. subst. congruence.
  Qed.
  Lemma mem_ancs p : In p ps -> mem (pl_lab p) ancs = isanc p.
  Proof.
    intros Hp. destruct (isanc p) eqn:E.
    - apply mem_In. apply in_map. now apply filter_In.
    - apply mem_not. intros H. apply in_map_iff in H as (q & L & H). apply filter_In in H as [H K].
      apply (lab_eq _ _ _ _ _ P) in L; auto. subst. congruence.
  Qed.
  Lemma mem_out f q : ~ In q (map pl_lab ps) -> mem q (map pl_lab (filter f ps)) = false.
  Proof.
    intros H. apply mem_not. intros H'. apply H. apply in_map_iff in H' as (p & <- & H'). apply filter_In in H' as [H' _].
    now apply in_map.
  Qed.

  (* pairs in one direction *)
  Lemma dir_pair qs sh a b : In sh shifts -> In (a, b) (get_pairs l qs (Some (dirn sh))) ->
    exists p q, In p ps /\ In q ps /\ pl_lab p = a /\ pl_lab q = b /\ pos q = padd (pos p) sh /\ In a qs /\ (knd p = KD <-> knd q <> KD).
  Proof.
    intros Hs H. apply (pn_dir _ _ _ _ _ P) in H as [Ha (p & q & s & Hp & Hq & Hs' & E1 & E2 & E3 & E4)].
    apply (pn_dinj _ _ _ _ _ P) in E3; auto. subst s. exists p, q.
    pose proof (pn_par _ _ _ _ _ P p q sh Hp Hq Hs E4). auto 10.
  Qed.
  Lemma pair_dir qs sh p q : In sh shifts -> In p ps -> In q ps -> pos q = padd (pos p) sh -> In (pl_lab p) qs ->
    In (pl_lab p, pl_lab q) (get_pairs l qs (Some (dirn sh))).
  Proof. intros Hs Hp Hq E Hi. apply (pn_dir _ _ _ _ _ P). split; [exact Hi|]. exists p, q, sh. auto 10. Qed.
  Lemma pairs_neq qs sh : In sh shifts -> Forall (fun p => fst p <> snd p) (get_pairs l qs (Some (dirn sh))).
  Proof.
    intros Hs. apply Forall_forall. intros [a b] H. apply dir_pair in H as (p & q & Hp & Hq & <- & <- & _ & _ & K); auto.
    cbn. intros E. apply (lab_eq _ _ _ _ _ P) in E; auto. subst. destruct (knd q); intuition congruence.
  Qed.

  (* sets of labels that are ancillas *)
  Definition anc_set (qs : list string) : Prop := forall p, In p ps -> In (pl_lab p) qs -> knd p <> KD.
  Lemma labs_anc k : k <> KD -> anc_set (labs k).
  Proof.
    intros Hk p Hp H E. apply mem_In in H. rewrite mem_labs in H by assumption. unfold isk in H. rewrite E in H. destruct k; congruence.
  Qed.
  Lemma cz_anc qs sh f p : In sh shifts -> anc_set qs -> In p ps -> In (pl_lab p) qs ->
    czsum (get_pairs l qs (Some (dirn sh))) f (pl_lab p) = fv ps f (padd (pos p) sh).
  Proof.
    intros Hs A Hp Hi. unfold czsum. pose proof (get_pairs_nodup l qs (Some (dirn sh)) (pn_wf _ _ _ _ _ P)) as N.
    assert (F : forall a b, In (a, b) (get_pairs l qs (Some (dirn sh))) -> (eqb b (pl_lab p)) = false).
    { intros a b H. apply dir_pair in H as (p' & q & Hp' & Hq & <- & <- & E & Ha & K); auto.
      destruct (eqb_spec (pl_lab q) (pl_lab p)) as [L|]; [|reflexivity]. apply (lab_eq _ _ _ _ _ P) in L; auto. subst q.
      exfalso. apply (A p' Hp' Ha). apply K. now apply A. }
    destruct (fv ps (fun _ => true) (padd (pos p) sh)) eqn:Ex.
    - apply fv_true in Ex as (q & Hq & Eq & _). rewrite <- Eq, fv_at by auto.
      pose proof (pair_dir qs sh p q Hs Hp Hq Eq Hi) as Hin.
      rewrite (xor_unique _ _ (pl_lab p, pl_lab q) N Hin); cbn [fst snd].
      + rewrite eqb_refl, (F _ _ Hin). cbn. now rewrite xorb_false_r.
      + intros [a b] H Ne. cbn [fst snd]. rewrite (F _ _ H). cbn [andb]. rewrite xorb_false_r.
        destruct (eqb_spec a (pl_lab p)) as [->|]; [|reflexivity]. exfalso. apply Ne. f_equal.
        apply dir_pair in H as (p' & q' & Hp' & Hq' & L & <- & E & _); auto. apply (lab_eq _ _ _ _ _ P) in L; auto. subst p'.
        f_equal. apply (pos_eq _ _ _ _ _ P); auto. congruence.
    - rewrite fv_none.
      + apply xorl_false. intros x H. apply in_map_iff in H as ([a b] & <- & H). cbn [fst snd]. rewrite (F _ _ H). cbn [andb].
        rewrite xorb_false_r. destruct (eqb_spec a (pl_lab p)) as [->|]; [|reflexivity]. exfalso.
        apply dir_pair in H as (p' & q' & Hp' & Hq' & L & <- & E & _); auto. apply (lab_eq _ _ _ _ _ P) in L; auto. subst p'.
        rewrite <- E, fv_at in Ex; auto. discriminate.
      + intros q Hq E. rewrite <- E, fv_at in Ex; auto. discriminate.
  Qed.
  Lemma cz_data qs sh f p : In sh shifts -> anc_set qs -> In p ps -> knd p = KD ->
    czsum (get_pairs l qs (Some (dirn sh))) f (pl_lab p) = fv ps (fun a => mem a qs && f a) (psub (pos p) sh).
  Proof.
    intros Hs A Hp Kp. unfold czsum. pose proof (get_pairs_nodup l qs (Some (dirn sh)) (pn_wf _ _ _ _ _ P)) as N.
    assert (F : forall a b, In (a, b) (get_pairs l qs (Some (dirn sh))) -> (eqb a (pl_lab p)) = false).
    { intros a b H. apply dir_pair in H as (p' & q & Hp' & Hq & <- & <- & E & Ha & K); auto.
      destruct (eqb_spec (pl_lab p') (pl_lab p)) as [L|]; [|reflexivity]. apply (lab_eq _ _ _ _ _ P) in L; auto. subst p'.
      exfalso. apply (A p Hp' Ha Kp). }
    assert (G : forall q, In q ps -> pos q = psub (pos p) sh -> pos p = padd (pos q) sh) by (intros q Hq ->; now rewrite padd_psub).
    destruct (fv ps (fun a => mem a qs) (psub (pos p) sh)) eqn:Ex.
    - apply fv_true in Ex as (q & Hq & Eq & M). rewrite <- Eq, fv_at by auto. rewrite M. cbn [andb]. apply mem_In in M.
      pose proof (pair_dir qs sh q p Hs Hq Hp (G q Hq Eq) M) as Hin.
      rewrite (xor_unique _ _ (pl_lab q, pl_lab p) N Hin); cbn [fst snd].
      + rewrite eqb_refl, (F _ _ Hin). cbn. now destruct (f _).
      + intros [a b] H Ne. cbn [fst snd]. rewrite (F _ _ H). cbn [andb]. rewrite xorb_false_l.
        destruct (eqb_spec b (pl_lab p)) as [->|]; [|reflexivity]. exfalso. apply Ne. f_equal.
        apply dir_pair in H as (q' & p' & Hq' & Hp' & <- & L & E & _); auto. apply (lab_eq _ _ _ _ _ P) in L; auto. subst p'.
        f_equal. apply (pos_eq _ _ _ _ _ P); auto. rewrite Eq, E. now rewrite psub_padd.
    - assert (Z0 : fv ps (fun a => mem a qs && f a) (psub (pos p) sh) = false).
      { destruct (fv ps (fun a => mem a qs && f a) (psub (pos p) sh)) eqn:E; [|reflexivity].
        apply fv_true in E as (q & Hq & Eq & M). apply andb_true_iff in M as [M _]. rewrite <- Eq, fv_at in Ex; auto. congruence. }
      rewrite Z0. apply xorl_false. intros x H. apply in_map_iff in H as ([a b] & <- & H). cbn [fst snd]. rewrite (F _ _ H). cbn [andb].
      rewrite xorb_false_l. destruct (eqb_spec b (pl_lab p)) as [->|]; [|reflexivity]. exfalso.
      apply dir_pair in H as (q' & p' & Hq' & Hp' & <- & L & E & Ha & _); auto. apply (lab_eq _ _ _ _ _ P) in L; auto. subst p'.
      assert (E' : psub (pos p) sh = pos q') by (rewrite E; apply psub_padd). rewrite E', fv_at in Ex; auto.
      apply mem_In in Ha. congruence.
  Qed.
  Lemma cz_none qs sh f q : In sh shifts -> anc_set qs -> (forall p, In p ps -> pl_lab p = q -> knd p <> KD /\ ~ In q qs) ->
    czsum (get_pairs l qs (Some (dirn sh))) f q = false.
  Proof.
    intros Hs A Hq. apply xorl_false. intros x H. apply in_map_iff in H as ([a b] & <- & H). cbn [fst snd].
    apply dir_pair in H as (p' & q' & Hp' & Hq' & <- & <- & E & Ha & K); auto.
    destruct (eqb_spec (pl_lab p') q) as [<-|]; [destruct (Hq p' Hp' eq_refl); contradiction|].
    destruct (eqb_spec (pl_lab q') q) as [<-|]; [|reflexivity]. destruct (Hq q' Hq' eq_refl) as [Kd _].
    exfalso. apply (A p' Hp' Ha). now apply K.
  Qed.

  (* the product of stabilizers, at a position *)
  Lemma on_support p q : In p ps -> In q ps ->
    on (support l (pl_lab p)) (pl_lab q) = xorl (map (fun s => eqb (pos q) (padd (pos p) s)) shifts).
  Proof.
    intros Hp Hq. destruct (existsb (fun s => eqb (pos q) (padd (pos p) s)) shifts) eqn:E.
    - apply existsb_exists in E as (s & Hs & E). pose proof E as E'. apply eqb_true in E'.
      rewrite (xor_unique _ _ s Ns Hs).
      + rewrite E. apply mem_In. apply (support_mem _ _ _ _ _ P Ns); [exact Hp|]. exists q, s. auto.
      + intros s' Hs' Ne. destruct (eqb_spec (pos q) (padd (pos p) s')) as [E2|]; [|reflexivity]. exfalso. apply Ne.
        rewrite E' in E2. now apply padd_inj in E2.
    - rewrite xorl_false.
      + apply mem_not. intros H. apply (support_mem _ _ _ _ _ P Ns) in H as (q' & s & Hq' & Hs & L & E'); auto.
        apply (lab_eq _ _ _ _ _ P) in L; auto. subst q'. assert (X : existsb (fun s => eqb (pos q) (padd (pos p) s)) shifts = true).
        { apply existsb_exists. exists s. split; [exact Hs|]. apply eqb_eq. exact E'. } congruence.
      + intros b Hb. apply in_map_iff in Hb as (s & <- & Hs). destruct (eqb (pos q) (padd (pos p) s)) eqn:E2; [|reflexivity].
        assert (X : existsb (fun s => eqb (pos q) (padd (pos p) s)) shifts = true) by (apply existsb_exists; eauto). congruence.
  Qed.
  Lemma xorl_map_xorb {A} (f g : A -> bool) (L : list A) : xorl (map (fun x => xorb (f x) (g x)) L) = xorb (xorl (map f L)) (xorl (map g L)).
  Proof. induction L as [|a L IH]; [reflexivity|]. cbn [map]. rewrite !xorl_cons, IH. destruct (f a), (g a), (xorl (map f L)), (xorl (map g L)); reflexivity. Qed.
  Lemma xorl_swap {A B} (f : A -> B -> bool) (L : list A) (M : list B) :
    xorl (map (fun a => xorl (map (f a) M)) L) = xorl (map (fun b => xorl (map (fun a => f a b) L)) M).
  Proof.
    induction L as [|a L IH]; [cbn; symmetry; apply xorl_false; intros b Hb; apply in_map_iff in Hb as (? & <- & _); reflexivity|].
    cbn [map]. rewrite xorl_cons, IH. rewrite <- xorl_map_xorb. f_equal.
  Qed.
  Lemma xorl_and {A} c (f : A -> bool) L : c && xorl (map f L) = xorl (map (fun x => c && f x) L).
  Proof. destruct c; cbn; [reflexivity|]. symmetry. apply xorl_false. intros b Hb. now apply in_map_iff in Hb as (? & <- & _). Qed.
  Definition sumk (k : kind) (u : string -> bool) (rc : Z * Z) : bool := fv ps (fun a => mem a (labs k) && u a) rc.
  Lemma sumk_true k u rc : sumk k u rc = true -> exists p, In p ps /\ knd p = k /\ pos p = rc /\ u (pl_lab p) = true.
  Proof.
    intros H. apply fv_true in H as (p & Hp & E & H). apply andb_true_iff in H as [H1 H2]. exists p.
    rewrite mem_labs in H1 by assumption. split; [exact Hp|]. split; [unfold isk in H1; now destruct k, (knd p)|]. auto.
  Qed.
  Lemma stabsum_at k u q : In q ps -> stabsum l (labs k) u (pl_lab q) = xorl (map (fun s => sumk k u (psub (pos q) s)) shifts).
  Proof.
    intros Hq. unfold stabsum, labs. rewrite map_map.
    transitivity (xorl (map (fun p => xorl (map (fun s => u (pl_lab p) && eqb (pos q) (padd (pos p) s)) shifts)) (filter (isk k) ps))).
    { f_equal. apply map_ext_in. intros p Hp. apply filter_In in Hp as [Hp _]. rewrite on_support by assumption. apply xorl_and. }
    rewrite xorl_swap. f_equal. apply map_ext. intros s. unfold sumk, fv, at_pos.
    assert (G : forall qs, incl qs ps -> xorl (map (fun a => u (pl_lab a) && eqb (pos q) (padd (pos a) s)) (filter (isk k) qs)) =
      xorl (map (fun q0 => mem (pl_lab q0) (labs k) && u (pl_lab q0)) (filter (fun q0 => eqb (pos q0) (psub (pos q) s)) qs))).
    { induction qs as [|a qs IH]; intros I; [reflexivity|]. cbn [filter].
      assert (Ea : eqb (pos q) (padd (pos a) s) = eqb (pos a) (psub (pos q) s)).
      { destruct (eqb_spec (pos q) (padd (pos a) s)) as [E|N], (eqb_spec (pos a) (psub (pos q) s)) as [E'|N']; auto.
        - exfalso. apply N'. rewrite E. now rewrite psub_padd.
        - exfalso. apply N. rewrite E'. now rewrite padd_psub. }
      assert (Ha : In a ps) by (apply I; now left).
      assert (IH' := IH (fun x Hx => I x (or_intror Hx))). clear IH.
      destruct (isk k a) eqn:Ka, (eqb (pos a) (psub (pos q) s)) eqn:Es; cbn [map]; rewrite ?xorl_cons, ?Ea, ?mem_labs, ?Ka by assumption;
        cbn [andb]; rewrite ?andb_true_r, ?andb_false_r, ?xorb_false_l; congruence. }
    apply G. apply incl_refl.
  Qed.
  Lemma stabsum_out k u q : k <> KD -> (forall p, In p ps -> pl_lab p = q -> knd p <> KD) -> stabsum l (labs k) u q = false.
  Proof.
    intros Kk Hq. apply xorl_false. intros b Hb. apply in_map_iff in Hb as (a & <- & Ha). apply andb_false_iff. right.
    apply in_map_iff in Ha as (p & <- & Hp). apply filter_In in Hp as [Hp K].
    apply mem_not. intros H. apply (support_mem _ _ _ _ _ P Ns) in H as (q' & s & Hq' & Hs & L & E); auto.
    apply (Hq q' Hq' L). pose proof (pn_par _ _ _ _ _ P p q' s Hp Hq' Hs E) as Par.
    destruct (knd q') eqn:Kq; auto; exfalso; assert (knd p = KD) by (apply Par; congruence); unfold isk in K; destruct k, (knd p); congruence.
  Qed.
  Lemma fv_ext f g rc : (forall p, In p ps -> pos p = rc -> f (pl_lab p) = g (pl_lab p)) -> fv ps f rc = fv ps g rc.
  Proof.
    intros E. unfold fv. f_equal. apply map_ext_in. intros p Hp. apply filter_In in Hp as [Hp Ep]. apply eqb_true in Ep. auto.
  Qed.

  (* the generators of the CSS code *)
  Lemma of_type_at p : In p ps -> of_type l "x_type" (pl_lab p) = isk KX p /\ of_type l "z_type" (pl_lab p) = isk KZ p.
  Proof.
    intros Hp. unfold of_type. rewrite (pn_x _ _ _ _ _ P), (pn_z _ _ _ _ _ P). fold (labs KX). fold (labs KZ).
    now rewrite !mem_labs.
  Qed.
  Lemma filter_xor (f : placed -> bool) (h : placed -> bool) : (forall p, In p ps -> f p = false -> h p = false) ->
    xorl (map h ps) = xorl (map h (filter f ps)).
  Proof.
    assert (G : forall qs, incl qs ps -> (forall p, In p ps -> f p = false -> h p = false) -> xorl (map h qs) = xorl (map h (filter f qs))).
    { induction qs as [|a qs IH]; intros I E; [reflexivity|]. cbn [map filter]. rewrite xorl_cons, IH; auto; [|intros x Hx; apply I; now right].
      destruct (f a) eqn:F; [reflexivity|]. rewrite (E a (I a (or_introl eq_refl)) F). apply xorb_false_l. }
    apply G. apply incl_refl.
  Qed.
  Lemma css_sumx u q : sumx (css l) ancs u q = stabsum l (labs KX) u q.
  Proof.
    unfold sumx, stabsum, ancs, labs. rewrite !map_map.
    rewrite <- (filter_xor isanc (fun p => u (pl_lab p) && on (fst (css l (pl_lab p))) q)).
    - rewrite (filter_xor (isk KX)).
      + f_equal. apply map_ext_in. intros p Hp. apply filter_In in Hp as [Hp K]. unfold css. cbn [fst].
        now rewrite (proj1 (of_type_at p Hp)), K.
      + intros p Hp K. unfold css. cbn [fst]. rewrite (proj1 (of_type_at p Hp)), K. apply andb_false_r.
    - intros p Hp K. unfold css. cbn [fst]. rewrite (proj1 (of_type_at p Hp)). unfold isanc in K. unfold isk. destruct (knd p); try discriminate.
      apply andb_false_r.
  Qed.
  Lemma css_sumz u q : sumz (css l) ancs u q = stabsum l (labs KZ) u q.
  Proof.
    unfold sumz, stabsum, ancs, labs. rewrite !map_map.
    rewrite <- (filter_xor isanc (fun p => u (pl_lab p) && on (snd (css l (pl_lab p))) q)).
    - rewrite (filter_xor (isk KZ)).
      + f_equal. apply map_ext_in. intros p Hp. apply filter_In in Hp as [Hp K]. unfold css. cbn [snd].
        now rewrite (proj2 (of_type_at p Hp)), K.
      + intros p Hp K. unfold css. cbn [snd]. rewrite (proj2 (of_type_at p Hp)), K. apply andb_false_r.
    - intros p Hp K. unfold css. cbn [snd]. rewrite (proj2 (of_type_at p Hp)). unfold isanc in K. unfold isk. destruct (knd p); try discriminate.
      apply andb_false_r.
  Qed.
  Lemma anc_place a : In a ancs -> exists p, In p ps /\ knd p <> KD /\ pl_lab p = a.
  Proof.
    intros H. apply in_map_iff in H as (p & <- & H). apply filter_In in H as [H K]. exists p. split; [exact H|]. split; [now apply isanc_spec|reflexivity].
  Qed.
  Lemma css_anti X Z a : In a ancs -> anti (css l) X Z a =
    if mem a (labs KX) then xorl (map Z (support l a)) else xorl (map X (support l a)).
  Proof.
    intros H. apply anc_place in H as (p & Hp & K & <-). unfold anti, css. cbn [fst snd]. destruct (of_type_at p Hp) as [-> ->].
    rewrite mem_labs by assumption. unfold isk. destruct (knd p); [congruence| |]; cbn [map].
    - apply xorb_false_r.
    - apply xorb_false_l.
  Qed.
  Lemma css_disjoint a q : In a ancs -> In q (fst (css l a)) \/ In q (snd (css l a)) -> ~ In q ancs.
  Proof.
    intros H Hq Hq'. apply anc_place in H as (p & Hp & K & <-). assert (Hs : In q (support l (pl_lab p))).
    { unfold css in Hq. cbn [fst snd] in Hq. destruct (of_type l "x_type" (pl_lab p)), (of_type l "z_type" (pl_lab p)); cbn in Hq; tauto. }
    apply (support_data _ _ _ _ _ P p Hp K Ns) in Hs. apply data_In in Hs as (d & Hd & Kd & <-).
    apply anc_place in Hq' as (d' & Hd' & Kd' & L). apply (lab_eq _ _ _ _ _ P) in L; auto. subst. contradiction.
  Qed.
  Lemma ancs_nodup : NoDup ancs.
  Proof.
    unfold ancs. pose proof (pn_nlab _ _ _ _ _ P) as N. revert N. generalize ps. intros qs. induction qs as [|p qs IH]; intros N; [constructor|].
    cbn [map] in N. inversion N as [|? ? Hn N']; subst. cbn [filter]. destruct (isanc p); [|now apply IH]. cbn [map]. constructor; [|now apply IH].
    intros H. apply in_map_iff in H as (q & E & H). apply filter_In in H as [H _]. apply Hn. rewrite <- E. now apply in_map.
  Qed.
End Grid.
