(** The XZZX round of Google on the generated layouts. *)
From Coq Require Import QArith Qcanon.
From Verif Require Import Base Lib StimM SetupM NoiseM SpecNoise NoiseP LayoutM SpecLayout LayoutP LayoutP2 DetM
  GenM GenP SpecGen GeomP RotP RotP2 UnrotP BlockM SpecTrack TrackP ActP RoundP CssP CssP2 PipeP RoundTopP XzzxP.
Open Scope Z_scope.
Local Opaque rot_ps unrot_ps.

(** * Rounds that reset the ancillas at the end *)
Section After.
  Context (st : stabilizers) (ancs : list string) (g : list (gate string)).
  Hypothesis Na : NoDup ancs.
  Hypothesis Hd : forall a q, In a ancs -> In q (fst (st a)) \/ In q (snd (st a)) -> ~ In q ancs.
  Hypothesis Hg : acts st ancs g.
  Definition after_g : list (gate string) := round_g ancs g false ++ map (G1 GR) ancs.
  Lemma after_bk p q sel : (forall a, In a ancs -> px p a = false) ->
    bk (round_g ancs g false) sel (Pauli (fun q => if mem q ancs then false else px p q) (fun q => if mem q ancs then false else pz p q)) q ->
    bk after_g sel p q.
  Proof.
    intros H B. unfold after_g. eapply bk_app; [apply bk_R; exact H|]. eapply bk_ext; [exact B|]. intros k _.
    rewrite num_meas_map. cbn [is_meas]. now rewrite Nat.add_0_r.
  Qed.
  Lemma outcome_R (l : list (gate string)) q k : outcome (l ++ map (G1 GR) ancs) q k = outcome l q k.
  Proof.
    unfold outcome. rewrite filter_app. replace (filter measures_gate (map (G1 GR) ancs)) with (@nil (gate string)); [now rewrite app_nil_r|].
    clear. induction ancs as [|a r IH]; [reflexivity|exact IH].
  Qed.
  Lemma after_one a : In a ancs -> bk after_g (outcome after_g a) identity_op
    (Pauli (fun q => mem q (fst (st a))) (fun q => mem q (snd (st a)) || eqb q a)).
  Proof.
    intros Ha. apply after_bk; [reflexivity|]. eapply bk_ext; [|intros k _; symmetry; apply outcome_R].
    eapply bk_eq; [apply (round_one st ancs Na Hd g false Hg a Ha)| |].
    - intros q. cbn. destruct (mem q ancs); auto.
    - intros q. cbn. auto.
  Qed.
  Lemma after_keep X Z : (forall a, In a ancs -> X a = false /\ Z a = false) -> (forall a, In a ancs -> anti st X Z a = false) ->
    bk after_g (fun _ => false) (Pauli X Z) (Pauli X Z).
  Proof.
    intros H0 C. apply after_bk; [intros a Ha; now apply H0|].
    eapply bk_eq; [apply (round_keep st ancs Na Hd g false Hg X Z H0 C)| |apply peq_refl].
    intros q. cbn. destruct (mem q ancs) eqn:M; [|auto]. apply mem_In in M. destruct (H0 q M). auto.
  Qed.
  Context (bl : blocks).
  Hypothesis Hok : ok_blocks bl.
  Hypothesis Hbl : lg_blocks bl = after_g.
  Lemma after_circ l : get_role l "anc" = Ok ancs -> measures_with id true l st (run_blocks bl) /\ preserves id l st (run_blocks bl).
  Proof.
    intros E. split.
    - intros m m' c ancs' a i E' W H Ha Ei. rewrite E in E'. injection E' as <-. pose proof (after_one a Ha) as B. rewrite <- Hbl in B.
      pose proof (blocks_gates _ _ _ _ H Hok) as (_ & F & _).
      eapply blocks_track with (P := identity_op) in B; eauto; [|split; auto].
      destruct B as (P' & E' & R). exists P'. split; [|exact R]. rewrite <- E'. apply back_ext. intros k _.
      exact (outcome_rel _ _ _ a i k W F Ei).
    - intros m m' c ancs' xs zs P E' W H H0 C R. rewrite E in E'. injection E' as <-.
      assert (B : bk (lg_blocks bl) (fun _ => false) (Pauli xs zs) (Pauli xs zs)).
      { rewrite Hbl. apply after_keep; auto. intros a Ha. now apply anti_commutes, C. }
      eapply blocks_track in B; eauto.
  Qed.
End After.

Section Google.
  Context (l : layout) (shifts : list (Z * Z)) (dirn : Z * Z -> string) (pt : Qc * Qc) (ps : list placed).
  Hypothesis P : planar l shifts dirn pt ps.
  Context (s0 s1 s2 s3 : Z * Z).
  Hypothesis Ns : NoDup [s0; s1; s2; s3].
  Hypothesis Ps : Permutation shifts [s0; s1; s2; s3].
  Hypothesis Par : padd s0 s3 = padd s1 s2.
  Hypothesis D0 : dirn s0 = "north_east".
  Hypothesis D1 : dirn s1 = "north_west".
  Hypothesis D2 : dirn s2 = "south_east".
  Hypothesis D3 : dirn s3 = "south_west".
  Hypothesis Hcode : l_code l = "rotated_surface_code".
  Hypothesis HG : forall p q s, In p ps -> In q ps -> knd p <> KD -> knd q <> KD -> knd p <> knd q -> s = s1 \/ s = s2 ->
    padd (pos q) s3 = padd (pos p) s ->
    fv ps (fun _ => true) (padd (pos p) s) = true /\ fv ps (fun _ => true) (padd (pos p) s0) = true.
  (* ancillas that share two neighbours are of different types *)
  Hypothesis HC : forall p q s, In p ps -> In q ps -> knd p <> KD -> s = s1 \/ s = s2 -> padd (pos q) s3 = padd (pos p) s -> knd q <> knd p.
  Context (ord : nat -> list string -> list string).
  Hypothesis Hp : forall k s, Permutation (ord k s) s.
  Local Notation labs := (labs ps).
  Local Notation ancs := (ancs ps).
  Local Notation anc2 := (labs KX ++ labs KZ).
  Local Notation get := (fun k d => get_pairs l (labs k) (Some (dirn d))).
  Definition B0 := get_pairs l anc2 (Some (dirn s0)).
  Definition B1 := get KX s1 ++ get KZ s2.
  Definition B2 := get KX s2 ++ get KZ s1.
  Definition B3 := get_pairs l anc2 (Some (dirn s3)).
  Definition gq : list string := dedup (labs KD ++ anc2).
  Definition ginner : list (gate string) :=
    map (G1 GH) (ord 0%nat (dedup anc2)) ++ map (G1 GX) (ord 1%nat (dedup (labs KD))) ++ cz_gates B0 ++
    map (G1 GH) (ord 3%nat (dedup (labs KD))) ++ map (G1 GX) (ord 4%nat (dedup anc2)) ++ cz_gates B1 ++
    map (G1 GX) (ord 6%nat gq) ++ cz_gates B2 ++
    map (G1 GH) (ord 8%nat (dedup (labs KD))) ++ map (G1 GX) (ord 9%nat (dedup anc2)) ++ cz_gates B3 ++
    map (G1 GH) (ord 11%nat (dedup ancs)) ++ map (G1 GX) (labs KD).
  Lemma google_gates : lg_blocks (google_round ord l) = after_g ancs ginner.
  Proof.
    unfold google_round, google_coherent. rewrite Hcode, eqb_refl. cbn [negb].
    rewrite (pn_data _ _ _ _ _ P), (pn_anc _ _ _ _ _ P), (pn_x _ _ _ _ _ P), (pn_z _ _ _ _ _ P). cbn [bind generator].
    fold (labs KD). fold ancs. fold (labs KX). fold (labs KZ). rewrite <- D0, <- D1, <- D2, <- D3. fold gq.
    unfold after_g, round_g, ginner, google_cz, google_cz1, tick_block, lg_blocks, lg_block. fold B0. fold B1. fold B2. fold B3.
    cbn [flat_map lg_call std_gate is_two app]. rewrite !app_nil_r, !pair_gates_flat. unfold cz_gates. rewrite <- !app_assoc. reflexivity.
  Qed.
  Lemma google_ok : ok_blocks (google_round ord l).
  Proof.
    unfold google_round, google_coherent. rewrite Hcode, eqb_refl. cbn [negb].
    rewrite (pn_data _ _ _ _ _ P), (pn_anc _ _ _ _ _ P), (pn_x _ _ _ _ _ P), (pn_z _ _ _ _ _ P). cbn [bind generator app].
    unfold ok_blocks. repeat (constructor; [repeat constructor|]). constructor.
  Qed.
  Lemma in_sh : In s0 shifts /\ In s1 shifts /\ In s2 shifts /\ In s3 shifts.
  Proof. repeat split; (eapply Permutation_in; [symmetry; exact Ps|]; cbn; auto). Qed.
  Lemma nsh : NoDup shifts.
  Proof. eapply Permutation_NoDup; [symmetry; exact Ps|exact Ns]. Qed.
  Local Notation sm := (sumk ps).

  Lemma mem_anc2 p : In p ps -> mem (pl_lab p) anc2 = isanc p.
  Proof.
    intros Hi. assert (E : forall x y, mem (pl_lab p) (x ++ y) = mem (pl_lab p) x || mem (pl_lab p) y).
    { induction x as [|z x IH]; intros y; [reflexivity|]. cbn [app]. rewrite !mem_cons, IH. now rewrite orb_assoc. }
    rewrite E, !(mem_labs _ _ _ _ _ P) by assumption. unfold isk, isanc. now destruct (knd p).
  Qed.
  Lemma mem_dd (L : list string) q : mem q (dedup L) = mem q L.
  Proof. destruct (mem q L) eqn:E; [apply mem_In, dedup_In, mem_In, E|]. apply mem_not. intros H. rewrite dedup_In in H. apply mem_In in H. rewrite E in H. discriminate. Qed.
  Lemma anc2_set : anc_set ps anc2.
  Proof. intros p Hi H. apply mem_In in H. rewrite mem_anc2 in H by assumption. now apply isanc_spec. Qed.
  Lemma memo k q L : mem q (ord k L) = mem q L.
  Proof.
    destruct (mem q L) eqn:E.
    - apply mem_In. apply mem_In in E. eapply Permutation_in; [symmetry; apply Hp|exact E].
    - apply mem_not. intros H. eapply Permutation_in in H; [|apply Hp]. apply mem_In in H. congruence.
  Qed.
  Lemma bk_Hd k L sel p : bk (map (G1 GH) (ord k (dedup L))) sel p (had (fun q => mem q L) p).
  Proof.
    eapply bk_eq; [apply bk_H|apply peq_refl|].
    - eapply Permutation_NoDup; [symmetry; apply Hp|apply dedup_NoDup].
    - intros q. unfold had. cbn. rewrite memo, mem_dd. auto.
  Qed.

  (* one layer of CZ *)
  Definition lay (B : list (string * string)) (kx kz : Z * Z) : Prop :=
    (forall q f u, In q ps -> knd q = KD -> (forall p, In p ps -> knd p <> KD -> f (pl_lab p) = u (pl_lab p)) ->
       czsum B f (pl_lab q) = xorb (sm KX u (psub (pos q) kx)) (sm KZ u (psub (pos q) kz))) /\
    (forall q f, In q ps -> knd q <> KD -> czsum B f (pl_lab q) = fv ps f (padd (pos q) (if isk KX q then kx else kz))) /\
    (forall q f, ~ In q (map pl_lab ps) -> czsum B f q = false) /\
    Forall (fun p => fst p <> snd p) B.
  Lemma lay_split kx kz : In kx shifts -> In kz shifts -> lay (get KX kx ++ get KZ kz) kx kz.
  Proof.
    intros Hx Hz. split; [|split; [|split]].
    - intros q f u. now apply (czL_data l shifts dirn pt ps P).
    - intros q f Hq K. unfold isk. destruct (knd q) eqn:Kq; [congruence| |].
      + now apply (czL_x l shifts dirn pt ps P _ kx kz).
      + now apply (czL_z l shifts dirn pt ps P _ kx kz).
    - intros q f. now apply (czL_out l shifts dirn pt ps P _ kx kz).
    - now apply (L_neq l shifts dirn pt ps P _ kx kz).
  Qed.
  Lemma lay_all s : In s shifts -> lay (get_pairs l anc2 (Some (dirn s))) s s.
  Proof.
    intros Hs. split; [|split; [|split]].
    - intros q f u Hq K E. rewrite (cz_data _ _ _ _ _ P) by (auto using anc2_set). unfold sumk. rewrite <- fv_xor.
      apply fv_ext. intros p Hi _. rewrite mem_anc2 by assumption. rewrite !(mem_labs _ _ _ _ _ P) by assumption.
      unfold isk, isanc. destruct (knd p) eqn:Kp; [reflexivity| |]; rewrite E by (auto; congruence); now destruct (u (pl_lab p)).
    - intros q f Hq K. replace (if isk KX q then s else s) with s by (now destruct (isk KX q)).
      apply (cz_anc _ _ _ _ _ P); auto using anc2_set. apply mem_In. rewrite mem_anc2 by assumption. now apply isanc_spec.
    - intros q f Hq. apply (cz_none _ _ _ _ _ P); auto using anc2_set. intros p Hi <-. destruct Hq. now apply in_map.
    - now apply (pairs_neq _ _ _ _ _ P).
  Qed.
  Lemma lay0 : lay B0 s0 s0. Proof. apply lay_all, in_sh. Qed.
  Lemma lay1 : lay B1 s1 s2. Proof. apply lay_split; apply in_sh. Qed.
  Lemma lay2 : lay B2 s2 s1. Proof. apply lay_split; apply in_sh. Qed.
  Lemma lay3 : lay B3 s3 s3. Proof. apply lay_all, in_sh. Qed.

  Section Act.
    Context (X u : string -> bool).
    Hypothesis HX : forall a, In a ancs -> X a = false.
    Local Notation hd := (had (fun q => mem q (labs KD))).
    Definition V1 := had (fun q => mem q ancs) (Pauli X u).
    Definition V2 := czl B3 V1.
    Definition V3 := hd V2.
    Definition V4 := czl B2 V3.
    Definition V5 := czl B1 V4.
    Definition V6 := hd V5.
    Definition V7 := czl B0 V6.
    Definition V8 := had (fun q => mem q anc2) V7.
    Lemma ginner_V8 sel : bk ginner sel (Pauli X u) V8.
    Proof.
      unfold ginner. rewrite !app_assoc.
      eapply bk_app; [apply bk_paulis; auto|]. eapply bk_app; [apply bk_Hd|]. fold V1.
      eapply bk_app; [apply bk_CZ; apply lay3|]. fold V2.
      eapply bk_app; [apply bk_paulis; auto|]. eapply bk_app; [apply bk_Hd|]. fold V3.
      eapply bk_app; [apply bk_CZ; apply lay2|]. fold V4.
      eapply bk_app; [apply bk_paulis; auto|].
      eapply bk_app; [apply bk_CZ; apply lay1|]. fold V5.
      eapply bk_app; [apply bk_paulis; auto|]. eapply bk_app; [apply bk_Hd|]. fold V6.
      eapply bk_app; [apply bk_CZ; apply lay0|]. fold V7.
      eapply bk_app; [apply bk_paulis; auto|]. apply bk_Hd.
    Qed.
    Lemma ganc_x p : In p ps -> knd p <> KD -> px V1 (pl_lab p) = u (pl_lab p) /\ px V3 (pl_lab p) = u (pl_lab p) /\ px V6 (pl_lab p) = u (pl_lab p).
    Proof.
      intros Hi K. unfold V6, V5, V4, V3, V2, V1, czl, had. cbn [px pz].
      rewrite (mem_labs _ _ _ _ _ P), (mem_ancs _ _ _ _ _ P) by assumption. unfold isk, isanc. destruct (knd p); auto; congruence.
    Qed.
    Definition AA (kx kz : Z * Z) (q : placed) : bool := xorb (sm KX u (psub (pos q) kx)) (sm KZ u (psub (pos q) kz)).
    Lemma gdata q : In q ps -> knd q = KD ->
      px V1 (pl_lab q) = X (pl_lab q) /\
      px V3 (pl_lab q) = xorb (u (pl_lab q)) (AA s3 s3 q) /\
      px V6 (pl_lab q) = xorb (xorb (X (pl_lab q)) (AA s2 s1 q)) (AA s1 s2 q) /\
      pz V7 (pl_lab q) = xorb (xorb (u (pl_lab q)) (AA s3 s3 q)) (AA s0 s0 q).
    Proof.
      intros Hq K.
      assert (Md : mem (pl_lab q) (labs KD) = true) by (rewrite (mem_labs _ _ _ _ _ P) by assumption; unfold isk; now rewrite K).
      assert (Ma : mem (pl_lab q) ancs = false) by (rewrite (mem_ancs _ _ _ _ _ P) by assumption; unfold isanc; now rewrite K).
      assert (C3 : czsum B3 (px V1) (pl_lab q) = AA s3 s3 q) by (apply lay3; auto; intros p Hi Kp; now apply ganc_x).
      assert (C2 : czsum B2 (px V3) (pl_lab q) = AA s2 s1 q) by (apply lay2; auto; intros p Hi Kp; now apply ganc_x).
      assert (C1 : czsum B1 (px V3) (pl_lab q) = AA s1 s2 q) by (apply lay1; auto; intros p Hi Kp; now apply ganc_x).
      assert (C0 : czsum B0 (px V6) (pl_lab q) = AA s0 s0 q) by (apply lay0; auto; intros p Hi Kp; now apply ganc_x).
      assert (E1 : px V1 (pl_lab q) = X (pl_lab q)) by (unfold V1, had; cbn [px pz]; now rewrite Ma).
      assert (F1 : pz V1 (pl_lab q) = u (pl_lab q)) by (unfold V1, had; cbn [px pz]; now rewrite Ma).
      assert (E3 : px V3 (pl_lab q) = xorb (u (pl_lab q)) (AA s3 s3 q)) by (unfold V3, had; cbn [px pz]; rewrite Md; unfold V2, czl; cbn [pz]; now rewrite F1, C3).
      assert (F3 : pz V3 (pl_lab q) = X (pl_lab q)) by (unfold V3, had; cbn [px pz]; rewrite Md; exact E1).
      assert (F5 : pz V5 (pl_lab q) = xorb (xorb (X (pl_lab q)) (AA s2 s1 q)) (AA s1 s2 q)) by (unfold V5, V4, czl; cbn [px pz]; now rewrite C1, C2, F3).
      split; [exact E1|]. split; [exact E3|]. split.
      - unfold V6, had. cbn [px pz]. rewrite Md. exact F5.
      - unfold V7, czl. cbn [pz]. rewrite C0. f_equal. unfold V6, had. cbn [pz]. rewrite Md. exact E3.
    Qed.
    Lemma gsum_x q : In q ps -> knd q = KD -> sumx (xzzx l) ancs u (pl_lab q) = xorb (AA s2 s1 q) (AA s1 s2 q) /\
      sumz (xzzx l) ancs u (pl_lab q) = xorb (AA s3 s3 q) (AA s0 s0 q).
    Proof.
      intros Hq K. destruct in_sh as (I0 & I1 & I2 & I3).
      (* one direction *)
      assert (One : forall p s, In p ps -> In s shifts -> on (get_neighbors l [pl_lab p] (Some (dirn s))) (pl_lab q) = eqb (pos q) (padd (pos p) s)).
      { intros p s Hi Hs. unfold on, get_neighbors. destruct (eqb_spec (pos q) (padd (pos p) s)) as [E|N].
        - apply mem_In. apply in_map_iff. exists (pl_lab p, pl_lab q). split; [reflexivity|]. apply (pair_dir _ _ _ _ _ P); auto. now left.
        - apply mem_not. intros H. apply in_map_iff in H as ([x y] & E & H). cbn in E. subst y.
          apply (dir_pair _ _ _ _ _ P) in H as (p' & d & Hi' & Hd & L & L' & E & Ha & _); auto. destruct Ha as [<-|[]].
          apply (lab_eq _ _ _ _ _ P) in L, L'; auto. subst. contradiction. }
      assert (Dis : forall p s s', s <> s' -> eqb (pos q) (padd (pos p) s) && eqb (pos q) (padd (pos p) s') = false).
      { intros p s s' Ne. apply andb_false_iff. destruct (eqb_spec (pos q) (padd (pos p) s)) as [E|]; [|auto]. right. apply eqb_neq.
        intros E'. rewrite E in E'. apply padd_inj in E'. contradiction. }
      assert (Two : forall p s s', In p ps -> In s shifts -> In s' shifts -> s <> s' ->
        on (get_neighbors l [pl_lab p] (Some (dirn s)) ++ get_neighbors l [pl_lab p] (Some (dirn s'))) (pl_lab q) =
        xorb (eqb (pos q) (padd (pos p) s)) (eqb (pos q) (padd (pos p) s'))).
      { intros p s s' Hi Hs Hs' Ne. rewrite <- (One p s Hi Hs), <- (One p s' Hi Hs').
        pose proof (Dis p s s' Ne) as Di. rewrite <- (One p s Hi Hs), <- (One p s' Hi Hs') in Di. unfold on in *.
        assert (E : forall x y, mem (pl_lab q) (x ++ y) = mem (pl_lab q) x || mem (pl_lab q) y).
        { induction x as [|z x IH]; intros y; [reflexivity|]. cbn [app]. rewrite !mem_cons, IH. now rewrite orb_assoc. }
        rewrite E. destruct (mem (pl_lab q) _), (mem (pl_lab q) _); cbn in *; congruence. }
      (* sum over the ancillas of one direction *)
      assert (Sum : forall s, xorl (map (fun p => u (pl_lab p) && eqb (pos q) (padd (pos p) s)) (filter isanc ps)) =
        xorb (sm KX u (psub (pos q) s)) (sm KZ u (psub (pos q) s))).
      { intros s. unfold sumk, fv, at_pos. rewrite <- xorl_map_xorb.
        assert (G : forall qs, incl qs ps -> xorl (map (fun p => u (pl_lab p) && eqb (pos q) (padd (pos p) s)) (filter isanc qs)) =
          xorl (map (fun q0 => xorb (mem (pl_lab q0) (labs KX) && u (pl_lab q0)) (mem (pl_lab q0) (labs KZ) && u (pl_lab q0))) (filter (fun q0 => eqb (pos q0) (psub (pos q) s)) qs))).
        { induction qs as [|b qs IH]; intros I; [reflexivity|]. cbn [filter].
          assert (Eb : eqb (pos q) (padd (pos b) s) = eqb (pos b) (psub (pos q) s)).
          { destruct (eqb_spec (pos q) (padd (pos b) s)) as [E|N], (eqb_spec (pos b) (psub (pos q) s)) as [E'|N']; auto.
            - exfalso. apply N'. rewrite E. now rewrite psub_padd.
            - exfalso. apply N. rewrite E'. now rewrite padd_psub. }
          assert (Hb : In b ps) by (apply I; now left). specialize (IH (fun x Hx => I x (or_intror Hx))).
          unfold isanc in *. destruct (knd b) eqn:Kb, (eqb (pos b) (psub (pos q) s)) eqn:Es; cbn [map]; rewrite ?xorl_cons, IH, ?Eb;
            rewrite ?(mem_labs _ _ _ _ _ P) by assumption; unfold isk; rewrite ?Kb; cbn [andb]; rewrite ?andb_true_r, ?andb_false_r, ?xorb_false_l, ?xorb_false_r; reflexivity. }
        apply G, incl_refl. }
      assert (Ne : s1 <> s2 /\ s0 <> s3).
      { inversion Ns as [|? ? N0 N']; subst. inversion N' as [|? ? N1 _]; subst. cbn in N0, N1. split; intros E; subst; tauto. }
      destruct Ne as [Ne1 Ne2]. unfold sumx, sumz, RoundP.ancs, xzzx. cbn [fst snd]. rewrite <- D0, <- D1, <- D2, <- D3, !map_map.
      split.
      - transitivity (xorl (map (fun p => xorb (u (pl_lab p) && eqb (pos q) (padd (pos p) s1)) (u (pl_lab p) && eqb (pos q) (padd (pos p) s2))) (filter isanc ps))).
        { f_equal. apply map_ext_in. intros p Hi. apply filter_In in Hi as [Hi _]. rewrite Two by assumption. destruct (u (pl_lab p)); reflexivity. }
        rewrite xorl_map_xorb, !Sum. unfold AA.
        destruct (sm KX u (psub (pos q) s1)), (sm KX u (psub (pos q) s2)), (sm KZ u (psub (pos q) s1)), (sm KZ u (psub (pos q) s2)); reflexivity.
      - transitivity (xorl (map (fun p => xorb (u (pl_lab p) && eqb (pos q) (padd (pos p) s0)) (u (pl_lab p) && eqb (pos q) (padd (pos p) s3))) (filter isanc ps))).
        { f_equal. apply map_ext_in. intros p Hi. apply filter_In in Hi as [Hi _]. rewrite Two by assumption. destruct (u (pl_lab p)); reflexivity. }
        rewrite xorl_map_xorb, !Sum. unfold AA. apply xorb_comm.
    Qed.
    Lemma gfv k f s g p : In s shifts -> In p ps -> knd p = k -> k <> KD ->
      (forall q, In q ps -> knd q = KD -> pos q = padd (pos p) s -> f (pl_lab q) = g (pl_lab q)) ->
      fv ps f (padd (pos p) s) = fv ps g (padd (pos p) s).
    Proof. now apply (fv_data l shifts dirn pt ps P). Qed.
    (* the ancillas next to [p] *)
    Lemma same_zero p s : In p ps -> knd p <> KD -> s = s1 \/ s = s2 -> sm (knd p) u (psub (padd (pos p) s) s3) = false.
    Proof.
      intros Hi K Hs. apply not_true_iff_false. intros H. apply (sumk_true _ _ _ _ _ P) in H as (q & Hq & Kq & E & _).
      apply (HC p q s Hi Hq K Hs); [|exact Kq]. rewrite E. apply padd_psub.
    Qed.
    Lemma par4 x : psub (padd x s1) s3 = psub (padd x s0) s2 /\ psub (padd x s2) s3 = psub (padd x s0) s1.
    Proof.
      destruct x as [a b], s0 as [a0 b0], s1 as [a1 b1], s2 as [a2 b2], s3 as [a3 b3]. unfold padd, psub in *. cbn [fst snd] in *.
      injection Par as Pa Pb. split; f_equal; lia.
    Qed.
    Definition other (k : kind) : kind := match k with KX => KZ | KZ => KX | KD => KD end.
    Lemma near p s : In p ps -> knd p <> KD -> s = s1 \/ s = s2 ->
      fv ps (fun _ => sm (other (knd p)) u (psub (padd (pos p) s) s3)) (padd (pos p) s) =
      fv ps (fun _ => sm (other (knd p)) u (psub (padd (pos p) s) s3)) (padd (pos p) s0).
    Proof.
      intros Hi K Hs. rewrite (fv_const ps _ (padd (pos p) s)), (fv_const ps _ (padd (pos p) s0)).
      destruct (sm (other (knd p)) u (psub (padd (pos p) s) s3)) eqn:E; [|reflexivity]. cbn [andb].
      apply (sumk_true _ _ _ _ _ P) in E as (q & Hq & Kq & E & _).
      destruct (HG p q s Hi Hq K) as [G1 G2]; auto; try (rewrite Kq; destruct (knd p); cbn; congruence); [rewrite E; apply padd_psub|].
      now rewrite G1, G2.
    Qed.
    Lemma ganc p : In p ps -> knd p <> KD -> px V8 (pl_lab p) = anti (xzzx l) X u (pl_lab p) /\ pz V8 (pl_lab p) = u (pl_lab p).
    Proof.
      intros Hi K. destruct in_sh as (I0 & I1 & I2 & I3). destruct (ganc_x p Hi K) as (E1 & E3 & E6).
      assert (Ma : mem (pl_lab p) ancs = true) by (rewrite (mem_ancs _ _ _ _ _ P) by assumption; now apply isanc_spec).
      assert (Ma2 : mem (pl_lab p) anc2 = true) by (rewrite mem_anc2 by assumption; now apply isanc_spec).
      assert (Md : mem (pl_lab p) (labs KD) = false) by (rewrite (mem_labs _ _ _ _ _ P) by assumption; unfold isk; destruct (knd p); congruence).
      split; cycle 1.
      { unfold V8, had. cbn [pz]. rewrite Ma2. unfold V7, czl. cbn [px]. exact E6. }
      assert (V : px V8 (pl_lab p) = xorb (xorb (xorb (czsum B3 (px V1) (pl_lab p)) (czsum B2 (px V3) (pl_lab p))) (czsum B1 (px V3) (pl_lab p)))
                                          (czsum B0 (px V6) (pl_lab p))).
      { unfold V8, had. cbn [px]. rewrite Ma2. unfold V7 at 1, czl. cbn [pz]. f_equal. unfold V6, had. cbn [pz]. rewrite Md.
        unfold V5, V4, czl. cbn [pz px]. f_equal. f_equal. unfold V3, had. cbn [pz]. rewrite Md. unfold V2, czl. cbn [pz].
        replace (pz V1 (pl_lab p)) with false; [apply xorb_false_l|]. unfold V1, had. cbn [pz]. rewrite Ma. cbn. symmetry. apply HX. now apply mem_In. }
      (* the generator *)
      assert (S : forall f s, In s shifts -> xorl (map f (get_neighbors l [pl_lab p] (Some (dirn s)))) = fv ps f (padd (pos p) s)).
      { intros f s Hs. rewrite <- (cz_anc l shifts dirn pt ps P [pl_lab p] s f p Hs); auto.
        - unfold get_neighbors. rewrite map_map. unfold czsum. f_equal. apply map_ext_in. intros [x y] H.
          apply (dir_pair _ _ _ _ _ P) in H as (p' & d & Hi' & Hd & L & L' & E & [Ha|[]] & Kk); auto. cbn [fst snd] in *. subst.
          apply (lab_eq _ _ _ _ _ P) in Ha; auto. subst p'. rewrite eqb_refl. destruct (eqb_spec (pl_lab d) (pl_lab p)) as [E'|]; [|cbn; now rewrite xorb_false_r].
          apply (lab_eq _ _ _ _ _ P) in E'; auto. subst. destruct (knd p); intuition congruence.
        - intros p' Hi' [L|[]]. apply (lab_eq _ _ _ _ _ P) in L; auto. now subst.
        - now left. }
      assert (An : anti (xzzx l) X u (pl_lab p) = xorb (xorb (fv ps u (padd (pos p) s1)) (fv ps u (padd (pos p) s2))) (xorb (fv ps X (padd (pos p) s0)) (fv ps X (padd (pos p) s3)))).
      { unfold anti, xzzx. cbn [fst snd]. rewrite <- D0, <- D1, <- D2, <- D3, !map_app, !xorl_app, !S; auto. }
      rewrite V, An. clear V An S.
      rewrite (proj1 (proj2 lay3)), (proj1 (proj2 lay2)), (proj1 (proj2 lay1)), (proj1 (proj2 lay0)) by assumption.
      replace (if isk KX p then s3 else s3) with s3 by (now destruct (isk KX p)).
      replace (if isk KX p then s0 else s0) with s0 by (now destruct (isk KX p)).
      destruct (par4 (pos p)) as [P1 P2].
      pose proof (same_zero p s1 Hi K (or_introl eq_refl)) as Z1. pose proof (same_zero p s2 Hi K (or_intror eq_refl)) as Z2.
      pose proof (near p s1 Hi K (or_introl eq_refl)) as N1. pose proof (near p s2 Hi K (or_intror eq_refl)) as N2.
      rewrite (gfv (knd p) (px V1) s3 X p); auto; [|intros q Hq Kq _; now apply gdata].
      assert (Near : forall s, s = s1 \/ s = s2 -> fv ps (px V3) (padd (pos p) s) =
        xorb (fv ps u (padd (pos p) s)) (fv ps (fun _ => sm (other (knd p)) u (psub (padd (pos p) s) s3)) (padd (pos p) s))).
      { intros s Hs. rewrite <- fv_xor. apply (gfv (knd p)); auto; [destruct Hs as [->| ->]; assumption|]. intros q Hq Kq E.
        destruct (gdata q Hq Kq) as (_ & G & _). rewrite G. f_equal. unfold AA. rewrite E.
        pose proof (same_zero p s Hi K Hs) as Z. destruct (knd p) eqn:Kp; [congruence| |]; cbn [other]; rewrite Z; rewrite ?xorb_false_l, ?xorb_false_r; reflexivity. }
      assert (Far : fv ps (px V6) (padd (pos p) s0) =
        xorb (fv ps X (padd (pos p) s0)) (xorb (fv ps (fun _ => sm (other (knd p)) u (psub (padd (pos p) s1) s3)) (padd (pos p) s0))
                                                (fv ps (fun _ => sm (other (knd p)) u (psub (padd (pos p) s2) s3)) (padd (pos p) s0)))).
      { rewrite <- !fv_xor. apply (gfv (knd p)); auto. intros q Hq Kq E. destruct (gdata q Hq Kq) as (_ & _ & G & _). rewrite G, xorb_assoc. f_equal.
        unfold AA. rewrite E, <- P1, <- P2. destruct (knd p) eqn:Kp; [congruence| |]; cbn [other]; rewrite Z1, Z2;
          rewrite ?xorb_false_l, ?xorb_false_r; try reflexivity; apply xorb_comm. }
      rewrite Far, <- N1, <- N2.
      assert (X1 : xorb (fv ps (px V3) (padd (pos p) (if isk KX p then s2 else s1))) (fv ps (px V3) (padd (pos p) (if isk KX p then s1 else s2))) =
                   xorb (fv ps (px V3) (padd (pos p) s1)) (fv ps (px V3) (padd (pos p) s2))) by (destruct (isk KX p); [apply xorb_comm|reflexivity]).
      rewrite (xorb_assoc (fv ps X (padd (pos p) s3))), X1, (Near s1), (Near s2) by auto.
      repeat match goal with |- context [fv ps ?f ?r] => generalize (fv ps f r); intros ? end.
      repeat match goal with b : bool |- _ => destruct b; try reflexivity end.
    Qed.
    Lemma gdisj a q : In a ancs -> In q (fst (xzzx l a)) \/ In q (snd (xzzx l a)) -> ~ In q ancs.
    Proof.
      intros Ha Hq Hq'. apply (anc_place ps) in Ha as (p & Hi & K & <-). apply (anc_place ps) in Hq' as (p' & Hi' & K' & <-).
      destruct in_sh as (I0 & I1 & I2 & I3). unfold xzzx in Hq. cbn [fst snd] in Hq. rewrite <- D0, <- D1, <- D2, <- D3, !in_app_iff in Hq.
      assert (G : forall s, In s shifts -> ~ In (pl_lab p') (get_neighbors l [pl_lab p] (Some (dirn s)))).
      { intros s Hs H. apply in_map_iff in H as ([x y] & E & H). cbn in E. subst y.
        apply (dir_pair _ _ _ _ _ P) in H as (b & d & Hb & Hd & L & L' & E & [<-|[]] & Kk); auto.
        apply (lab_eq _ _ _ _ _ P) in L, L'; auto. subst. tauto. }
      destruct Hq as [[H|H]|[H|H]]; eapply G; try exact H; assumption.
    Qed.
    Lemma google_peq : peq V8 (Pauli (fun q => if mem q ancs then anti (xzzx l) X u q else xorb (X q) (sumx (xzzx l) ancs u q))
                                     (fun q => xorb (u q) (sumz (xzzx l) ancs u q))).
    Proof.
      intros q. cbn [px pz]. destruct (mem q (map pl_lab ps)) eqn:M.
      - apply mem_In in M. apply in_map_iff in M as (p & <- & Hi). rewrite (mem_ancs _ _ _ _ _ P) by assumption.
        destruct (isanc p) eqn:Ia.
        + pose proof (proj1 (isanc_spec p) Ia) as K. destruct (ganc p Hi K) as [-> ->].
          destruct (sum_out (xzzx l) ancs gdisj u (pl_lab p)) as [_ ->]; [apply mem_In; now rewrite (mem_ancs _ _ _ _ _ P)|].
          now rewrite xorb_false_r.
        + assert (K : knd p = KD) by (unfold isanc in Ia; now destruct (knd p)).
          destruct (gsum_x p Hi K) as [-> ->]. destruct (gdata p Hi K) as (_ & _ & E6 & E7).
          unfold V8, had. cbn [px pz]. rewrite mem_anc2, Ia by assumption. change (px V7) with (px V6). rewrite E6, E7, !xorb_assoc. auto.
      - assert (Hn : ~ In q (map pl_lab ps)) by (intros H; apply mem_In in H; congruence).
        assert (Na : mem q ancs = false) by now apply mem_out.
        assert (Na2 : mem q anc2 = false).
        { apply mem_not. intros H. apply in_app_iff in H as [H|H]; apply in_map_iff in H as (x & <- & H); apply Hn, in_map; now apply filter_In in H. }
        assert (Nd : mem q (labs KD) = false) by now apply mem_out. rewrite Na.
        assert (Z : forall (f : string -> list string), (forall p, In p ps -> incl (f (pl_lab p)) (map pl_lab ps)) ->
          xorl (map (fun a => u a && on (f a) q) ancs) = false).
        { intros f Hf. apply xorl_false. intros b Hb. apply in_map_iff in Hb as (a & <- & Ha). apply (anc_place ps) in Ha as (p & Hi & _ & <-).
          apply andb_false_iff. right. apply mem_not. intros H. apply Hn. now apply (Hf p Hi). }
        assert (I : forall p d, In p ps -> incl (get_neighbors l [pl_lab p] (Some d)) (map pl_lab ps)).
        { intros p d Hi x H. apply in_map_iff in H as ([b c] & E & H). cbn in E. subst c. apply (pn_dir _ _ _ _ _ P) in H as [_ (p1 & p2 & s & _ & H2 & _ & _ & <- & _)].
          now apply in_map. }
        unfold sumx, sumz. rewrite !Z by (intros p Hi; unfold xzzx; cbn [fst snd]; apply incl_app; now apply I).
        unfold V8, V7, V6, V5, V4, V3, V2, V1, czl, had. cbn [px pz]. rewrite Na, Na2, Nd.
        destruct lay0 as (_ & _ & O0 & _), lay1 as (_ & _ & O1 & _), lay2 as (_ & _ & O2 & _), lay3 as (_ & _ & O3 & _).
        rewrite O0, O1, O2, O3 by assumption. rewrite !xorb_false_r. auto.
    Qed.
  End Act.
  Lemma google_acts : acts (xzzx l) ancs ginner.
  Proof.
    split.
    - unfold ginner, cz_gates. rewrite !num_meas_app, !num_meas_map. cbn [is_meas].
      assert (Z : forall L : list (string * string), num_meas (map (fun p => G2 GCZ (fst p) (snd p)) L) = 0%nat).
      { induction L as [|x L IH]; [reflexivity|exact IH]. }
      now rewrite !Z.
    - intros X u sel HX. eapply bk_eq; [apply ginner_V8|apply peq_refl|]. now apply google_peq.
  Qed.
  Lemma google_lemma : measures_with id true l (xzzx l) (run_blocks (google_round ord l)) /\ preserves id l (xzzx l) (run_blocks (google_round ord l)).
  Proof.
    apply (after_circ (xzzx l) ancs ginner).
    - eapply ancs_nodup; exact P.
    - exact gdisj.
    - exact google_acts.
    - exact google_ok.
    - exact google_gates.
    - apply (pn_anc _ _ _ _ _ P).
  Qed.
End Google.

Lemma rot_HC a p q s : In p (rot_ps a) -> In q (rot_ps a) -> knd p <> KD -> s = (1, -1) \/ s = (-1, 1) ->
  padd (pos q) (-1, -1) = padd (pos p) s -> knd q <> knd p.
Proof.
  intros Hi Hq K Hs E Kq. apply ps_kpos in Hi, Hq. rewrite Kq in Hq. destruct (pos p) as [r c], (pos q) as [r' c'].
  unfold padd in E. cbn [fst snd] in E. destruct Hs as [->| ->]; cbn [fst snd] in E; injection E as E1 E2;
    (destruct (knd p); [congruence| |]); cbn [kpos] in Hi, Hq; unfold xpos, zpos in Hi, Hq; cbn [fst snd] in *; lia.
Qed.
Lemma rot_google a l ord : (forall k s, Permutation (ord k s) s) -> 0 <= ga_dx a -> 0 <= ga_dz a -> rot_surface_code_rectangle a = Ok l ->
  measures_with id true l (xzzx l) (run_blocks (google_round ord l)) /\ preserves id l (xzzx l) (run_blocks (google_round ord l)).
Proof.
  intros Hp Hx Hz E. destruct (rot_planar a) as (l' & r & E' & _ & _ & P & _ & _ & _ & _ & _ & O & C); [lia|lia|].
  rewrite E in E'. injection E' as <-. clear E.
  apply (google_lemma l rot_shifts rot_dirn (rot_pt a) (rot_ps a) P (1, 1) (1, -1) (-1, 1) (-1, -1)); auto.
  - apply rot_Ns.
  - intros p q s. now apply (rot_HG a l).
  - intros p q s. apply rot_HC.
Qed.
