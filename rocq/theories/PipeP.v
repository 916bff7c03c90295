(** Proofs about the pipelined rounds: what they measure and preserve. *)
From Coq Require Import QArith Qcanon.
From Verif Require Import Base Lib StimM SetupM NoiseM SpecNoise NoiseP LayoutM SpecLayout LayoutP LayoutP2 DetM
  GenM GenP SpecGen GeomP BlockM SpecTrack TrackP ActP RoundP.
Open Scope Z_scope.

Section Pipe.
  Context (l : layout) (shifts : list (Z * Z)) (dirn : Z * Z -> string) (pt : Qc * Qc) (ps : list placed).
  Hypothesis P : planar l shifts dirn pt ps.
  Hypothesis Ns : NoDup shifts.
  Context (ox oz : list (Z * Z)).
  Hypothesis Px : Permutation shifts ox.
  Hypothesis Pz : Permutation shifts oz.
  Hypothesis Hcode : l_code l = "rotated_surface_code".
  Hypothesis Hord : l_order l = [("x_type", map dirn ox); ("z_type", map dirn oz)].
  Context (ord : nat -> list string -> list string).
  Hypothesis Hp : forall k s, Permutation (ord k s) s.
  Local Notation labs := (labs ps).
  Local Notation ancs := (ancs ps).
  Context (rot : list string -> string -> list string -> list string).
  Local Notation rotx := (rot (labs KD) "x_type" (labs KX)).
  Local Notation rotz := (rot (labs KD) "z_type" (labs KZ)).
  Context (D : string -> bool).
  Hypothesis Nrx : NoDup rotx.
  Hypothesis Nrz : NoDup rotz.
  Hypothesis Hrx : forall q, mem q rotx = true <-> exists p, In p ps /\ pl_lab p = q /\ (knd p = KX \/ knd p = KD /\ D q = true).
  Hypothesis Hrz : forall q, mem q rotz = true <-> exists p, In p ps /\ pl_lab p = q /\ (knd p = KZ \/ knd p = KD /\ D q = false).
  Hypothesis Hcomm : forall p q, In p ps -> knd p = KX -> In q ps -> knd q = KZ -> commutes (on (support l (pl_lab q))) (support l (pl_lab p)).

  Definition cz_all (k : kind) (o : list (Z * Z)) : list (string * string) :=
    flat_map (fun s => get_pairs l (labs k) (Some (dirn s))) o.
  Definition qubits : list string := dedup (labs KD ++ ancs).
  Definition pinner : list (gate string) :=
    map (G1 GH) (ord 0%nat rotx) ++ cz_gates (cz_all KX ox) ++ map (G1 GH) (ord 98%nat qubits) ++
    cz_gates (cz_all KZ oz) ++ map (G1 GH) (ord 100%nat rotz).
  (* the generators *)
  Definition pst : stabilizers := fun a =>
    let d := if of_type l "x_type" a then D else fun q => negb (D q) in
    (filter d (support l a), filter (fun q => negb (d q)) (support l a)).

  Lemma blocks_concat (L : list (list (res block))) : lg_blocks (concat L) = concat (map lg_blocks L).
  Proof. induction L as [|a L IH]; [reflexivity|]. cbn [concat map]. unfold lg_blocks at 1. rewrite flat_map_app. unfold lg_blocks in IH at 1. now rewrite IH. Qed.
  Lemma blocks_app a b : lg_blocks (a ++ b) = lg_blocks a ++ lg_blocks b.
  Proof. unfold lg_blocks. now rewrite flat_map_app. Qed.
  Lemma layers_gates (k : kind) (qs : list string) (h : nat -> nat) : forall (o : list (Z * Z)) (es : list (nat * string)), map snd es = map dirn o ->
    lg_blocks (concat (map (fun nd =>
       [Ok [Call OCZ (flat_pairs (get_pairs l (labs k) (Some (snd nd))));
            Call OIDLE (ord (h (fst nd)) (diff qs (dedup (flat_pairs (get_pairs l (labs k) (Some (snd nd)))))))]; tick_block]) es)) =
    cz_gates (cz_all k o).
  Proof.
    induction o as [|s o IH]; intros [|[i d] es] E; try discriminate; [reflexivity|]. cbn [map snd] in E. injection E as -> E. cbn [map concat snd fst].
    rewrite blocks_app, (IH es E). unfold cz_all. cbn [flat_map]. rewrite cz_gates_app. f_equal.
    unfold lg_blocks, tick_block, lg_block. cbn [flat_map lg_call std_gate is_two app]. rewrite !app_nil_r. apply pair_gates_flat.
  Qed.
  Lemma enumerate_snd {A} (L : list A) : map snd (enumerate L) = L.
  Proof.
    unfold enumerate. assert (G : forall i, map snd (enumerate_from i L) = L); [|apply G].
    induction L as [|x L IH]; intros i; [reflexivity|]. cbn [enumerate_from map snd]. now rewrite IH.
  Qed.
  Lemma part_x : lg_blocks (pipe_part ord l qubits (rot (labs KD)) 0 "x_type") =
    map (G1 GH) (ord 0%nat rotx) ++ cz_gates (cz_all KX ox) ++ map (G1 GH) (ord 98%nat qubits).
  Proof.
    unfold pipe_part. rewrite (pn_x _ _ _ _ _ P). cbn [bind]. fold (labs KX). rewrite Hord. unfold dget_err. cbn [dget]. rewrite !eqb_refl. cbn [of_opt bind generator].
    rewrite !blocks_app. rewrite (layers_gates KX _ (fun n => (100 * 0 + 2 + n)%nat) ox) by apply enumerate_snd.
    unfold lg_blocks, lg_block, had_block, tick_block. cbn [flat_map lg_call std_gate is_two app]. rewrite ?app_nil_r. reflexivity.
  Qed.
  Lemma part_z : lg_blocks (pipe_part ord l qubits (rot (labs KD)) 1 "z_type") =
    cz_gates (cz_all KZ oz) ++ map (G1 GH) (ord 100%nat rotz).
  Proof.
    unfold pipe_part. rewrite (pn_z _ _ _ _ _ P). cbn [bind]. fold (labs KZ). rewrite Hord. unfold dget_err. cbn [dget].
    replace (eqb "z_type"%string "x_type"%string) with false by reflexivity. rewrite !eqb_refl. cbn [of_opt bind generator].
    rewrite !blocks_app. rewrite (layers_gates KZ _ (fun n => (100 * 1 + 2 + n)%nat) oz) by apply enumerate_snd.
    unfold lg_blocks, lg_block, had_block, tick_block. cbn [flat_map lg_call std_gate is_two app]. rewrite ?app_nil_r. reflexivity.
  Qed.
  Lemma pipe_gates reset : lg_blocks (pipe_round ord rot l reset) = round_g ancs pinner reset.
  Proof.
    unfold pipe_round. rewrite Hcode, eqb_refl. cbn [negb].
    rewrite (pn_data _ _ _ _ _ P), (pn_anc _ _ _ _ _ P). cbn [bind generator]. fold (labs KD). fold ancs.
    rewrite Hord. unfold dkeys. cbn [map fst]. change (enumerate ["x_type"; "z_type"]) with [(0%nat, "x_type"); (1%nat, "z_type")].
    cbn [map concat fst snd]. rewrite !blocks_app. fold qubits. rewrite part_x, part_z. unfold round_g, pinner.
    destruct reset; unfold round_start, round_end, tick_block, lg_blocks, lg_block; cbn [flat_map lg_call std_gate is_two app]; rewrite ?app_nil_r, <- ?app_assoc; reflexivity.
  Qed.
  Lemma pipe_ok reset : ok_blocks (pipe_round ord rot l reset).
  Proof.
    unfold pipe_round. rewrite Hcode, eqb_refl. cbn [negb].
    rewrite (pn_data _ _ _ _ _ P), (pn_anc _ _ _ _ _ P). cbn [bind generator]. unfold ok_blocks.
    apply Forall_app. split; [destruct reset; repeat constructor|]. apply Forall_app. split; [|repeat constructor].
    assert (G : forall (L : list blocks), Forall ok_blocks L -> ok_blocks (concat L)).
    { induction L as [|a L IH]; intros F; [constructor|]. inversion F; subst. apply Forall_app. split; [assumption|apply IH; assumption]. }
    apply G. apply Forall_forall. intros x Hx. apply in_map_iff in Hx as ([i t] & <- & _). cbn [fst snd].
    unfold pipe_part. destruct (get_stabs l t); cbn [bind generator]; [|repeat constructor].
    destruct (dget_err t (l_order l)); cbn [bind generator]; [|repeat constructor].
    apply Forall_app. split; [destruct i; repeat constructor|]. apply Forall_app. split; [|destruct i; repeat constructor].
    apply G. apply Forall_forall. intros y Hy. apply in_map_iff in Hy as (z & <- & _). repeat constructor.
  Qed.

  (* sums over the four directions *)
  Lemma cz_all_app k a b f q : czsum (cz_all k (a ++ b)) f q = xorb (czsum (cz_all k a) f q) (czsum (cz_all k b) f q).
  Proof. unfold cz_all. rewrite flat_map_app. apply czsum_app. Qed.
  Lemma cz_all_sum k o f q : czsum (cz_all k o) f q = xorl (map (fun s => czsum (get_pairs l (labs k) (Some (dirn s))) f q) o).
  Proof.
    induction o as [|s o IH]; [reflexivity|]. cbn [map]. rewrite xorl_cons, <- IH. unfold cz_all. cbn [flat_map]. apply czsum_app.
  Qed.
  Lemma incl_shifts o s : Permutation shifts o -> In s o -> In s shifts.
  Proof. intros H Hs. eapply Permutation_in; [symmetry; exact H|exact Hs]. Qed.
  Lemma cz_all_anc k o f p : Permutation shifts o -> k <> KD -> In p ps -> knd p = k ->
    czsum (cz_all k o) f (pl_lab p) = xorl (map f (support l (pl_lab p))).
  Proof.
    intros Ho Kk Hi K. rewrite cz_all_sum, (support_xor _ _ _ _ _ P Ns) by assumption. rewrite (xorl_perm _ _ (Permutation_map _ Ho)).
    f_equal. apply map_ext_in. intros s Hs. apply (cz_anc _ _ _ _ _ P); auto.
    - eapply incl_shifts; eauto.
    - now apply (labs_anc _ _ _ _ _ P).
    - apply mem_In. rewrite (mem_labs _ _ _ _ _ P) by assumption. unfold isk. rewrite K. now destruct k.
  Qed.
  Lemma cz_all_data k o f p : Permutation shifts o -> k <> KD -> In p ps -> knd p = KD ->
    czsum (cz_all k o) f (pl_lab p) = stabsum l (labs k) f (pl_lab p).
  Proof.
    intros Ho Kk Hi K. rewrite cz_all_sum, (stabsum_at _ _ _ _ _ P Ns) by assumption. rewrite (xorl_perm _ _ (Permutation_map _ Ho)).
    f_equal. apply map_ext_in. intros s Hs. apply (cz_data _ _ _ _ _ P); auto.
    - eapply incl_shifts; eauto.
    - now apply (labs_anc _ _ _ _ _ P).
  Qed.
  Lemma cz_all_none k o f q : Permutation shifts o -> k <> KD -> (forall p, In p ps -> pl_lab p = q -> knd p <> KD /\ knd p <> k) ->
    czsum (cz_all k o) f q = false.
  Proof.
    intros Ho Kk Hq. rewrite cz_all_sum. apply xorl_false. intros b Hb. apply in_map_iff in Hb as (s & <- & Hs).
    apply (cz_none _ _ _ _ _ P); [eapply incl_shifts; eauto|now apply (labs_anc _ _ _ _ _ P)|].
    intros p Hi L. destruct (Hq p Hi L) as [A B]. split; [exact A|]. intros H. apply mem_In in H. subst q.
    rewrite (mem_labs _ _ _ _ _ P) in H by assumption. unfold isk in H. destruct k, (knd p); congruence.
  Qed.
  Lemma cz_all_neq k o : Permutation shifts o -> Forall (fun p => fst p <> snd p) (cz_all k o).
  Proof.
    intros Ho. unfold cz_all. apply Forall_forall. intros x Hx. apply in_flat_map in Hx as (s & Hs & Hx).
    pose proof (pairs_neq _ _ _ _ _ P (labs k) s (incl_shifts _ _ Ho Hs)) as F. rewrite Forall_forall in F. now apply F.
  Qed.
  Lemma mem_perm k q L : mem q (ord k L) = mem q L.
  Proof.
    destruct (mem q L) eqn:E.
    - apply mem_In. apply mem_In in E. eapply Permutation_in; [symmetry; apply Hp|exact E].
    - apply mem_not. intros H. eapply Permutation_in in H; [|apply Hp]. apply mem_In in H. congruence.
  Qed.
  Lemma bk_Hord k L sel p : NoDup L -> bk (map (G1 GH) (ord k L)) sel p (had (fun q => mem q L) p).
  Proof.
    intros N. eapply bk_eq; [apply bk_H|apply peq_refl|].
    - eapply Permutation_NoDup; [symmetry; apply Hp|exact N].
    - intros q. unfold had. cbn. rewrite mem_perm. auto.
  Qed.
  Lemma qubits_at q : mem q qubits = mem q (map pl_lab ps).
  Proof.
    unfold qubits. destruct (mem q (map pl_lab ps)) eqn:E.
    - apply mem_In in E. apply in_map_iff in E as (p & <- & Hi). apply mem_In. apply dedup_In, in_app_iff.
      destruct (knd p) eqn:K; [left|right|right]; apply in_map, filter_In; (split; [exact Hi|]); unfold isk, isanc; now rewrite K.
    - apply mem_not. intros H. apply dedup_In, in_app_iff in H.
      assert (G : forall f, In q (map pl_lab (filter f ps)) -> In q (map pl_lab ps)).
      { intros f H'. apply in_map_iff in H' as (p & <- & H'). apply filter_In in H' as [H' _]. now apply in_map. }
      apply not_true_iff_false in E. apply E. apply mem_In. destruct H as [H|H]; eapply G; exact H.
  Qed.

  Section Act.
    Context (X u : string -> bool).
    Hypothesis HX : forall a, In a ancs -> X a = false.
    Definition U1 := had (fun q => mem q rotz) (Pauli X u).
    Definition U2 := czl (cz_all KZ oz) U1.
    Definition U3 := had (fun q => mem q qubits) U2.
    Definition U4 := czl (cz_all KX ox) U3.
    Definition U5 := had (fun q => mem q rotx) U4.
    Lemma pinner_U5 sel : bk pinner sel (Pauli X u) U5.
    Proof.
      unfold pinner. rewrite !app_assoc.
      eapply bk_app; [apply bk_Hord, Nrz|]. fold U1.
      eapply bk_app; [apply bk_CZ, cz_all_neq; exact Pz|]. fold U2.
      eapply bk_app; [apply bk_Hord; unfold qubits; apply dedup_NoDup|]. fold U3.
      eapply bk_app; [apply bk_CZ, cz_all_neq; exact Px|]. fold U4.
      apply bk_Hord, Nrx.
    Qed.
    Lemma rots_at p : In p ps ->
      (mem (pl_lab p) rotx = match knd p with KX => true | KZ => false | KD => D (pl_lab p) end) /\
      (mem (pl_lab p) rotz = match knd p with KX => false | KZ => true | KD => negb (D (pl_lab p)) end).
    Proof.
      intros Hi. split.
      - destruct (mem (pl_lab p) rotx) eqn:M.
        + apply Hrx in M as (p' & Hi' & L & E). apply (lab_eq _ _ _ _ _ P) in L; auto. subst p'. destruct E as [->|[-> E]]; auto.
        + symmetry. apply not_true_iff_false. intros E. apply not_true_iff_false in M. apply M, Hrx. exists p. split; [exact Hi|]. split; [reflexivity|].
          destruct (knd p); auto; discriminate.
      - destruct (mem (pl_lab p) rotz) eqn:M.
        + apply Hrz in M as (p' & Hi' & L & E). apply (lab_eq _ _ _ _ _ P) in L; auto. subst p'. destruct E as [->|[-> E]]; auto. now rewrite E.
        + symmetry. apply not_true_iff_false. intros E. apply not_true_iff_false in M. apply M, Hrz. exists p. split; [exact Hi|]. split; [reflexivity|].
          destruct (knd p); auto; try discriminate. right. split; [reflexivity|]. now destruct (D (pl_lab p)).
    Qed.
    Lemma qubit_at p : In p ps -> mem (pl_lab p) qubits = true.
    Proof. intros Hi. rewrite qubits_at. apply mem_In. now apply in_map. Qed.
    Lemma stabsum_ext k f g q : (forall p, In p ps -> knd p = k -> f (pl_lab p) = g (pl_lab p)) -> stabsum l (labs k) f q = stabsum l (labs k) g q.
    Proof.
      intros E. unfold stabsum. f_equal. apply map_ext_in. intros a Ha. apply in_map_iff in Ha as (p & <- & Hi).
      apply filter_In in Hi as [Hi K]. rewrite E; auto. unfold isk in K. now destruct k, (knd p).
    Qed.
    (* Z ancillas *)
    Lemma z_anc p : In p ps -> knd p = KZ ->
      px U1 (pl_lab p) = u (pl_lab p) /\
      px U5 (pl_lab p) = xorl (map (px U1) (support l (pl_lab p))) /\ pz U5 (pl_lab p) = u (pl_lab p).
    Proof.
      intros Hi K. destruct (rots_at p Hi) as [Rx Rz]. rewrite K in *.
      assert (X0 : X (pl_lab p) = false) by (apply HX, mem_In; rewrite (mem_ancs _ _ _ _ _ P) by assumption; unfold isanc; now rewrite K).
      assert (E1 : px U1 (pl_lab p) = u (pl_lab p)) by (unfold U1, had; cbn [px pz]; now rewrite Rz).
      split; [exact E1|]. unfold U5, had. cbn [px pz]. rewrite Rx. unfold U4, czl. cbn [px pz].
      rewrite (cz_all_none KX ox); [|exact Px|discriminate|intros p' Hi' L; apply (lab_eq _ _ _ _ _ P) in L; auto; subst; split; congruence].
      rewrite xorb_false_r. unfold U3, had. cbn [px pz]. rewrite (qubit_at p Hi). split; [|exact E1].
      unfold U2, czl. cbn [pz]. rewrite (cz_all_anc KZ oz); auto; [|discriminate].
      unfold U1 at 1, had. cbn [pz]. rewrite Rz. cbn. rewrite X0. apply xorb_false_l.
    Qed.
    (* data qubits *)
    Definition zsum (q : string) : bool := stabsum l (labs KZ) u q.
    Definition xsum (q : string) : bool := stabsum l (labs KX) u q.
    Lemma x_anc_x p : In p ps -> knd p = KX -> px U3 (pl_lab p) = u (pl_lab p).
    Proof.
      intros Hi K. destruct (rots_at p Hi) as [Rx Rz]. rewrite K in *. unfold U3, had. cbn [px pz]. rewrite (qubit_at p Hi).
      unfold U2, czl. cbn [pz]. rewrite (cz_all_none KZ oz); [|exact Pz|discriminate|intros p' Hi' L; apply (lab_eq _ _ _ _ _ P) in L; auto; subst; split; congruence].
      rewrite xorb_false_r. unfold U1, had. cbn [pz]. now rewrite Rz.
    Qed.
    Lemma data_U p : In p ps -> knd p = KD ->
      px U1 (pl_lab p) = (if D (pl_lab p) then X (pl_lab p) else u (pl_lab p)) /\
      px U3 (pl_lab p) = xorb (if D (pl_lab p) then u (pl_lab p) else X (pl_lab p)) (zsum (pl_lab p)) /\
      px U5 (pl_lab p) = xorb (X (pl_lab p)) (if D (pl_lab p) then xsum (pl_lab p) else zsum (pl_lab p)) /\
      pz U5 (pl_lab p) = xorb (u (pl_lab p)) (if D (pl_lab p) then zsum (pl_lab p) else xsum (pl_lab p)).
    Proof.
      intros Hi K. destruct (rots_at p Hi) as [Rx Rz]. rewrite K in *.
      assert (E1 : px U1 (pl_lab p) = (if D (pl_lab p) then X (pl_lab p) else u (pl_lab p))) by (unfold U1, had; cbn [px pz]; rewrite Rz; now destruct (D (pl_lab p))).
      assert (E2 : pz U1 (pl_lab p) = (if D (pl_lab p) then u (pl_lab p) else X (pl_lab p))) by (unfold U1, had; cbn [px pz]; rewrite Rz; now destruct (D (pl_lab p))).
      assert (E3 : px U3 (pl_lab p) = xorb (if D (pl_lab p) then u (pl_lab p) else X (pl_lab p)) (zsum (pl_lab p))).
      { unfold U3, had. cbn [px pz]. rewrite (qubit_at p Hi). unfold U2, czl. cbn [pz]. rewrite E2.
        rewrite (cz_all_data KZ oz); auto; [|discriminate]. f_equal. apply stabsum_ext. intros a Ha Ka. now apply z_anc. }
      assert (E4 : pz U4 (pl_lab p) = xorb (if D (pl_lab p) then X (pl_lab p) else u (pl_lab p)) (xsum (pl_lab p))).
      { unfold U4, czl. cbn [pz]. unfold U3 at 1, had. cbn [pz]. rewrite (qubit_at p Hi). unfold U2 at 1, czl. cbn [px]. rewrite E1.
        rewrite (cz_all_data KX ox); auto; [|discriminate]. f_equal. apply stabsum_ext. intros a Ha Ka. now apply x_anc_x. }
      split; [exact E1|]. split; [exact E3|]. unfold U5, had. cbn [px pz]. rewrite E4. change (px U4) with (px U3). rewrite E3, Rx.
      destruct (D (pl_lab p)); auto.
    Qed.
    (* the two kinds of stabilizers overlap on an even number of data qubits *)
    Lemma cross p : In p ps -> knd p = KX -> xorl (map zsum (support l (pl_lab p))) = false.
    Proof.
      intros Hi K. unfold zsum, stabsum. rewrite xorl_swap. apply xorl_false. intros b Hb. apply in_map_iff in Hb as (a & <- & Ha).
      apply in_map_iff in Ha as (z & <- & Hz). apply filter_In in Hz as [Hz Kz].
      rewrite <- (xorl_and (u (pl_lab z)) (on (support l (pl_lab z)))). apply andb_false_iff. right. apply commutes_xor. apply Hcomm; auto.
      unfold isk in Kz. now destruct (knd z).
    Qed.
    Lemma x_anc p : In p ps -> knd p = KX ->
      px U5 (pl_lab p) = xorl (map (fun q => if D q then u q else X q) (support l (pl_lab p))) /\ pz U5 (pl_lab p) = u (pl_lab p).
    Proof.
      intros Hi K. destruct (rots_at p Hi) as [Rx Rz]. rewrite K in *. pose proof (x_anc_x p Hi K) as E3.
      assert (X0 : X (pl_lab p) = false) by (apply HX, mem_In; rewrite (mem_ancs _ _ _ _ _ P) by assumption; unfold isanc; now rewrite K).
      unfold U5, had. cbn [px pz]. rewrite Rx. change (px U4) with (px U3). split; [|exact E3].
      unfold U4, czl. cbn [pz]. rewrite (cz_all_anc KX ox); auto; [|discriminate].
      unfold U3 at 1, had. cbn [pz]. rewrite (qubit_at p Hi). unfold U2 at 1, czl. cbn [px]. unfold U1 at 1, had. cbn [px]. rewrite Rz, X0, xorb_false_l.
      rewrite <- (xorb_false_r (xorl (map (fun q => if D q then u q else X q) _))), <- (cross p Hi K), <- xorl_map_xorb. f_equal.
      apply map_ext_in. intros q Hq. assert (Kn : knd p <> KD) by congruence.
      apply (support_data _ _ _ _ _ P p Hi Kn Ns) in Hq. apply data_In in Hq as (d & Hd & Kd & <-). now apply data_U.
    Qed.
    (* in terms of the generators *)
    Lemma pst_x p : In p ps -> knd p = KX -> pst (pl_lab p) = (filter D (support l (pl_lab p)), filter (fun q => negb (D q)) (support l (pl_lab p))).
    Proof. intros Hi K. unfold pst. destruct (of_type_at _ _ _ _ _ P p Hi) as [-> _]. unfold isk. now rewrite K. Qed.
    Lemma pst_z p : In p ps -> knd p = KZ -> pst (pl_lab p) = (filter (fun q => negb (D q)) (support l (pl_lab p)), filter (fun q => negb (negb (D q))) (support l (pl_lab p))).
    Proof. intros Hi K. unfold pst. destruct (of_type_at _ _ _ _ _ P p Hi) as [-> _]. unfold isk. now rewrite K. Qed.
    Lemma split_sum (d f g : string -> bool) L : xorb (xorl (map f (filter d L))) (xorl (map g (filter (fun q => negb (d q)) L))) =
      xorl (map (fun q => if d q then f q else g q) L).
    Proof.
      induction L as [|q L IH]; [reflexivity|]. cbn [filter map]. rewrite xorl_cons, <- IH. destruct (d q); cbn [negb map]; rewrite xorl_cons;
        destruct (f q), (g q), (xorl (map f _)), (xorl (map g _)); reflexivity.
    Qed.
    Lemma mem_filter (d : string -> bool) q L : mem q (filter d L) = d q && mem q L.
    Proof.
      induction L as [|a L IH]; [now rewrite andb_false_r|]. cbn [filter]. destruct (d a) eqn:Da; rewrite ?mem_cons, IH.
      - destruct (eqb_spec q a) as [->|]; [now rewrite Da|reflexivity].
      - destruct (eqb_spec q a) as [->|]; [now rewrite Da|reflexivity].
    Qed.
    Lemma ancs_sum (h : placed -> bool) : xorl (map h (filter isanc ps)) = xorb (xorl (map h (filter (isk KX) ps))) (xorl (map h (filter (isk KZ) ps))).
    Proof.
      clear. induction ps as [|p qs IH]; [reflexivity|]. cbn [filter]. unfold isanc, isk in *. destruct (knd p); cbn [map]; rewrite ?xorl_cons, IH;
        destruct (h p), (xorl (map h (filter (fun p => match knd p with KX => true | _ => false end) qs))),
                 (xorl (map h (filter (fun p => match knd p with KZ => true | _ => false end) qs))); reflexivity.
    Qed.
    Lemma pst_sum (side : bool) q : xorl (map (fun a => u a && on (if side then fst (pst a) else snd (pst a)) q) ancs) =
      if Bool.eqb side (D q) then xsum q else zsum q.
    Proof.
      unfold xsum, zsum, stabsum, RoundP.labs, RoundP.ancs. rewrite !map_map, ancs_sum.
      assert (EX : xorl (map (fun p => u (pl_lab p) && on (if side then fst (pst (pl_lab p)) else snd (pst (pl_lab p))) q) (filter (isk KX) ps)) =
        if Bool.eqb side (D q) then xorl (map (fun p => u (pl_lab p) && on (support l (pl_lab p)) q) (filter (isk KX) ps)) else false).
      { destruct (Bool.eqb side (D q)) eqn:E.
        - f_equal. apply map_ext_in. intros p Hi. apply filter_In in Hi as [Hi K]. rewrite pst_x; auto; [|unfold isk in K; now destruct (knd p)].
          f_equal. apply eqb_prop in E. subst side. unfold on. destruct (D q) eqn:Dq; cbn [fst snd]; rewrite mem_filter, Dq; reflexivity.
        - apply xorl_false. intros b Hb. apply in_map_iff in Hb as (p & <- & Hi). apply filter_In in Hi as [Hi K].
          rewrite pst_x; auto; [|unfold isk in K; now destruct (knd p)]. apply andb_false_iff. right. unfold on.
          destruct side, (D q) eqn:Dq; try discriminate; cbn [fst snd]; rewrite mem_filter, Dq; reflexivity. }
      assert (EZ : xorl (map (fun p => u (pl_lab p) && on (if side then fst (pst (pl_lab p)) else snd (pst (pl_lab p))) q) (filter (isk KZ) ps)) =
        if Bool.eqb side (D q) then false else xorl (map (fun p => u (pl_lab p) && on (support l (pl_lab p)) q) (filter (isk KZ) ps))).
      { destruct (Bool.eqb side (D q)) eqn:E.
        - apply xorl_false. intros b Hb. apply in_map_iff in Hb as (p & <- & Hi). apply filter_In in Hi as [Hi K].
          rewrite pst_z; auto; [|unfold isk in K; now destruct (knd p)]. apply andb_false_iff. right. unfold on.
          destruct side, (D q) eqn:Dq; try discriminate; cbn [fst snd]; rewrite mem_filter, Dq; reflexivity.
        - f_equal. apply map_ext_in. intros p Hi. apply filter_In in Hi as [Hi K]. rewrite pst_z; auto; [|unfold isk in K; now destruct (knd p)].
          f_equal. unfold on. destruct side, (D q) eqn:Dq; try discriminate; cbn [fst snd]; rewrite mem_filter, Dq; reflexivity. }
      rewrite EX, EZ. destruct (Bool.eqb side (D q)); [apply xorb_false_r|apply xorb_false_l].
    Qed.
    Lemma pipe_peq : peq U5 (Pauli (fun q => if mem q ancs then anti pst X u q else xorb (X q) (sumx pst ancs u q))
                                   (fun q => xorb (u q) (sumz pst ancs u q))).
    Proof.
      intros q. cbn [px pz]. unfold sumx, sumz. pose proof (pst_sum true q) as Sx. pose proof (pst_sum false q) as Sz. cbn [andb] in Sx, Sz.
      rewrite Sx, Sz. clear Sx Sz.
      destruct (mem q (map pl_lab ps)) eqn:M.
      - apply mem_In in M. apply in_map_iff in M as (p & <- & Hi). rewrite (mem_ancs _ _ _ _ _ P) by assumption. unfold isanc. destruct (knd p) eqn:K.
        + destruct (data_U p Hi K) as (_ & _ & E1 & E2). rewrite E1, E2. destruct (D (pl_lab p)); auto.
        + destruct (x_anc p Hi K) as [E1 E2]. rewrite E1, E2. assert (Kn : knd p <> KD) by congruence.
          assert (S : forall k, k <> KD -> stabsum l (labs k) u (pl_lab p) = false).
          { intros k Kk. apply (stabsum_out _ _ _ _ _ P Ns); [exact Kk|]. intros p' Hi' L. apply (lab_eq _ _ _ _ _ P) in L; auto. now subst. }
          unfold anti, xsum, zsum. rewrite !S by discriminate. rewrite (pst_x p Hi K). cbn [fst snd]. rewrite split_sum.
          split; [reflexivity|]. destruct (Bool.eqb false (D (pl_lab p))); now rewrite xorb_false_r.
        + destruct (z_anc p Hi K) as (_ & E1 & E2). rewrite E1, E2.
          assert (S : forall k, k <> KD -> stabsum l (labs k) u (pl_lab p) = false).
          { intros k Kk. apply (stabsum_out _ _ _ _ _ P Ns); [exact Kk|]. intros p' Hi' L. apply (lab_eq _ _ _ _ _ P) in L; auto. subst. congruence. }
          unfold anti, xsum, zsum. rewrite !S by discriminate. rewrite (pst_z p Hi K). cbn [fst snd]. rewrite split_sum.
          split; [|destruct (Bool.eqb false (D (pl_lab p))); now rewrite xorb_false_r]. f_equal. apply map_ext_in. intros q Hq.
          assert (Kn : knd p <> KD) by congruence. apply (support_data _ _ _ _ _ P p Hi Kn Ns) in Hq. apply data_In in Hq as (d & Hd & Kd & <-).
          destruct (data_U d Hd Kd) as (E & _). rewrite E. now destruct (D (pl_lab d)).
      - assert (Hq : forall p, In p ps -> pl_lab p = q -> False).
        { intros p Hi <-. apply not_true_iff_false in M. apply M. apply mem_In. now apply in_map. }
        assert (S : forall k, k <> KD -> stabsum l (labs k) u q = false).
        { intros k Kk. apply (stabsum_out _ _ _ _ _ P Ns); [exact Kk|]. intros p' Hi' L. destruct (Hq p' Hi' L). }
        unfold xsum, zsum. rewrite !S by discriminate.
        assert (Hn : ~ In q (map pl_lab ps)) by (intros H; apply mem_In in H; congruence).
        replace (mem q ancs) with false by (symmetry; now apply mem_out).
        assert (Mx : mem q rotx = false). { apply not_true_iff_false. intros H. apply Hrx in H as (p & Hi & L & _). destruct (Hq p Hi L). }
        assert (Mz : mem q rotz = false). { apply not_true_iff_false. intros H. apply Hrz in H as (p & Hi & L & _). destruct (Hq p Hi L). }
        unfold U5, U4, U3, U2, U1, czl, had. cbn [px pz]. rewrite qubits_at, M, Mx, Mz.
        rewrite !cz_all_none; auto; try discriminate; try (intros p Hi L; destruct (Hq p Hi L)).
        destruct (Bool.eqb true (D q)), (Bool.eqb false (D q)); rewrite !xorb_false_r; auto.
    Qed.
  End Act.
  Lemma pipe_acts : acts pst ancs pinner.
  Proof.
    split.
    - unfold pinner, cz_gates. rewrite !num_meas_app, !num_meas_map. cbn [is_meas].
      assert (Z : forall L : list (string * string), num_meas (map (fun p => G2 GCZ (fst p) (snd p)) L) = 0%nat).
      { induction L as [|x L IH]; [reflexivity|exact IH]. }
      now rewrite !Z.
    - intros X u sel HX. eapply bk_eq; [apply pinner_U5|apply peq_refl|]. now apply pipe_peq.
  Qed.
  Lemma pst_disjoint a q : In a ancs -> In q (fst (pst a)) \/ In q (snd (pst a)) -> ~ In q ancs.
  Proof.
    intros Ha Hq. pose proof (css_disjoint l shifts dirn pt ps P Ns a q Ha) as C. apply C.
    apply (anc_place ps) in Ha as (p & Hi & K & <-). unfold css. cbn [fst snd]. destruct (of_type_at _ _ _ _ _ P p Hi) as [-> ->].
    assert (Hs : In q (support l (pl_lab p))) by (unfold pst in Hq; cbn [fst snd] in Hq; rewrite !filter_In in Hq; tauto).
    unfold isk. destruct (knd p); [congruence|left|right]; exact Hs.
  Qed.
End Pipe.
