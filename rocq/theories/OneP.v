(** Every qubit is in one operation of every step of the QEC rounds. *)
From Coq Require Import QArith Qcanon.
From Verif Require Import Base Lib StimM SetupM NoiseM SpecNoise NoiseP LayoutM SpecLayout LayoutP LayoutP2 DetM DetP
  GenM GenP SpecGen GeomP RotP RotP2 UnrotP BlockM SpecTrack TrackP ActP RoundP CssP CssP2 PipeP RoundTopP XzzxP.
Open Scope Z_scope.
Local Opaque rot_ps unrot_ps.

Lemma flat_pairs_perm (L : list (string * string)) : Permutation (flat_pairs L) (map fst L ++ map snd L).
Proof.
  induction L as [|[a b] L IH]; [constructor|]. cbn [flat_pairs flat_map map fst snd app]. apply perm_skip.
  apply Permutation_cons_app. exact IH.
Qed.
Lemma nodup_key {A B} (f : A -> B) (L : list A) : NoDup L -> (forall x y, In x L -> In y L -> f x = f y -> x = y) -> NoDup (map f L).
Proof.
  induction 1 as [|x L Hn N IH]; intros F; [constructor|]. cbn [map]. constructor.
  - intros H. apply in_map_iff in H as (y & E & H). apply F in E; [subst; contradiction|now right|now left].
  - apply IH. intros a b Ha Hb. apply F; now right.
Qed.
Lemma nodup_app {A} (a b : list A) : NoDup a -> NoDup b -> (forall x, In x a -> ~ In x b) -> NoDup (a ++ b).
Proof.
  induction 1 as [|x a Hn N IH]; intros Nb D; [exact Nb|]. cbn [app]. constructor.
  - rewrite in_app_iff. intros [H|H]; [contradiction|]. apply (D x); [now left|exact H].
  - apply IH; [exact Nb|]. intros y Hy. apply D. now right.
Qed.

Section One.
  Context (l : layout) (shifts : list (Z * Z)) (dirn : Z * Z -> string) (pt : Qc * Qc) (ps : list placed).
  Hypothesis P : planar l shifts dirn pt ps.
  Context (ord : nat -> list string -> list string).
  Hypothesis Hp : forall k s, Permutation (ord k s) s.
  Local Notation labs := (labs ps).
  Local Notation ancs := (ancs ps).
  Local Notation all := (map pl_lab ps).
  Local Notation get := (fun k d => get_pairs l (labs k) (Some (dirn d))).
  Lemma data_anc : Permutation (labs KD ++ ancs) all.
  Proof.
    unfold RoundP.labs, RoundP.ancs. clear. induction ps as [|p qs IH]; [constructor|]. cbn [filter]. unfold isk, isanc in *.
    destruct (knd p); cbn [map app]; [now apply perm_skip| |]; apply Permutation_sym, Permutation_cons_app, Permutation_sym; exact IH.
  Qed.
  Lemma x_z_anc : Permutation (labs KX ++ labs KZ) ancs.
  Proof.
    unfold RoundP.labs, RoundP.ancs. clear. induction ps as [|p qs IH]; [constructor|]. cbn [filter]. unfold isk, isanc in *.
    destruct (knd p); cbn [map app]; [exact IH|now apply perm_skip|]; apply Permutation_sym, Permutation_cons_app, Permutation_sym; exact IH.
  Qed.
  Lemma all_nodup : NoDup all. Proof. apply (pn_nlab _ _ _ _ _ P). Qed.
  Lemma qubits_all (A : list string) : Permutation A ancs -> Permutation (dedup (labs KD ++ A)) all.
  Proof.
    intros HA. assert (E : Permutation (labs KD ++ A) all) by (rewrite <- data_anc; now apply Permutation_app_head).
    rewrite dedup_nodup; [exact E|]. eapply Permutation_NoDup; [symmetry; exact E|apply all_nodup].
  Qed.
  (* the operated qubits and the others *)
  Lemma fill k (Q A B : list string) : Permutation Q all -> NoDup A -> incl A all -> (forall q, In q A <-> In q B) ->
    Permutation (A ++ ord k (diff Q B)) all.
  Proof.
    intros HQ NA I E. rewrite (Permutation_app_head A (Hp k _)). rewrite <- HQ.
    assert (NQ : NoDup Q) by (eapply Permutation_NoDup; [symmetry; exact HQ|apply all_nodup]).
    apply NoDup_Permutation; [|exact NQ|].
    - apply nodup_app; [exact NA|now apply NoDup_filter|]. intros x Hx H. apply filter_In in H as [_ H].
      apply negb_true_iff in H. apply E, mem_In in Hx. congruence.
    - intros x. rewrite in_app_iff. unfold diff. rewrite filter_In, negb_true_iff. split.
      + intros [H|[H _]]; [|exact H]. eapply Permutation_in; [symmetry; exact HQ|now apply I].
      + intros H. destruct (mem x B) eqn:M; [left; apply E; now apply mem_In|right; auto].
  Qed.
  (* layers of pairs *)
  Definition matching (L : list (string * string)) : Prop := NoDup (flat_pairs L) /\ incl (flat_pairs L) all.
  Lemma matching_of (L : list (string * string)) : NoDup L ->
    (forall a b, In (a, b) L -> exists p d, In p ps /\ In d ps /\ knd p <> KD /\ knd d = KD /\ pl_lab p = a /\ pl_lab d = b) ->
    (forall a b b', In (a, b) L -> In (a, b') L -> b = b') -> (forall a a' b, In (a, b) L -> In (a', b) L -> a = a') -> matching L.
  Proof.
    intros N K F S. split.
    - eapply Permutation_NoDup; [symmetry; apply flat_pairs_perm|]. apply nodup_app.
      + apply nodup_key; [exact N|]. intros [a b] [a' b'] H H' E. cbn in E. subst a'. f_equal. eauto.
      + apply nodup_key; [exact N|]. intros [a b] [a' b'] H H' E. cbn in E. subst b'. f_equal. eauto.
      + intros x Hx Hx'. apply in_map_iff in Hx as ([a b] & E & H), Hx' as ([a' b'] & E' & H'). cbn in E, E'. subst a b'.
        apply K in H as (p & d & Hi & Hd & Kp & Kd & L1 & L2), H' as (p' & d' & Hi' & Hd' & Kp' & Kd' & L1' & L2').
        rewrite <- L1 in L2'. apply (lab_eq _ _ _ _ _ P) in L2'; auto. subst. congruence.
    - intros x H. eapply Permutation_in in H; [|apply flat_pairs_perm]. apply in_app_iff in H as [H|H]; apply in_map_iff in H as ([a b] & <- & H);
        apply K in H as (p & d & Hi & Hd & _ & _ & <- & <-); cbn [fst snd]; now apply in_map.
  Qed.
  Lemma layer_pair qs s a b : In s shifts -> anc_set ps qs -> In (a, b) (get_pairs l qs (Some (dirn s))) ->
    exists p d, In p ps /\ In d ps /\ knd p <> KD /\ knd d = KD /\ pl_lab p = a /\ pl_lab d = b /\ pos d = padd (pos p) s /\ In a qs.
  Proof.
    intros Hs A H. apply (dir_pair _ _ _ _ _ P) in H as (p & d & Hi & Hd & <- & <- & E & Ha & K); auto. exists p, d.
    assert (Kp : knd p <> KD) by (apply A; auto). repeat split; auto. destruct (knd d); auto; exfalso; apply Kp, K; discriminate.
  Qed.
  Lemma padd_inj_l p q s : padd p s = padd q s -> p = q.
  Proof. destruct p, q. unfold padd. cbn. intros [= A B]. f_equal; lia. Qed.
  Lemma match_one qs s : In s shifts -> anc_set ps qs -> matching (get_pairs l qs (Some (dirn s))).
  Proof.
    intros Hs A. apply matching_of.
    - apply get_pairs_nodup, (pn_wf _ _ _ _ _ P).
    - intros a b H. apply layer_pair in H as (p & d & H); auto. exists p, d. tauto.
    - intros a b b' H H'. apply layer_pair in H as (p & d & Hi & Hd & Kp & Kd & L1 & <- & E & _), H' as (p' & d' & Hi' & Hd' & Kp' & Kd' & L1' & <- & E' & _); auto.
      subst a. apply (lab_eq _ _ _ _ _ P) in L1'; auto. subst p'. f_equal. apply (pos_eq _ _ _ _ _ P); auto. congruence.
    - intros a a' b H H'. apply layer_pair in H as (p & d & Hi & Hd & Kp & Kd & <- & L2 & E & _), H' as (p' & d' & Hi' & Hd' & Kp' & Kd' & <- & L2' & E' & _); auto.
      subst b. apply (lab_eq _ _ _ _ _ P) in L2'; auto. subst d'. f_equal. apply (pos_eq _ _ _ _ _ P); auto. eapply padd_inj_l. rewrite <- E, <- E'. reflexivity.
  Qed.
  Lemma match_two kx kz : In kx shifts -> In kz shifts ->
    (forall p q, In p ps -> In q ps -> knd p = KX -> knd q = KZ -> padd (pos p) kx <> padd (pos q) kz) ->
    matching (get KX kx ++ get KZ kz).
  Proof.
    intros Hx Hz D.
    assert (AX : anc_set ps (labs KX)) by (apply (labs_anc _ _ _ _ _ P); discriminate).
    assert (AZ : anc_set ps (labs KZ)) by (apply (labs_anc _ _ _ _ _ P); discriminate).
    destruct (match_one (labs KX) kx Hx AX) as [N1 I1], (match_one (labs KZ) kz Hz AZ) as [N2 I2].
    assert (Fl : forall A B, flat_pairs (A ++ B) = flat_pairs A ++ flat_pairs B) by (intros; unfold flat_pairs; apply flat_map_app).
    split; rewrite Fl; [|now apply incl_app]. apply nodup_app; auto. intros x H1 H2.
    assert (G : forall k s, k <> KD -> In s shifts -> In x (flat_pairs (get k s)) -> exists p d, In p ps /\ In d ps /\ knd p = k /\ knd d = KD /\
      pos d = padd (pos p) s /\ (x = pl_lab p \/ x = pl_lab d)).
    { intros k s Hk Hs H. unfold flat_pairs in H. apply in_flat_map in H as ([a b] & H & Hab).
      apply layer_pair in H as (p & d & Hi & Hd & Kp & Kd & <- & <- & E & Ha); auto; [|now apply (labs_anc _ _ _ _ _ P)].
      exists p, d. apply kind_In in Ha as (p' & Hi' & Kk & L). apply (lab_eq _ _ _ _ _ P) in L; auto. subst p'. cbn in Hab.
      repeat split; auto. destruct Hab as [<-|[<-|[]]]; auto. }
    apply G in H1 as (p & d & Hi & Hd & Kp & Kd & E & X), H2 as (p' & d' & Hi' & Hd' & Kp' & Kd' & E' & X'); auto; try discriminate.
    destruct X as [->| ->], X' as [X'|X']; apply (lab_eq _ _ _ _ _ P) in X'; auto; subst; try congruence.
    apply (D p p'); auto. congruence.
  Qed.
  Lemma apart_same s p q : In p ps -> In q ps -> knd p = KX -> knd q = KZ -> padd (pos p) s <> padd (pos q) s.
  Proof. intros Hi Hq K K' E. apply padd_inj_l in E. apply (pos_eq _ _ _ _ _ P) in E; auto. subst. congruence. Qed.

  (* the kinds of steps *)
  Definition good (b : block) : Prop := Forall is_operation b /\ Permutation (operands b) all.
  Lemma get_all : get_qubits l [] = Ok all.
  Proof. cbn [get_qubits]. unfold dkeys. now rewrite (pn_nodes _ _ _ _ _ P). Qed.
  Lemma good_anc_data o : o <> OINC -> good [Call o ancs; Call OIDLE (labs KD)].
  Proof.
    intros Ho. split; [repeat constructor; destruct o; simpl; auto|]. unfold operands. cbn [flat_map]. rewrite app_nil_r.
    rewrite Permutation_app_comm. apply data_anc.
  Qed.
  Lemma good_data_anc o : o <> OINC -> good [Call o (labs KD); Call OIDLE ancs].
  Proof.
    intros Ho. split; [repeat constructor; destruct o; simpl; auto|]. unfold operands. cbn [flat_map]. rewrite app_nil_r. apply data_anc.
  Qed.
  Lemma good_had k Q R : Permutation Q all -> NoDup R -> incl R all -> good (had_block ord k Q R).
  Proof.
    intros HQ N I. split; [repeat constructor|]. unfold operands, had_block. cbn [flat_map]. rewrite app_nil_r.
    rewrite (Permutation_app_tail _ (Hp k R)). apply fill; auto. tauto.
  Qed.
  Lemma good_cz k Q L : Permutation Q all -> matching L ->
    good [Call OCZ (flat_pairs L); Call OIDLE (ord k (diff Q (dedup (flat_pairs L))))].
  Proof.
    intros HQ [N I]. split; [repeat constructor|]. unfold operands. cbn [flat_map]. rewrite app_nil_r. apply fill; auto.
    intros q. now rewrite dedup_In.
  Qed.
  Lemma good_cz2 k Q A B : Permutation Q all -> matching (A ++ B) ->
    good [Call OCZ (flat_pairs A); Call OCZ (flat_pairs B); Call OIDLE (ord k (diff Q (dedup (flat_pairs A ++ flat_pairs B ++ []))))].
  Proof.
    intros HQ [N I]. split; [repeat constructor|]. unfold operands. cbn [flat_map]. rewrite app_nil_r, app_assoc, app_nil_r.
    assert (Fl : flat_pairs (A ++ B) = flat_pairs A ++ flat_pairs B) by (unfold flat_pairs; apply flat_map_app). rewrite Fl in N, I.
    apply fill; auto. intros q. now rewrite dedup_In.
  Qed.
  Lemma timed inc steps bl : bl = flat_map (fun b => [Ok b; Ok [CTick]]) ([Call OINC inc] :: steps) -> Forall good steps -> one_each l bl.
  Proof. intros E F. exists all, inc, steps. split; [apply get_all|]. split; [apply all_nodup|]. auto. Qed.

  (** * CSS rounds *)
  Section CssOne.
    Context (s0 s1 s2 s3 : Z * Z) (code : string).
    Hypothesis Hin : In s0 shifts /\ In s1 shifts /\ In s2 shifts /\ In s3 shifts.
    Hypothesis Hcode : l_code l = code.
    Hypothesis Hord : l_order l = [("x_type", [dirn s0; dirn s1; dirn s2; dirn s3]); ("z_type", [dirn s0; dirn s2; dirn s1; dirn s3])].
    Hypothesis HB : forall p q, In p ps -> In q ps -> knd p = KX -> knd q = KZ ->
      padd (pos p) s1 <> padd (pos q) s2 /\ padd (pos p) s2 <> padd (pos q) s1.
    Lemma nbr_all qs d : incl (get_neighbors l qs (Some d)) all.
    Proof.
      intros x H. apply in_map_iff in H as ([a b] & E & H). cbn in E. subst b.
      apply (pn_dir _ _ _ _ _ P) in H as [_ (p1 & p2 & s & _ & H2 & _ & _ & <- & _)]. now apply in_map.
    Qed.
    Lemma anc_all : incl ancs all.
    Proof. intros x H. apply in_map_iff in H as (p & <- & H). apply filter_In in H as [H _]. now apply in_map. Qed.
    Lemma css_one reset : one_each l (css_round ord code l reset).
    Proof.
      destruct Hin as (I0 & I1 & I2 & I3).
      pose proof (qubits_all ancs (Permutation_refl _)) as HQ.
      unfold css_round. rewrite Hcode, eqb_refl. cbn [negb generator].
      rewrite (pn_data _ _ _ _ _ P), (pn_anc _ _ _ _ _ P), (pn_x _ _ _ _ _ P). cbn [bind generator].
      fold (labs KD). fold ancs. fold (labs KX). unfold css_rot, order_at, dget_err. rewrite Hord. cbn [dget eqb]. rewrite eqb_refl. cbn [bind of_opt nth_error].
      unfold cz_block, cz_lists, order_at, dget_err. rewrite Hord. cbn [dkeys map fst mapM dget].
      rewrite (pn_x _ _ _ _ _ P), (pn_z _ _ _ _ _ P). rewrite !eqb_refl. cbn [bind].
      replace (eqb "z_type"%string "x_type"%string) with false by reflexivity. cbn [bind of_opt nth_error]. fold (labs KX). fold (labs KZ).
      set (R := union (union (dedup ancs) (get_neighbors l (labs KX) (Some (dirn s0)))) (get_neighbors l (labs KX) (Some (dirn s3)))).
      assert (NR : NoDup R) by (unfold R, union; apply dedup_NoDup).
      assert (IR : incl R all).
      { intros x. unfold R, union. rewrite dedup_In, in_app_iff, dedup_In, in_app_iff, dedup_In. intros [[H|H]|H]; [now apply anc_all| |]; now apply nbr_all in H. }
      unfold round_start, round_end, tick_block. cbn [concat].
      set (mid := [had_block ord 0 (dedup (labs KD ++ ancs)) R;
        [Call OCZ (flat_pairs (get KX s0)); Call OCZ (flat_pairs (get KZ s0)); Call OIDLE (ord 2%nat (diff (dedup (labs KD ++ ancs)) (dedup (flat_pairs (get KX s0) ++ flat_pairs (get KZ s0) ++ []))))];
        [Call OH (labs KD); Call OIDLE ancs];
        [Call OCZ (flat_pairs (get KX s1)); Call OCZ (flat_pairs (get KZ s2)); Call OIDLE (ord 3%nat (diff (dedup (labs KD ++ ancs)) (dedup (flat_pairs (get KX s1) ++ flat_pairs (get KZ s2) ++ []))))];
        [Call OCZ (flat_pairs (get KX s2)); Call OCZ (flat_pairs (get KZ s1)); Call OIDLE (ord 4%nat (diff (dedup (labs KD ++ ancs)) (dedup (flat_pairs (get KX s2) ++ flat_pairs (get KZ s1) ++ []))))];
        [Call OH (labs KD); Call OIDLE ancs];
        [Call OCZ (flat_pairs (get KX s3)); Call OCZ (flat_pairs (get KZ s3)); Call OIDLE (ord 5%nat (diff (dedup (labs KD ++ ancs)) (dedup (flat_pairs (get KX s3) ++ flat_pairs (get KZ s3) ++ []))))];
        had_block ord 6 (dedup (labs KD ++ ancs)) R; [Call OM ancs; Call OIDLE (labs KD)]]).
      assert (GM : Forall good mid).
      { assert (C : forall k kx kz, In kx shifts -> In kz shifts ->
          (forall p q, In p ps -> In q ps -> knd p = KX -> knd q = KZ -> padd (pos p) kx <> padd (pos q) kz) ->
          good [Call OCZ (flat_pairs (get KX kx)); Call OCZ (flat_pairs (get KZ kz));
                Call OIDLE (ord k (diff (dedup (labs KD ++ ancs)) (dedup (flat_pairs (get KX kx) ++ flat_pairs (get KZ kz) ++ []))))]).
        { intros k kx kz Hx Hz D. apply good_cz2; [exact HQ|]. now apply match_two. }
        unfold mid.
        apply Forall_cons; [apply good_had; assumption|]. apply Forall_cons; [apply C; auto; apply apart_same|].
        apply Forall_cons; [apply good_data_anc; discriminate|]. apply Forall_cons; [apply C; auto; intros; now apply HB|].
        apply Forall_cons; [apply C; auto; intros; now apply HB|]. apply Forall_cons; [apply good_data_anc; discriminate|].
        apply Forall_cons; [apply C; auto; apply apart_same|]. apply Forall_cons; [apply good_had; assumption|].
        apply Forall_cons; [apply good_anc_data; discriminate|]. constructor. }
      destruct reset.
      - apply (timed (labs KD) ([Call OR ancs; Call OIDLE (labs KD)] :: mid)); [reflexivity|].
        constructor; [apply good_anc_data; discriminate|exact GM].
      - apply (timed (labs KD) mid); [reflexivity|exact GM].
    Qed.
  End CssOne.

  (** * Pipelined rounds *)
  Section PipeOne.
    Context (ox oz : list (Z * Z)) (rot : list string -> string -> list string -> list string).
    Hypothesis Px : incl ox shifts.
    Hypothesis Pz : incl oz shifts.
    Hypothesis Hcode : l_code l = "rotated_surface_code".
    Hypothesis Hord : l_order l = [("x_type", map dirn ox); ("z_type", map dirn oz)].
    Local Notation rotx := (rot (labs KD) "x_type" (labs KX)).
    Local Notation rotz := (rot (labs KD) "z_type" (labs KZ)).
    Hypothesis Nrx : NoDup rotx.
    Hypothesis Nrz : NoDup rotz.
    Hypothesis Irx : incl rotx all.
    Hypothesis Irz : incl rotz all.
    Local Notation Q := (dedup (labs KD ++ ancs)).
    Definition stepsf (k : kind) (h : nat -> nat) (es : list (nat * string)) : list block :=
      map (fun nd => let ps := flat_pairs (get_pairs l (labs k) (Some (snd nd))) in
                     [Call OCZ ps; Call OIDLE (ord (h (fst nd)) (diff Q (dedup ps)))]) es.
    Lemma steps_flat k h es : concat (map (fun nd => let ps := flat_pairs (get_pairs l (labs k) (Some (snd nd))) in
        [Ok [Call OCZ ps; Call OIDLE (ord (h (fst nd)) (diff Q (dedup ps)))]; tick_block]) es) =
      flat_map (fun b => [Ok b; Ok [CTick]]) (stepsf k h es).
    Proof. unfold stepsf. induction es as [|e es IH]; [reflexivity|]. cbn [map concat flat_map]. rewrite IH. reflexivity. Qed.
    Lemma steps_good k h es o : k <> KD -> incl o shifts -> map snd es = map dirn o -> Forall good (stepsf k h es).
    Proof.
      intros Kk. revert es. induction o as [|s o IH]; intros [|[i d] es] I E; try discriminate; [constructor|].
      cbn [map snd] in E. injection E as -> E. constructor.
      - cbn [fst snd]. apply good_cz; [apply qubits_all, Permutation_refl|]. apply match_one; [apply I; now left|]. now apply (labs_anc _ _ _ _ _ P).
      - apply IH; auto. intros x Hx. apply I. now right.
    Qed.
    Lemma flat_steps_app (a b : list block) : flat_map (fun b => [@Ok block b; Ok [CTick]]) (a ++ b) = flat_map (fun b => [Ok b; Ok [CTick]]) a ++ flat_map (fun b => [Ok b; Ok [CTick]]) b.
    Proof. apply flat_map_app. Qed.
    Lemma pipe_one reset : one_each l (pipe_round ord rot l reset).
    Proof.
      pose proof (qubits_all ancs (Permutation_refl _)) as HQ.
      unfold pipe_round. rewrite Hcode, eqb_refl. cbn [negb].
      rewrite (pn_data _ _ _ _ _ P), (pn_anc _ _ _ _ _ P). cbn [bind generator]. fold (labs KD). fold ancs.
      rewrite Hord. unfold dkeys. cbn [map fst]. change (enumerate ["x_type"; "z_type"]) with [(0%nat, "x_type"); (1%nat, "z_type")].
      cbn [map concat fst snd]. unfold pipe_part. rewrite (pn_x _ _ _ _ _ P), (pn_z _ _ _ _ _ P). cbn [bind].
      fold (labs KX). fold (labs KZ). rewrite Hord. unfold dget_err. cbn [dget]. replace (eqb "z_type"%string "x_type"%string) with false by reflexivity.
      rewrite !eqb_refl. cbn [of_opt bind generator].
      rewrite (steps_flat KX (fun n => (100 * 0 + 2 + n)%nat)), (steps_flat KZ (fun n => (100 * 1 + 2 + n)%nat)).
      set (X := stepsf KX _ _). set (Z := stepsf KZ _ _).
      assert (GX : Forall good X) by (eapply steps_good; [discriminate|exact Px|apply enumerate_snd]).
      assert (GZ : Forall good Z) by (eapply steps_good; [discriminate|exact Pz|apply enumerate_snd]).
      set (mid := [had_block ord (100 * 0) Q rotx] ++ X ++ [[Call OH (ord (100 * 0 + 98)%nat Q)]] ++ Z ++
        [had_block ord (100 * 1) Q rotz; [Call OM ancs; Call OIDLE (labs KD)]]).
      assert (GM : Forall good mid).
      { unfold mid. apply Forall_app. split; [constructor; [now apply good_had|constructor]|]. apply Forall_app. split; [exact GX|].
        apply Forall_app. split.
        - constructor; [|constructor]. split; [repeat constructor|]. unfold operands. cbn [flat_map]. rewrite app_nil_r, (Hp _ Q). exact HQ.
        - apply Forall_app. split; [exact GZ|]. constructor; [now apply good_had|]. constructor; [apply good_anc_data; discriminate|constructor]. }
      destruct reset.
      - apply (timed (labs KD) ([Call OR ancs; Call OIDLE (labs KD)] :: mid)); [|constructor; [apply good_anc_data; discriminate|exact GM]].
        unfold mid, round_start, round_end, tick_block. cbn [flat_map app]. rewrite !flat_steps_app. cbn [flat_map app]. rewrite !flat_steps_app. cbn [flat_map app].
        rewrite <- ?app_assoc. cbn [app]. rewrite <- ?app_assoc. reflexivity.
      - apply (timed (labs KD) mid); [|exact GM].
        unfold mid, round_start, round_end, tick_block. cbn [flat_map app]. rewrite !flat_steps_app. cbn [flat_map app]. rewrite !flat_steps_app. cbn [flat_map app].
        rewrite <- ?app_assoc. cbn [app]. rewrite <- ?app_assoc. reflexivity.
    Qed.
  End PipeOne.

  (** * Google's round *)
  Section GoogleOne.
    Context (s0 s1 s2 s3 : Z * Z).
    Hypothesis Hin : In s0 shifts /\ In s1 shifts /\ In s2 shifts /\ In s3 shifts.
    Hypothesis D0 : dirn s0 = "north_east".
    Hypothesis D1 : dirn s1 = "north_west".
    Hypothesis D2 : dirn s2 = "south_east".
    Hypothesis D3 : dirn s3 = "south_west".
    Hypothesis Hcode : l_code l = "rotated_surface_code".
    Hypothesis HB : forall p q, In p ps -> In q ps -> knd p = KX -> knd q = KZ ->
      padd (pos p) s1 <> padd (pos q) s2 /\ padd (pos p) s2 <> padd (pos q) s1.
    Local Notation anc2 := (labs KX ++ labs KZ).
    Lemma google_one : one_each l (google_round ord l).
    Proof.
      destruct Hin as (I0 & I1 & I2 & I3).
      pose proof (qubits_all anc2 x_z_anc) as HQ.
      assert (A2 : anc_set ps anc2).
      { intros p Hi H. apply in_app_iff in H as [H|H]; eapply (labs_anc _ _ _ _ _ P); eauto; discriminate. }
      assert (Nda : NoDup (labs KD ++ ancs)) by (eapply Permutation_NoDup; [symmetry; apply data_anc|apply all_nodup]).
      assert (Nd : NoDup (labs KD)) by (apply NoDup_app_inv in Nda; apply Nda).
      assert (Na : NoDup ancs) by (eapply ancs_nodup; exact P).
      assert (Na2 : NoDup anc2) by (eapply Permutation_NoDup; [symmetry; apply x_z_anc|exact Na]).
      unfold google_round, google_coherent. rewrite Hcode, eqb_refl. cbn [negb].
      rewrite (pn_data _ _ _ _ _ P), (pn_anc _ _ _ _ _ P), (pn_x _ _ _ _ _ P), (pn_z _ _ _ _ _ P). cbn [bind generator].
      fold (labs KD). fold ancs. fold (labs KX). fold (labs KZ). rewrite <- D0, <- D1, <- D2, <- D3.
      rewrite (dedup_nodup (labs KD) Nd), (dedup_nodup ancs Na), (dedup_nodup anc2 Na2).
      set (steps := [[Call OH (ord 0%nat anc2); Call OX (ord 1%nat (labs KD))];
        google_cz1 ord 2 l (dedup (labs KD ++ anc2)) anc2 (dirn s0);
        [Call OH (ord 3%nat (labs KD)); Call OX (ord 4%nat anc2)];
        google_cz ord 5 l (dedup (labs KD ++ anc2)) (labs KX) (labs KZ) (dirn s1) (dirn s2);
        [Call OX (ord 6%nat (dedup (labs KD ++ anc2)))];
        google_cz ord 7 l (dedup (labs KD ++ anc2)) (labs KX) (labs KZ) (dirn s2) (dirn s1);
        [Call OH (ord 8%nat (labs KD)); Call OX (ord 9%nat anc2)];
        google_cz1 ord 10 l (dedup (labs KD ++ anc2)) anc2 (dirn s3);
        [Call OH (ord 11%nat ancs); Call OX (labs KD)];
        [Call OM ancs; Call OIDLE (labs KD)]; [Call OR ancs; Call OIDLE (labs KD)]]).
      apply (timed (labs KD) steps); [reflexivity|].
      assert (DA : forall A B, Permutation A (labs KD) -> Permutation B ancs -> Permutation (A ++ B ++ []) all).
      { intros A B HA HB'. rewrite app_nil_r, HA, HB'. apply data_anc. }
      assert (AD : forall A B, Permutation A ancs -> Permutation B (labs KD) -> Permutation (A ++ B ++ []) all).
      { intros A B HA HB'. rewrite app_nil_r, HA, HB', Permutation_app_comm. apply data_anc. }
      assert (O2 : forall k, Permutation (ord k anc2) ancs) by (intros k; rewrite (Hp k); apply x_z_anc).
      unfold steps.
      apply Forall_cons; [split; [repeat constructor|]; apply AD; auto|].
      apply Forall_cons; [apply good_cz; [exact HQ|now apply match_one]|].
      apply Forall_cons; [split; [repeat constructor|]; apply DA; auto|].
      apply Forall_cons; [apply good_cz; [exact HQ|apply match_two; auto; intros; now apply HB]|].
      apply Forall_cons; [split; [repeat constructor|]; unfold operands; cbn [flat_map]; rewrite app_nil_r, (Hp 6%nat); exact HQ|].
      apply Forall_cons; [apply good_cz; [exact HQ|apply match_two; auto; intros; now apply HB]|].
      apply Forall_cons; [split; [repeat constructor|]; apply DA; auto|].
      apply Forall_cons; [apply good_cz; [exact HQ|now apply match_one]|].
      apply Forall_cons; [split; [repeat constructor|]; apply AD; auto|].
      apply Forall_cons; [apply good_anc_data; discriminate|]. apply Forall_cons; [apply good_anc_data; discriminate|]. constructor.
    Qed.
  End GoogleOne.
End One.

(** * The generated layouts *)
Section Top.
  Context (a : gen_args) (l : layout) (ord : nat -> list string -> list string).
  Hypothesis Hp : forall k s, Permutation (ord k s) s.
  Lemma rot_HB p q : In p (rot_ps a) -> In q (rot_ps a) -> knd p = KX -> knd q = KZ ->
    padd (pos p) (1, -1) <> padd (pos q) (-1, 1) /\ padd (pos p) (-1, 1) <> padd (pos q) (1, -1).
  Proof.
    intros Hi Hq K K'. apply ps_kpos in Hi, Hq. rewrite K in Hi. rewrite K' in Hq. destruct (pos p) as [r c], (pos q) as [r' c'].
    cbn [kpos] in Hi, Hq. unfold xpos, zpos in Hi, Hq. unfold padd. cbn [fst snd] in *. split; intros [= E1 E2]; lia.
  Qed.
  Lemma rot_in : In (1, 1) rot_shifts /\ In (1, -1) rot_shifts /\ In (-1, 1) rot_shifts /\ In (-1, -1) rot_shifts.
  Proof. unfold rot_shifts. cbn. tauto. Qed.
  Lemma unrot_in : In (0, 1) unrot_shifts /\ In (-1, 0) unrot_shifts /\ In (1, 0) unrot_shifts /\ In (0, -1) unrot_shifts.
  Proof. unfold unrot_shifts. cbn. tauto. Qed.
  Lemma rot_css_one reset : 0 <= ga_dx a -> 0 <= ga_dz a -> rot_surface_code_rectangle a = Ok l ->
    one_each l (css_round ord "rotated_surface_code" l reset).
  Proof.
    intros Hx Hz E. destruct (rot_planar a) as (l' & r & E' & _ & _ & P & _ & _ & _ & _ & _ & O & C); [lia|lia|].
    rewrite E in E'. injection E' as <-. clear E.
    exact (css_one l rot_shifts rot_dirn (rot_pt a) (rot_ps a) P ord Hp (1, 1) (1, -1) (-1, 1) (-1, -1) _ rot_in C O rot_HB reset).
  Qed.
  Lemma rot_google_one : 0 <= ga_dx a -> 0 <= ga_dz a -> rot_surface_code_rectangle a = Ok l -> one_each l (google_round ord l).
  Proof.
    intros Hx Hz E. destruct (rot_planar a) as (l' & r & E' & _ & _ & P & _ & _ & _ & _ & _ & O & C); [lia|lia|].
    rewrite E in E'. injection E' as <-. clear E.
    exact (google_one l rot_shifts rot_dirn (rot_pt a) (rot_ps a) P ord Hp (1, 1) (1, -1) (-1, 1) (-1, -1) rot_in eq_refl eq_refl eq_refl eq_refl C rot_HB).
  Qed.
  Lemma rot_pipe_one rot reset : 0 <= ga_dx a -> 0 <= ga_dz a -> rot_surface_code_rectangle a = Ok l ->
    (forall data t s, NoDup (rot data t s)) ->
    (forall t k q, In q (rot (labs (rot_ps a) KD) t (labs (rot_ps a) k)) -> In q (map pl_lab (rot_ps a)) \/ exists u d, In q (get_neighbors l u (Some d))) ->
    one_each l (pipe_round ord rot l reset).
  Proof.
    intros Hx Hz E N I. destruct (rot_planar a) as (l' & r & E' & _ & _ & P & _ & _ & _ & _ & _ & O & C); [lia|lia|].
    rewrite E in E'. injection E' as <-. clear E.
    assert (I' : forall t k, incl (rot (labs (rot_ps a) KD) t (labs (rot_ps a) k)) (map pl_lab (rot_ps a))).
    { intros t k q H. apply I in H as [H|(u & d & H)]; [exact H|]. eapply nbr_all; [exact P|exact H]. }
    refine (pipe_one l rot_shifts rot_dirn (rot_pt a) (rot_ps a) P ord Hp _ _ rot _ _ C (eq_trans O rot_order_dirs) _ _ _ _ reset); auto.
    - intros s Hs. eapply Permutation_in; [symmetry; apply rot_Ps|exact Hs].
    - intros s Hs. eapply Permutation_in; [symmetry; apply rot_Pz|exact Hs].
  Qed.
  Lemma labs_all ps k q : In q (labs ps k) -> In q (map pl_lab ps).
  Proof. intros H. apply in_map_iff in H as (p & <- & H). apply filter_In in H as [H _]. now apply in_map. Qed.
  Lemma rot_css_pipe_one reset : 0 <= ga_dx a -> 0 <= ga_dz a -> rot_surface_code_rectangle a = Ok l -> one_each l (css_pipe_round ord l reset).
  Proof.
    intros Hx Hz E. apply rot_pipe_one; auto; [intros; apply dedup_NoDup|]. intros t k q H. left. unfold css_pipe_rot, union in H.
    rewrite dedup_In, in_app_iff, dedup_In in H. destruct H as [H|H]; [eapply labs_all; exact H|]. destruct (eqb t "x_type"); [eapply labs_all; exact H|destruct H].
  Qed.
  Lemma rot_xzzx_pipe_one reset : 0 <= ga_dx a -> 0 <= ga_dz a -> rot_surface_code_rectangle a = Ok l -> one_each l (xzzx_pipe_round ord l reset).
  Proof.
    intros Hx Hz E. apply rot_pipe_one; auto; [intros; apply dedup_NoDup|]. intros t k q H. unfold xzzx_pipe_rot, union, nw_se in H.
    rewrite dedup_In, in_app_iff, !dedup_In, in_app_iff in H. destruct H as [H|[H|H]]; [left; eapply labs_all; exact H|right; eauto|right; eauto].
  Qed.
  Lemma unrot_css_one reset : 0 <= ga_dx a -> 0 <= ga_dz a -> unrot_surface_code_rectangle a = Ok l ->
    one_each l (css_round ord "unrotated_surface_code" l reset).
  Proof.
    intros Hx Hz E. destruct (unrot_planar a) as (l' & r & E' & _ & _ & P & _ & _ & _ & _ & _ & O & C); [lia|lia|].
    rewrite E in E'. injection E' as <-. clear E.
    refine (css_one l unrot_shifts unrot_dirn (ga_pt a) (unrot_ps a) P ord Hp (0, 1) (-1, 0) (1, 0) (0, -1) _ unrot_in C O _ reset).
    intros p q Hi Hq K K'. apply ups_pos in Hi as [_ Hi], Hq as [_ Hq]. rewrite K in Hi. rewrite K' in Hq. pose proof (ukind_spec (pos p)) as Sp. pose proof (ukind_spec (pos q)) as Sq.
    rewrite <- Hi in Sp. rewrite <- Hq in Sq. destruct (pos p) as [r0 c], (pos q) as [r' c']. unfold padd. cbn [fst snd] in *. split; intros [= E1 E2]; lia.
  Qed.
End Top.
