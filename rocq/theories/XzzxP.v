(** The pipelined XZZX round on the generated layouts. *)
From Coq Require Import QArith Qcanon.
From Verif Require Import Base Lib StimM SetupM NoiseM SpecNoise NoiseP LayoutM SpecLayout LayoutP LayoutP2 DetM
  GenM GenP SpecGen GeomP RotP RotP2 UnrotP BlockM SpecTrack TrackP ActP RoundP CssP CssP2 PipeP RoundTopP.
Open Scope Z_scope.
Local Opaque rot_ps unrot_ps.

Section Top.
  Context (a : gen_args) (l : layout) (ord : nat -> list string -> list string).
  Hypothesis Hp : forall k s, Permutation (ord k s) s.
  (* XZZX: the sublattices of the data qubits *)
  Lemma nw_se_In k q : planar l rot_shifts rot_dirn (rot_pt a) (rot_ps a) -> In q (nw_se l (labs (rot_ps a) k)) <->
    exists p d, In p (rot_ps a) /\ In d (rot_ps a) /\ knd p = k /\ pl_lab d = q /\ (pos d = padd (pos p) (1, -1) \/ pos d = padd (pos p) (-1, 1)).
  Proof.
    intros Pl. unfold nw_se. rewrite dedup_In, in_app_iff.
    assert (G : forall s, In s rot_shifts -> In q (get_neighbors l (labs (rot_ps a) k) (Some (rot_dirn s))) <->
      exists p d, In p (rot_ps a) /\ In d (rot_ps a) /\ knd p = k /\ pl_lab d = q /\ pos d = padd (pos p) s).
    { intros s Hs. unfold get_neighbors. rewrite in_map_iff. split.
      - intros ([x y] & E & H). cbn in E. subst y. apply (dir_pair _ _ _ _ _ Pl) in H as (p & d & Hi & Hd & <- & <- & E & Ha & _); auto.
        exists p, d. apply mem_In in Ha. rewrite (mem_labs _ _ _ _ _ Pl) in Ha by assumption.
        do 2 (split; [assumption|]). split; [|auto]. unfold isk in Ha. now destruct k, (knd p).
      - intros (p & d & Hi & Hd & K & <- & E). exists (pl_lab p, pl_lab d). split; [reflexivity|]. apply (pair_dir _ _ _ _ _ Pl); auto.
        apply mem_In. rewrite (mem_labs _ _ _ _ _ Pl) by assumption. unfold isk. now destruct k, (knd p). }
    change "north_west"%string with (rot_dirn (1, -1)). change "south_east"%string with (rot_dirn (-1, 1)).
    rewrite !G by (unfold rot_shifts; cbn; tauto). split.
    - intros [(p & d & H)|(p & d & H)]; exists p, d; tauto.
    - intros (p & d & A & B & C & D & [E|E]); [left|right]; exists p, d; auto.
  Qed.
  Definition cls (q : string) : bool := mem q (nw_se l (labs (rot_ps a) KX)).
  Lemma cls_at d : 2 <= ga_dx a -> 2 <= ga_dz a -> planar l rot_shifts rot_dirn (rot_pt a) (rot_ps a) -> In d (rot_ps a) -> knd d = KD ->
    (cls (pl_lab d) = true <-> (fst (pos d) + snd (pos d)) mod 4 = 2) /\
    (In (pl_lab d) (nw_se l (labs (rot_ps a) KZ)) <-> (fst (pos d) + snd (pos d)) mod 4 = 0).
  Proof.
    intros Hx Hz Pl Hd K. pose proof Hd as Kd. apply ps_kpos in Kd. rewrite K in Kd. cbn [kpos] in Kd. unfold dpos in Kd.
    unfold cls. rewrite mem_In. rewrite !nw_se_In by exact Pl. split; split.
    - intros (p & d' & Hi & Hd' & Kp & L & E). apply (lab_eq _ _ _ _ _ Pl) in L; auto. subst d'.
      apply ps_kpos in Hi. rewrite Kp in Hi. cbn [kpos] in Hi. unfold xpos in Hi.
      destruct (pos p) as [r c], (pos d) as [r' c']. unfold padd in E. cbn [fst snd] in *. destruct E as [E|E]; injection E as -> ->; lia.
    - intros M. destruct (pos d) as [r c] eqn:Ed. cbn [fst snd] in *. destruct (Z.eq_dec c 1) as [->|N].
      + destruct (kpos_ps a KX (r - 1, 2)) as (p & Hi & Kp & E); [unfold kpos, xpos; cbn [fst snd]; repeat split; lia|].
        exists p, d. do 3 (split; [assumption|]). split; [reflexivity|]. left. rewrite Ed, E. unfold padd. cbn [fst snd]. f_equal; lia.
      + destruct (kpos_ps a KX (r + 1, c - 1)) as (p & Hi & Kp & E); [unfold kpos, xpos; cbn [fst snd]; repeat split; lia|].
        exists p, d. do 3 (split; [assumption|]). split; [reflexivity|]. right. rewrite Ed, E. unfold padd. cbn [fst snd]. f_equal; lia.
    - intros (p & d' & Hi & Hd' & Kp & L & E). apply (lab_eq _ _ _ _ _ Pl) in L; auto. subst d'.
      apply ps_kpos in Hi. rewrite Kp in Hi. cbn [kpos] in Hi. unfold zpos in Hi.
      destruct (pos p) as [r c], (pos d) as [r' c']. unfold padd in E. cbn [fst snd] in *. destruct E as [E|E]; injection E as -> ->; lia.
    - intros M. destruct (pos d) as [r c] eqn:Ed. cbn [fst snd] in *. destruct (Z.eq_dec r 1) as [->|N].
      + destruct (kpos_ps a KZ (2, c - 1)) as (p & Hi & Kp & E); [unfold kpos, zpos; cbn [fst snd]; repeat split; lia|].
        exists p, d. do 3 (split; [assumption|]). split; [reflexivity|]. right. rewrite Ed, E. unfold padd. cbn [fst snd]. f_equal; lia.
      + destruct (kpos_ps a KZ (r - 1, c + 1)) as (p & Hi & Kp & E); [unfold kpos, zpos; cbn [fst snd]; repeat split; lia|].
        exists p, d. do 3 (split; [assumption|]). split; [reflexivity|]. left. rewrite Ed, E. unfold padd. cbn [fst snd]. f_equal; lia.
  Qed.
  Lemma cls_false d : 2 <= ga_dx a -> 2 <= ga_dz a -> planar l rot_shifts rot_dirn (rot_pt a) (rot_ps a) -> In d (rot_ps a) -> knd d = KD ->
    (cls (pl_lab d) = false <-> (fst (pos d) + snd (pos d)) mod 4 = 0).
  Proof.
    intros Hx Hz Pl Hd K. destruct (cls_at d Hx Hz Pl Hd K) as [A _]. pose proof Hd as Kd. apply ps_kpos in Kd. rewrite K in Kd. cbn [kpos] in Kd. unfold dpos in Kd.
    destruct (cls (pl_lab d)).
    - assert (E := proj1 A eq_refl). split; [discriminate|lia].
    - split; [intros _|reflexivity]. assert (N : (fst (pos d) + snd (pos d)) mod 4 <> 2) by (intros M; discriminate (proj2 A M)). lia.
  Qed.
  (* membership in the parts of the XZZX generator of an ancilla *)
  Lemma dir_mem (Pl : planar l rot_shifts rot_dirn (rot_pt a) (rot_ps a)) p q s : In p (rot_ps a) -> In s rot_shifts ->
    In q (get_neighbors l [pl_lab p] (Some (rot_dirn s))) <-> exists d, In d (rot_ps a) /\ pl_lab d = q /\ pos d = padd (pos p) s.
  Proof.
    intros Hi Hs. unfold get_neighbors. rewrite in_map_iff. split.
    - intros ([x y] & E & H). cbn in E. subst y. apply (dir_pair _ _ _ _ _ Pl) in H as (p' & d & Hi' & Hd & L & <- & E & Ha & _); auto.
      destruct Ha as [<-|[]]. apply (lab_eq _ _ _ _ _ Pl) in L; auto. subst p'. eauto.
    - intros (d & Hd & <- & E). exists (pl_lab p, pl_lab d). split; [reflexivity|]. apply (pair_dir _ _ _ _ _ Pl); auto. now left.
  Qed.
  Lemma dir_nodup (Pl : planar l rot_shifts rot_dirn (rot_pt a) (rot_ps a)) p s : NoDup (get_neighbors l [pl_lab p] (Some (rot_dirn s))).
  Proof.
    unfold get_neighbors. pose proof (get_pairs_nodup l [pl_lab p] (Some (rot_dirn s)) (pn_wf _ _ _ _ _ Pl)) as N.
    assert (F : forall x, In x (get_pairs l [pl_lab p] (Some (rot_dirn s))) -> fst x = pl_lab p).
    { intros [x y] H. apply (pn_dir _ _ _ _ _ Pl) in H as [[<-|[]] _]. reflexivity. }
    revert F N. generalize (get_pairs l [pl_lab p] (Some (rot_dirn s))). intros k. induction k as [|[x y] k IH]; intros F N; [constructor|].
    inversion N as [|? ? Hn N']; subst. cbn [map snd]. constructor; [|apply IH; [intros z Hz; apply F; now right|exact N']].
    intros H. apply in_map_iff in H as ([x' y'] & E & H). cbn in E. subst y'. apply Hn.
    pose proof (F (x, y) (or_introl eq_refl)) as E1. pose proof (F (x', y) (or_intror H)) as E2. cbn in E1, E2. congruence.
  Qed.
  Lemma two_perm (Pl : planar l rot_shifts rot_dirn (rot_pt a) (rot_ps a)) p s s' f : In p (rot_ps a) -> knd p <> KD -> In s rot_shifts -> In s' rot_shifts -> s <> s' ->
    (forall d t, In d (rot_ps a) -> knd d = KD -> In t rot_shifts -> pos d = padd (pos p) t -> f (pl_lab d) = true <-> t = s \/ t = s') ->
    Permutation (filter f (support l (pl_lab p))) (get_neighbors l [pl_lab p] (Some (rot_dirn s)) ++ get_neighbors l [pl_lab p] (Some (rot_dirn s'))).
  Proof.
    intros Hi K Hs Hs' Ne Hf. apply NoDup_Permutation.
    - apply NoDup_filter. eapply (support_nodup _ _ _ _ _ Pl); [apply rot_shifts_nodup|exact Hi].
    - apply NoDup_app_intro; try now apply dir_nodup. intros q H H'. apply dir_mem in H as (d & Hd & <- & E); auto.
      apply dir_mem in H' as (d' & Hd' & L & E'); auto. apply (lab_eq _ _ _ _ _ Pl) in L; auto. subst d'. apply Ne.
      rewrite E in E'. now apply padd_inj in E'.
    - intros q. rewrite filter_In, in_app_iff, (support_mem _ _ _ _ _ Pl rot_shifts_nodup p q Hi), !dir_mem by assumption.
      assert (G : forall d t, In d (rot_ps a) -> In t rot_shifts -> pos d = padd (pos p) t -> f (pl_lab d) = true <-> t = s \/ t = s').
      { intros d t Hd Ht E. apply Hf; auto. pose proof (pn_par _ _ _ _ _ Pl p d t Hi Hd Ht E) as Par.
        destruct (knd d) eqn:Kd; auto; exfalso; apply K, Par; discriminate. }
      split.
      + intros [(d & t & Hd & Ht & <- & E) F]. apply (G d t Hd Ht E) in F as [->| ->]; [left|right]; eauto.
      + intros [(d & Hd & <- & E)|(d & Hd & <- & E)].
        * split; [exists d, s; auto|]. apply (G d s); auto.
        * split; [exists d, s'; auto|]. apply (G d s'); auto.
  Qed.
  (* the parity class of a neighbour of an ancilla *)
  Lemma nbr_cls p d t : In p (rot_ps a) -> knd p <> KD -> In t rot_shifts -> pos d = padd (pos p) t ->
    ((fst (pos d) + snd (pos d)) mod 4 = (if isk KX p then 2 else 0) <-> t = (1, -1) \/ t = (-1, 1)) /\
    ((fst (pos d) + snd (pos d)) mod 4 = (if isk KX p then 0 else 2) <-> t = (1, 1) \/ t = (-1, -1)).
  Proof.
    intros Hi K Ht E. apply ps_kpos in Hi. rewrite E. unfold padd. cbn [fst snd]. unfold isk.
    assert (M : (fst (pos p) + snd (pos p)) mod 4 = match knd p with KX => 2 | _ => 0 end).
    { destruct (knd p); [congruence| |]; cbn [kpos] in Hi; unfold xpos, zpos in Hi; tauto. }
    clear Hi E. revert M. generalize (fst (pos p)) as r, (snd (pos p)) as c. intros r c M.
    destruct Ht as [<-|[<-|[<-|[<-|[]]]]]; cbn [fst snd]; destruct (knd p); try congruence;
      (split; split; [intros H|intros [H|H]|intros H|intros [H|H]]; try discriminate H; try (exfalso; lia); try lia; auto).
  Qed.
  Lemma rot_xzzx_pipe : 2 <= ga_dx a -> 2 <= ga_dz a -> rot_surface_code_rectangle a = Ok l ->
    exists g, round_of l (xzzx l) (xzzx_pipe_round ord l) (ancs (rot_ps a)) g.
  Proof.
    intros Hx Hz E. destruct (rot_planar a) as (l' & r & E' & _ & _ & P & _ & _ & _ & _ & _ & O & C); [lia|lia|].
    rewrite E in E'. injection E' as <-. clear E. eexists. constructor.
    - apply (pn_anc _ _ _ _ _ P).
    - eapply ancs_nodup; exact P.
    - intros b q Hb Hq. apply (pst_disjoint l rot_shifts rot_dirn (rot_pt a) (rot_ps a) P rot_shifts_nodup (fun _ => true) b q Hb).
      apply (anc_place (rot_ps a)) in Hb as (p & Hi & K & <-).
      assert (S : In q (support l (pl_lab p))).
      { apply (support_mem _ _ _ _ _ P rot_shifts_nodup p q Hi). unfold xzzx in Hq. cbn [fst snd] in Hq.
        change "north_west"%string with (rot_dirn (1, -1)) in Hq. change "south_east"%string with (rot_dirn (-1, 1)) in Hq.
        change "north_east"%string with (rot_dirn (1, 1)) in Hq. change "south_west"%string with (rot_dirn (-1, -1)) in Hq.
        rewrite !in_app_iff, !(dir_mem P) in Hq by (try assumption; unfold rot_shifts; cbn; tauto).
        destruct Hq as [[(d & Hd & L & Ed)|(d & Hd & L & Ed)]|[(d & Hd & L & Ed)|(d & Hd & L & Ed)]];
          (eexists d, _; split; [exact Hd|]; split; [|split; [exact L|exact Ed]]; unfold rot_shifts; cbn; tauto). }
      unfold pst. cbn [fst snd]. rewrite !filter_In. cbn. destruct (of_type l "x_type" (pl_lab p)); cbn; auto.
    - eapply acts_ext; cycle 1.
      + eapply (pipe_acts l rot_shifts rot_dirn (rot_pt a) (rot_ps a) P rot_shifts_nodup _ _ rot_Ps rot_Pz ord Hp (xzzx_pipe_rot l) cls).
        * apply dedup_NoDup.
        * apply dedup_NoDup.
        * intros q. unfold xzzx_pipe_rot, union. rewrite mem_In, dedup_In, in_app_iff, dedup_In. unfold labs at 1. rewrite kind_In.
          assert (T : In q (nw_se l (labs (rot_ps a) KX)) <-> cls q = true) by (unfold cls; now rewrite mem_In). rewrite T. split.
          -- intros [(p & A & B & D)|D]; [exists p; auto|]. pose proof D as D'. unfold cls in D'. apply mem_In in D'.
             apply (nw_se_In _ _ P) in D' as (p & d & Hi & Hd & K & L & Ed). exists d. split; [exact Hd|]. split; [exact L|]. right.
             split; [|exact D]. assert (Ht : exists t, In t rot_shifts /\ pos d = padd (pos p) t) by (destruct Ed as [Ed|Ed]; (eexists; split; [|exact Ed]); unfold rot_shifts; cbn; tauto).
             destruct Ht as (t & Ht & Ed'). pose proof (pn_par _ _ _ _ _ P p d t Hi Hd Ht Ed') as Par. destruct (knd d) eqn:Kd; auto; assert (knd p = KD) by (apply Par; discriminate); congruence.
          -- intros (p & A & B & [D|[_ D]]); [left; exists p; auto|now right].
        * intros q. unfold xzzx_pipe_rot, union. rewrite mem_In, dedup_In, in_app_iff, dedup_In. unfold labs at 1. rewrite kind_In. split.
          -- intros [(p & A & B & D)|D]; [exists p; auto|]. pose proof D as D'.
             apply (nw_se_In _ _ P) in D' as (p & d & Hi & Hd & K & L & Ed). exists d. split; [exact Hd|]. split; [exact L|]. right.
             assert (Ht : exists t, In t rot_shifts /\ pos d = padd (pos p) t) by (destruct Ed as [Ed|Ed]; (eexists; split; [|exact Ed]); unfold rot_shifts; cbn; tauto).
             destruct Ht as (t & Ht & Ed'). pose proof (pn_par _ _ _ _ _ P p d t Hi Hd Ht Ed') as Par.
             assert (Kd : knd d = KD) by (destruct (knd d) eqn:Kd; auto; assert (knd p = KD) by (apply Par; discriminate); congruence).
             split; [exact Kd|]. subst q. apply (cls_false d Hx Hz P Hd Kd). now apply (cls_at d Hx Hz P Hd Kd).
          -- intros (p & A & B & [D|[K D]]); [left; exists p; auto|]. right. subst q. apply (cls_at p Hx Hz P A K). now apply (cls_false p Hx Hz P A K).
        * intros p q Hi K Hq Kq. eapply rot_stabs; eauto.
      + intros b Hb. apply (anc_place (rot_ps a)) in Hb as (p & Hi & K & <-).
        unfold pst, xzzx. cbn [fst snd]. destruct (of_type_at _ _ _ _ _ P p Hi) as [-> _].
        change "north_west"%string with (rot_dirn (1, -1)). change "south_east"%string with (rot_dirn (-1, 1)).
        change "north_east"%string with (rot_dirn (1, 1)). change "south_west"%string with (rot_dirn (-1, -1)).
        assert (G : forall d t, In d (rot_ps a) -> knd d = KD -> In t rot_shifts -> pos d = padd (pos p) t ->
          ((if isk KX p then cls else fun q => negb (cls q)) (pl_lab d) = true <-> t = (1, -1) \/ t = (-1, 1)) /\
          ((if isk KX p then cls else fun q => negb (cls q)) (pl_lab d) = false <-> t = (1, 1) \/ t = (-1, -1))).
        { intros d t Hd Kd Ht Ed. destruct (nbr_cls p d t Hi K Ht Ed) as [A B]. rewrite <- A, <- B.
          pose proof (proj1 (cls_at d Hx Hz P Hd Kd)) as T. pose proof (cls_false d Hx Hz P Hd Kd) as F.
          destruct (isk KX p); cbn; [rewrite T, F; tauto|]. rewrite negb_true_iff, negb_false_iff, T, F. tauto. }
        split; apply (two_perm P); auto; try (unfold rot_shifts; cbn; tauto); try discriminate.
        * intros d t Hd Kd Ht Ed. now apply G.
        * intros d t Hd Kd Ht Ed. rewrite negb_true_iff. now apply G.
    - intros reset. exact (pipe_ok l rot_shifts rot_dirn (rot_pt a) (rot_ps a) P C ord _ reset).
    - intros reset. exact (pipe_gates l rot_shifts rot_dirn (rot_pt a) (rot_ps a) P _ _ C (eq_trans O rot_order_dirs) ord (xzzx_pipe_rot l) reset).
  Qed.
End Top.
