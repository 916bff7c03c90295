(** Proofs about the transversal gates, part 3: the new stabilizers that set_trans_s
    records are what the circuit of log_trans_s does, whatever the pairs. *)
From Coq Require Import QArith Qcanon.
From Verif Require Import Base Lib StimM NoiseM LayoutM SpecLayout LayoutP LayoutP2 GenM GenP SpecGen GeomP BlockM SpecTrack TrackP
  SpecLog LogM LogP LogP2.
Open Scope Z_scope.

(** * Sets *)
Lemma toggle_mem {A} `{Eqb A} (x y : A) s : mem y (toggle x s) = xorb (mem y s) (eqb y x).
Proof.
  unfold toggle. destruct (mem x s) eqn:M.
  - assert (F : mem y (filter (fun z => negb (eqb x z)) s) = mem y s && negb (eqb x y)).
    { clear M. induction s as [|a s IH]; [reflexivity|]. cbn [filter]. destruct (eqb_spec x a) as [->|Ne]; cbn [negb]; rewrite ?mem_cons, IH, ?mem_cons.
      - destruct (eqb_spec y a) as [->|]; [now rewrite eqb_refl, !andb_false_r|reflexivity].
      - destruct (eqb_spec y a) as [->|]; [|reflexivity]. cbn [orb]. destruct (eqb_spec x a); [congruence|reflexivity]. }
    rewrite F. destruct (eqb_spec y x) as [->|N].
    + now rewrite M, eqb_refl.
    + destruct (eqb_spec x y); [congruence|]. cbn. now rewrite andb_true_r, xorb_false_r.
  - rewrite mem_cons. destruct (eqb_spec y x) as [->|]; [now rewrite M|]. cbn [orb]. now rewrite xorb_false_r.
Qed.
Lemma insert_In x y l : In y (insert_str x l) <-> y = x \/ In y l.
Proof.
  induction l as [|a l IH]; cbn; [intuition congruence|]. destruct (String.leb x a); cbn; [intuition congruence|]. rewrite IH. tauto.
Qed.
Lemma sort_In y l : In y (sort_str l) <-> In y l.
Proof. unfold sort_str. induction l as [|a l IH]; cbn; [tauto|]. rewrite insert_In, IH. intuition congruence. Qed.
Lemma sort_mem y l : mem y (sort_str l) = mem y l.
Proof.
  destruct (mem y l) eqn:E; [apply mem_In, sort_In; now apply mem_In|]. apply mem_not. rewrite sort_In. intros H. apply mem_In in H. congruence.
Qed.
Lemma insert_perm x l : Permutation (insert_str x l) (x :: l).
Proof.
  induction l as [|y r IH]; cbn; [apply Permutation_refl|]. destruct (String.leb x y); [apply Permutation_refl|].
  rewrite IH. constructor.
Qed.
Lemma sort_perm l : Permutation (sort_str l) l.
Proof. unfold sort_str. induction l as [|a l IH]; cbn; [constructor|]. rewrite insert_perm. now constructor. Qed.

Lemma ztab_get l zs key az : dget key (zstab_table l zs) = Some az -> In az zs /\ key = sorted_support l az.
  Proof.
    unfold zstab_table. assert (G : forall qs d, (forall az, dget key d = Some az -> In az zs /\ key = sorted_support l az) -> incl qs zs ->
      dget key (fold_left (fun d a => dset (sorted_support l a) a d) qs d) = Some az -> In az zs /\ key = sorted_support l az).
    { induction qs as [|a qs IH]; intros d Hd I; cbn [fold_left]; [apply Hd|]. apply IH; [|intros x Hx; apply I; now right].
      intros az'. rewrite dget_dset. destruct (eqb_spec (sorted_support l a) key) as [<-|]; [|apply Hd].
      intros [= <-]. split; [apply I; now left|reflexivity]. }
    apply G; [discriminate|apply incl_refl].
  Qed.
Section Sound.
  Context (cz : dict (option string) (option string)) (s : dict (option string) string) (both : bool) (fixed : option string).
  Context (l : layout) (data xs zs : list string).
  Hypothesis Hinv : forall q b, In q data -> dget (Some q) cz = Some (Some b) ->
    In b data /\ dget (Some b) cz = Some (Some q) /\ b <> q.
  Hypothesis Hs : forall q g, In q data -> dget (Some q) s = Some g -> g = "I" \/ is_s g = true.
  Hypothesis Hboth : both = false -> forall q g, In q data -> dget (Some q) s = Some g -> g <> "I" -> dget (Some q) cz = Some None.
  Definition czf (q : string) : option string :=
    if mem q data then match dget (Some q) cz with Some o => o | None => None end else None.
  Definition sf (q : string) : string := odef "I" (dget (Some q) s).
  Definition on (N : list string) (q : string) : bool :=
    xorb (match czf q with Some b => mem b N | None => false end) (mem q data && is_s (sf q) && mem q N).

  Lemma czf_in q b : czf q = Some b -> In q data /\ In b data /\ czf b = Some q /\ b <> q.
  Proof.
    unfold czf. destruct (mem q data) eqn:M; [|discriminate]. apply mem_In in M. destruct (dget (Some q) cz) as [o|] eqn:E; [|discriminate].
    intros ->. destruct (Hinv q b M E) as (Hb & E' & Ne). rewrite (proj2 (mem_In b data) Hb), E'. auto.
  Qed.
  Lemma is_s_I g : g = "I" \/ is_s g = true -> is_s g = negb (eqb g "I").
  Proof. intros [->|E]; [reflexivity|]. rewrite E. destruct (eqb_spec g "I") as [->|]; [discriminate|reflexivity]. Qed.
  Definition contrib (o : option string) (d : string) : bool :=
    xorb (eqb o (czf d) && (both || eqb (sf d) "I")) (eqb o (Some d) && is_s (sf d)).
  Lemma z_step acc d acc' : In d data -> z_stab_step cz s both acc d = Ok acc' ->
    forall o, mem o acc' = xorb (mem o acc) (contrib o d).
  Proof.
    intros Hd H o. unfold z_stab_step in H. apply bind_ok in H as [g [Eg H]]. unfold dget_err in Eg.
    destruct (dget (Some d) s) as [g'|] eqn:Es; [|discriminate]. injection Eg as ->.
    assert (Sg : sf d = g) by (unfold sf; now rewrite Es). unfold contrib. rewrite Sg, (is_s_I g (Hs d g Hd Es)).
    assert (C : forall b, dget_err (Some d) cz = Ok b -> czf d = b).
    { intros b Eb. unfold dget_err in Eb. unfold czf. rewrite (proj2 (mem_In d data) Hd). destruct (dget (Some d) cz); [|discriminate]. now injection Eb. }
    destruct (eqb g "I").
    - apply bind_ok in H as [b [Eb H]]. injection H as <-. rewrite toggle_mem, (C b Eb). cbn [negb]. rewrite orb_true_r, andb_true_r, andb_false_r, xorb_false_r. reflexivity.
    - destruct both; cbn [orb].
      + apply bind_ok in H as [b [Eb H]]. injection H as <-. rewrite !toggle_mem, (C b Eb). cbn [negb]. rewrite !andb_true_r.
        rewrite xorb_assoc. f_equal. apply xorb_comm.
      + injection H as <-. rewrite toggle_mem. cbn [negb]. rewrite andb_false_r, andb_true_r, xorb_false_l. reflexivity.
  Qed.
  Lemma z_fold N : incl N data -> forall acc z, foldM (z_stab_step cz s both) N acc = Ok z ->
    forall o, mem o z = xorb (mem o acc) (xorl (map (contrib o) N)).
  Proof.
    induction N as [|d N IH]; intros I acc z H o; cbn [foldM] in H.
    - injection H as <-. cbn. now rewrite xorb_false_r.
    - apply bind_ok in H as [acc1 [H1 H]]. rewrite (IH (fun x Hx => I x (or_intror Hx)) _ _ H o), (z_step _ _ _ (I d (or_introl eq_refl)) H1 o).
      cbn [map]. rewrite xorl_cons. apply xorb_assoc.
  Qed.
  Lemma contrib_sum N q : NoDup N -> incl N data -> In q data -> (forall d, In d data -> exists g, dget (Some d) s = Some g) ->
    xorl (map (contrib (Some q)) N) = on N q.
  Proof.
    intros Nd I Hq Tot.
    assert (S : forall f g, xorl (map (fun d : string => xorb (f d) (g d)) N) = xorb (xorl (map f N)) (xorl (map g N))).
    { intros f g. clear. induction N as [|a N IH]; [reflexivity|]. cbn [map]. rewrite !xorl_cons, IH.
      destruct (f a), (g a), (xorl (map f N)), (xorl (map g N)); reflexivity. }
    unfold contrib, on. rewrite S. f_equal.
    - destruct (czf q) as [b|] eqn:E.
      + destruct (czf_in q b E) as (_ & Hb & E' & Ne). destruct (mem b N) eqn:M.
        * apply mem_In in M. rewrite (xor_unique N _ b Nd M).
          -- rewrite E', eqb_refl. cbn [andb]. destruct both eqn:B; [reflexivity|]. cbn [orb].
             destruct (eqb_spec (sf b) "I") as [|Ng]; [reflexivity|]. exfalso. destruct (Tot b Hb) as [g Eg].
             assert (sf b = g) by (unfold sf; now rewrite Eg). subst g.
             pose proof (Hboth eq_refl b _ Hb Eg Ng) as K. unfold czf in E'. rewrite (proj2 (mem_In b data) Hb), K in E'. discriminate.
          -- intros y Hy Ny. destruct (eqb_spec (Some q) (czf y)) as [Ey|]; [|reflexivity]. symmetry in Ey.
             apply czf_in in Ey as (_ & _ & Ey & _). congruence.
        * apply xorl_false. intros v Hv. apply in_map_iff in Hv as (y & <- & Hy).
          destruct (eqb_spec (Some q) (czf y)) as [Ey|]; [|reflexivity]. symmetry in Ey.
          apply czf_in in Ey as (_ & _ & Ey & _). assert (y = b) by congruence. subst y. apply mem_In in Hy. congruence.
      + apply xorl_false. intros v Hv. apply in_map_iff in Hv as (y & <- & Hy).
        destruct (eqb_spec (Some q) (czf y)) as [Ey|]; [|reflexivity]. symmetry in Ey. apply czf_in in Ey as (_ & _ & Ey & _). congruence.
    - rewrite (proj2 (mem_In q data) Hq). cbn [andb]. destruct (mem q N) eqn:M.
      + apply mem_In in M. rewrite (xor_unique N _ q Nd M); [now rewrite eqb_refl, andb_true_r|].
        intros y Hy Ny. destruct (eqb_spec (Some q) (Some y)); [congruence|reflexivity].
      + rewrite andb_false_r. apply xorl_false. intros v Hv. apply in_map_iff in Hv as (y & <- & Hy).
        destruct (eqb_spec (Some q) (Some y)) as [[= ->]|]; [|reflexivity]. apply mem_In in Hy. congruence.
  Qed.
  Lemma labels_mem z key q : sorted_labels z = Ok key -> mem q key = mem (Some q) z.
  Proof.
    unfold sorted_labels. destruct (mem None z); [discriminate|]. intros [= <-]. rewrite sort_mem. clear.
    induction z as [|[x|] z IH]; [reflexivity| |]; cbn [flat_map app]; rewrite ?mem_cons, IH; [|reflexivity].
    f_equal.
  Qed.
  (** The attributes *)
  Hypothesis Hd : get_role l "data" = Ok data.
  Hypothesis Hx : get_stabs l "x_type" = Ok xs.
  Hypothesis Hz : get_stabs l "z_type" = Ok zs.
  Context (ancs : list string) (gate : string).
  Hypothesis Ha : get_role l "anc" = Ok ancs.
  Hypothesis Hda : forall q, In q data -> ~ In q ancs.
  Hypothesis Hxz : forall a, In a xs -> ~ In a zs.
  Hypothesis Hsup : forall a, In a xs -> NoDup (support l a) /\ incl (support l a) data.
  Hypothesis Hsupz : forall a, In a zs -> incl (support l a) data.
  Hypothesis Hgate : ~ In gate structure.
  Context (l2 : layout).
  Hypothesis Hend : trans_s_end cz s both fixed l gate = Ok l2.
  (* the new stabilizers of an X-type ancilla; the hard-coded one is not checked *)
  Definition made (ax : string) (v : list string) : Prop :=
    (v = [ax] /\ fixed = Some ax) \/
    exists az, In az zs /\ v = [ax; az] /\ forall q, In q data -> mem q (support l az) = on (support l ax) q.
  Definition good (ax : string) (v : list string) : Prop :=
    (v = [ax] /\ forall q, In q data -> on (support l ax) q = false) \/
    exists az, In az zs /\ v = [ax; az] /\ forall q, In q data -> mem q (support l az) = on (support l ax) q.
  Lemma s_made : touched structure l l2 /\
    (forall q, In q data -> lparam l2 gate q = Ok (PDict [("cz", label_or_none (czf q)); ("local", PStr (sf q))])) /\
    (forall q, In q data -> exists g, dget (Some q) s = Some g) /\
    exists new : dict string (list string),
      (forall a, In a ancs -> exists st, dget a new = Some st /\ lparam l2 gate a = Ok (new_stab_gen st)) /\
      (forall a v, dget a new = Some v -> (In a zs /\ v = [a]) \/ (In a xs /\ made a v)).
  Proof.
    pose proof Hend as H. unfold trans_s_end in H. rewrite Hd, Ha, Hx, Hz in H. cbn [bind] in H.
    apply bind_ok in H as [l1 [H1 H]]. apply bind_ok in H as [new [H2 H3]].
    destruct (set_params_ok structure _ _ _ Hgate _ _ H1) as (T1 & V1 & O1).
    destruct (set_params_ok structure _ _ _ Hgate _ _ H3) as (T2 & V2 & O2).
    assert (At : forall q, In q data -> exists b g, dget (Some q) cz = Some b /\ dget (Some q) s = Some g /\
      lparam l1 gate q = Ok (PDict [("cz", label_or_none b); ("local", PStr g)])).
    { intros q Hq. destruct (V1 q Hq) as (v & Ev & Lv). unfold s_attr in Ev. apply bind_ok in Ev as [b [Eb Ev]].
      apply bind_ok in Ev as [g [Eg Ev]]. injection Ev as <-. unfold dget_err in *.
      destruct (dget (Some q) cz) as [b'|]; [|discriminate]. destruct (dget (Some q) s) as [g'|]; [|discriminate].
      injection Eb as ->. injection Eg as ->. eauto. }
    assert (Tot : forall q, In q data -> exists g, dget (Some q) s = Some g).
    { intros q Hq. destruct (At q Hq) as (b & g & _ & E & _). eauto. }
    split; [eapply touched_trans; eauto|]. split; [|split; [exact Tot|]].
    - intros q Hq. destruct (At q Hq) as (b & g & Eb & Eg & L). rewrite O2 by (now apply Hda). rewrite L.
      unfold czf, sf. now rewrite (proj2 (mem_In q data) Hq), Eb, Eg.
    - exists new. split.
      + intros a Ia. destruct (V2 a Ia) as (v & Ev & Lv). apply bind_ok in Ev as [st [Es Ev]]. injection Ev as <-.
        unfold dget_err in Es. destruct (dget a new) as [st'|]; [|discriminate]. injection Es as ->. eauto.
      + assert (G : forall qs d d', incl qs xs -> (forall a v, dget a d = Some v -> (In a zs /\ v = [a]) \/ (In a xs /\ made a v)) ->
          foldM (s_new_stab cz s both fixed l1 (zstab_table l1 zs)) qs d = Ok d' ->
          forall a v, dget a d' = Some v -> (In a zs /\ v = [a]) \/ (In a xs /\ made a v)).
        { induction qs as [|ax qs IH]; intros d d' I Id F; cbn [foldM] in F; [injection F as <-; exact Id|].
          apply bind_ok in F as [d1 [F1 F]]. apply (IH d1 d'); [intros x Hxx; apply I; now right| |exact F].
          assert (Ix : In ax xs) by (apply I; now left). unfold s_new_stab in F1.
          destruct (eqb_spec (Some ax) fixed) as [Ef|Nf].
          - injection F1 as <-. intros a v. rewrite dget_dset. destruct (eqb_spec ax a) as [<-|]; [|apply Id].
            intros [= <-]. right. split; [exact Ix|]. left. split; [reflexivity|]. now symmetry.
          - apply bind_ok in F1 as [z [Fz F1]]. apply bind_ok in F1 as [key [Fk F1]]. apply bind_ok in F1 as [az [Faz F1]].
            injection F1 as <-. unfold dget_err in Faz. destruct (dget key (zstab_table l1 zs)) as [az'|] eqn:Ez; [|discriminate].
            injection Faz as ->. apply ztab_get in Ez as [Iz ->].
            assert (N1 : sorted_support l1 ax = sort_str (support l ax)).
            { unfold sorted_support, support. now rewrite (touched_nbrs _ _ _ T1). }
            assert (N2 : sorted_support l1 az = sort_str (support l az)).
            { unfold sorted_support, support. now rewrite (touched_nbrs _ _ _ T1). }
            rewrite N1 in Fz. rewrite N2 in Fk. destruct (Hsup ax Ix) as [Nd Inc].
            intros a v. rewrite dget_dset. destruct (eqb_spec az a) as [<-|].
            { intros [= <-]. left. auto. }
            rewrite dget_dset. destruct (eqb_spec ax a) as [<-|]; [|apply Id]. intros [= <-]. right. split; [exact Ix|].
            right. exists az. split; [exact Iz|]. split; [reflexivity|]. intros q Hq.
            pose proof (labels_mem _ _ q Fk) as M. rewrite sort_mem in M. rewrite M.
            assert (I' : incl (sort_str (support l ax)) data) by (intros x Hxx; apply Inc, sort_In, Hxx).
            rewrite (z_fold _ I' _ _ Fz). cbn [mem existsb]. rewrite xorb_false_l.
            rewrite <- (contrib_sum _ _ Nd Inc Hq Tot). apply xorl_perm, Permutation_map, sort_perm. }
        apply (G xs []); [apply incl_refl|discriminate|exact H2].
  Qed.
  Hypothesis Hfix : forall a, fixed = Some a -> forall q, In q data -> on (support l a) q = false.
  Lemma s_end : touched structure l l2 /\
    (forall q, In q data -> lparam l2 gate q = Ok (PDict [("cz", label_or_none (czf q)); ("local", PStr (sf q))])) /\
    (forall q, In q data -> exists g, dget (Some q) s = Some g) /\
    exists new : dict string (list string),
      (forall a, In a ancs -> exists st, dget a new = Some st /\ lparam l2 gate a = Ok (new_stab_gen st)) /\
      (forall a v, dget a new = Some v -> (In a zs /\ v = [a]) \/ (In a xs /\ good a v)).
  Proof.
    destruct s_made as (T & At & Tot & new & V & G). do 3 (split; [assumption|]). exists new. split; [exact V|].
    intros a v E. destruct (G a v E) as [K|[Ix [[Ev Ef]|K]]]; [now left| |right; split; [exact Ix|now right]].
    right. split; [exact Ix|]. left. split; [exact Ev|]. now apply Hfix.
  Qed.
End Sound.
