(** Proofs about the transversal gates, part 4: from the attributes to the circuits,
    for the S gate. *)
From Coq Require Import QArith Qcanon.
From Verif Require Import Base Lib StimM NoiseM DetM LayoutM SpecLayout LayoutP LayoutP2 GenM GenP SpecGen GeomP BlockM SpecTrack TrackP
  LiftP SpecLog LogM LogP LogP2 LogP3.
Open Scope Z_scope.

Lemma mapM_str (st : list string) : mapM (fun x => match x with PStr s => Ok s | _ => Err Unmodelled end) (map PStr st) = Ok st.
Proof. induction st as [|a st IH]; [reflexivity|]. cbn [map mapM bind]. now rewrite IH. Qed.
Lemma new_stab_dict_ok l gate ancs (f : string -> list string) : get_role l "anc" = Ok ancs ->
  (forall a, In a ancs -> lparam l gate a = Ok (new_stab_gen (f a))) ->
  exists nd, new_stab_dict l gate = Ok nd /\ forall a, dget a nd = if mem a ancs then Some (f a) else None.
Proof.
  intros E H. unfold new_stab_dict. rewrite E. cbn [bind].
  assert (G : forall qs d, incl qs ancs -> exists nd,
    foldM (fun d a => do v <- lparam l gate a; if is_none v then Err ValueError
           else do n <- pget "new_stab_gen" v; do x <- as_str_list n; Ok (dset a x d)) qs d = Ok nd /\
    forall a, dget a nd = if mem a qs then Some (f a) else dget a d).
  { induction qs as [|q qs IH]; intros d I; cbn [foldM].
    - exists d. split; [reflexivity|]. intros a. reflexivity.
    - rewrite H by (apply I; now left). unfold new_stab_gen. cbn [bind is_none pget]. unfold dget_err. cbn [dget].
      rewrite eqb_refl. cbn [of_opt bind as_str_list]. rewrite mapM_str. cbn [bind].
      destruct (IH (dset q (f q) d)) as (nd & En & Hn); [intros x Hx; apply I; now right|].
      exists nd. split; [exact En|]. intros a. rewrite Hn, dget_dset, mem_cons. destruct (mem a qs); [now rewrite orb_true_r|].
      rewrite orb_false_r. destruct (eqb_spec q a) as [->|N]; [now rewrite eqb_refl|]. destruct (eqb_spec a q); [congruence|reflexivity]. }
  destruct (G ancs [] (incl_refl _)) as (nd & En & Hn). eauto.
Qed.
Lemma log_trans_ok prefix it l w w' c : log_trans prefix it l w = (w', Ok c) ->
  exists lq nd, first_log l = Ok lq /\ new_stab_dict l (prefix ++ lq) = Ok nd /\
    run_blocks (it l) (fst w) = (fst w', Ok c) /\ update_from_dict nd (snd w) = (snd w', Ok tt).
Proof.
  unfold log_trans. intros H. apply sbind_ok in H as (w1 & lq & H1 & H). unfold slift in H1. injection H1 as <- H1.
  apply sbind_ok in H as (w2 & nd & H2 & H). unfold slift in H2. injection H2 as <- H2.
  apply sbind_ok in H as (w3 & u & H3 & H). apply ond_ok in H3 as (d' & H3 & ->).
  apply onm_ok in H as (m' & H & ->). cbn [fst snd] in *. exists lq, nd. rewrite H1. destruct u. auto.
Qed.

(* an operator on labels, as a Pauli operator *)
Lemma turns_intro bl m m' c (op : pauli string -> pauli string) xs zs xs' zs' :
  run_blocks bl m = (m', Ok c) -> ok_blocks bl -> SpecNoise.wf_inds (inds m) ->
  (forall P, bk (lg_blocks bl) (fun _ => false) P (op P)) -> peq (op (Pauli xs' zs')) (Pauli xs zs) ->
  turns (inds m) c xs zs xs' zs'.
Proof.
  intros R O W B E P HP. destruct (blocks_track bl m m' c (fun _ => false) (Pauli xs' zs') (op (Pauli xs' zs')) P R O W (B _) HP) as (P' & EP & RP).
  exists P'. split; [exact EP|]. exact (rep_peq _ _ _ _ E RP).
Qed.
Lemma prod_one (f : string -> bool) a : Nat.odd (length (filter f [a])) = f a.
Proof. cbn. now destruct (f a). Qed.
Lemma prod_two (f : string -> bool) a b : Nat.odd (length (filter f [a; b])) = xorb (f a) (f b).
Proof. cbn. destruct (f a), (f b); reflexivity. Qed.

(** * A gate on the labels *)
Definition gens (st : stabilizers) (v : list string) : pauli string := Pauli (prod_x st v) (prod_z st v).
(* the products of generators of a transversal gate *)
Definition shape (nd : dict string (list string)) : Prop := forall a v, dget a nd = Some v ->
  v = [a] \/ (exists b, b <> a /\ v = [a; b] /\ dget b nd = Some [b]) \/ (exists b, v = [b] /\ dget b nd = Some [a]).
Record label_act (bl : (nat -> list string -> list string) -> (nat -> list (string * string) -> list (string * string)) -> blocks)
    (st : stabilizers) (ancs : list string) (op : pauli string -> pauli string) (nd : dict string (list string)) : Prop := {
  la_dom : forall a, In a ancs <-> dmem a nd = true;
  la_shape : shape nd;
  la_bk : forall ord ordp, (forall n s, Permutation (ord n s) s) -> (forall n s, Permutation (ordp n s) s) ->
    ok_blocks (bl ord ordp) /\ forall sel P, bk (lg_blocks (bl ord ordp)) sel P (op P);
  la_gen : forall a v, dget a nd = Some v -> peq (op (gens st [a])) (gens st v) /\ peq (op (gens st v)) (gens st [a]) }.
Definition pairing (data : list string) (pf : string -> option string) : Prop :=
  forall q b, pf q = Some b -> In q data /\ In b data /\ pf b = Some q /\ b <> q.
Lemma shape_involutive nd : shape nd -> involutive_map nd.
Proof.
  intros S a v E. destruct (S a v E) as [-> |[(b & Ne & -> & Eb)|(b & -> & Eb)]].
  - split; [intros b [<-|[]]; unfold dmem; now rewrite E|]. intros b. cbn [flat_map]. rewrite E. cbn.
    destruct (eqb_spec b a); reflexivity.
  - split; [intros c [<-|[<-|[]]]; unfold dmem; now rewrite ?E, ?Eb|]. intros c. cbn [flat_map].
    rewrite E, Eb. cbn. destruct (eqb_spec c a), (eqb_spec c b); reflexivity.
  - split; [intros c [<-|[]]; unfold dmem; now rewrite Eb|]. intros c. cbn [flat_map]. rewrite Eb. cbn.
    destruct (eqb_spec c a); reflexivity.
Qed.
Lemma label_conjugates prefix git l3 st ancs op nd lq ord ordp w w' c :
  (forall n s, Permutation (ord n s) s) -> (forall n s, Permutation (ordp n s) s) ->
  first_log l3 = Ok lq -> new_stab_dict l3 (prefix ++ lq) = Ok nd -> label_act (fun o p => git o p l3) st ancs op nd ->
  SpecNoise.wf_inds (inds (fst w)) -> log_trans prefix (git ord ordp) l3 w = (w', Ok c) ->
  update_from_dict nd (snd w) = (snd w', Ok tt) /\ involutive_map nd /\
  forall a, In a ancs -> exists new, dget a nd = Some new /\ conjugates (inds (fst w)) st c a new.
Proof.
  intros Ho Hp El En A W H. apply log_trans_ok in H as (lq' & nd' & El' & En' & R & U). rewrite El in El'. injection El' as <-.
  rewrite En in En'. injection En' as <-. split; [exact U|]. split; [apply shape_involutive, A|]. intros a Ia. apply (la_dom _ _ _ _ _ A) in Ia.
  unfold dmem in Ia. destruct (dget a nd) as [v|] eqn:E; [|discriminate]. exists v. split; [reflexivity|].
  destruct (la_gen _ _ _ _ _ A a v E) as [G1 G2]. destruct (la_bk _ _ _ _ _ A ord ordp Ho Hp) as [O B].
  split; eapply turns_intro; eauto.
Qed.

(* the attributes of the data qubits and the shape of the products of generators *)
Definition s_attrs (l : layout) (gate : string) (data : list string) (pf : string -> option string) (loc : string -> string) : Prop :=
  forall q, In q data -> lparam l gate q = Ok (PDict [("cz", label_or_none (pf q)); ("local", PStr (loc q))]).
Definition s_shape (xs zs : list string) (nd : dict string (list string)) : Prop := forall a v, dget a nd = Some v ->
  (In a zs /\ v = [a]) \/ (In a xs /\ (v = [a] \/ exists az, In az zs /\ v = [a; az])).
Section S.
  Context (cz : dict (option string) (option string)) (s : dict (option string) string) (both : bool) (fixed : option string).
  Context (l l2 l3 : layout) (data xs zs ancs : list string) (lq : string).
  Hypothesis Hinv : forall q b, In q data -> dget (Some q) cz = Some (Some b) ->
    In b data /\ dget (Some b) cz = Some (Some q) /\ b <> q.
  Hypothesis Hs : forall q g, In q data -> dget (Some q) s = Some g -> g = "I" \/ is_s g = true.
  Hypothesis Hboth : both = false -> forall q g, In q data -> dget (Some q) s = Some g -> g <> "I" -> dget (Some q) cz = Some None.
  Hypothesis Hd : get_role l "data" = Ok data.
  Hypothesis Hx : get_stabs l "x_type" = Ok xs.
  Hypothesis Hz : get_stabs l "z_type" = Ok zs.
  Hypothesis Ha : get_role l "anc" = Ok ancs.
  Hypothesis Hda : forall q, In q data -> ~ In q ancs.
  Hypothesis Hxz : forall a, In a xs -> ~ In a zs.
  Hypothesis Hax : forall a, In a ancs <-> In a xs \/ In a zs.
  Hypothesis Hsup : forall a, In a ancs -> NoDup (support l a) /\ incl (support l a) data.
  Hypothesis Hlq : first_log l = Ok lq.
  Hypothesis Hcode : trans_code_ok l = true.
  Let gate := ("trans-s_" ++ lq)%string.
  Hypothesis Hend : trans_s_end cz s both fixed l gate = Ok l2.
  Hypothesis Hfix : forall a, fixed = Some a -> forall q, In q data -> on cz s data (support l a) q = false.
  Hypothesis T3 : touched (gate :: structure) l2 l3.
  Lemma gate_s_new : ~ In gate structure.
  Proof. unfold gate. cbn. intros [E|[E|[E|[E|[E|[E|[]]]]]]]; discriminate. Qed.
  Lemma s_labels_at : exists nd, pairing data (czf cz data) /\ first_log l3 = Ok lq /\ new_stab_dict l3 gate = Ok nd /\
    label_act (fun ord ordp => trans_s_blocks ord ordp l3) (css l) ancs (s_op data (czf cz data) (sf s)) nd /\
    s_attrs l3 gate data (czf cz data) (sf s) /\ s_shape xs zs nd.
  Proof.
    destruct (s_end cz s both fixed l data xs zs) with (ancs := ancs) (gate := gate) (l2 := l2) as (T & At & Tot & new & V & G); auto.
    { intros a Ia. apply Hsup, Hax. auto. }
    { apply gate_s_new. }
    assert (T3' : touched structure l2 l3) by (eapply touched_incl; [|exact T3]; intros k Hk; now right).
    assert (T0 : touched structure l l3) by (eapply touched_trans; eauto).
    assert (P3 : forall q, lparam l3 gate q = lparam l2 gate q) by (intros q; apply (touched_param _ _ _ T3); now left).
    set (f := fun a => match dget a new with Some v => v | None => [] end).
    destruct (new_stab_dict_ok l3 gate ancs f) as (nd & En & Hn).
    { rewrite (touched_role _ _ _ T0 (incl_refl _)). exact Ha. }
    { intros a Ia. rewrite P3. destruct (V a Ia) as (st & Es & L). unfold f. now rewrite Es. }
    exists nd. split; [exact (czf_in cz data Hinv)|]. split; [now rewrite (touched_first _ _ _ T0)|]. split; [exact En|].
    assert (Fx : forall a, In a xs -> good cz s l data zs a (f a)).
    { intros a Ia. destruct (V a) as (st & Es & _); [apply Hax; auto|]. unfold f. rewrite Es.
      destruct (G a st Es) as [[Iz _]|[_ K]]; [destruct (Hxz a Ia Iz)|exact K]. }
    assert (Fz : forall a, In a zs -> f a = [a]).
    { intros a Ia. destruct (V a) as (st & Es & _); [apply Hax; auto|]. unfold f. rewrite Es.
      destruct (G a st Es) as [[_ K]|[Ix _]]; [exact K|destruct (Hxz a Ix Ia)]. }
    assert (Ma : forall a, In a ancs -> dget a nd = Some (f a)) by (intros a Ia; rewrite Hn, (proj2 (mem_In a ancs) Ia); reflexivity).
    assert (Mi : forall a v, dget a nd = Some v -> In a ancs /\ v = f a).
    { intros a v E. rewrite Hn in E. destruct (mem a ancs) eqn:M; [|discriminate]. injection E as <-. split; [now apply mem_In|reflexivity]. }
    assert (Sx : forall a, In a xs -> css l a = (support l a, [])).
    { intros a Ia. unfold css, of_type. rewrite Hx, Hz, (proj2 (mem_In a xs) Ia), (mem_not a zs (Hxz a Ia)). reflexivity. }
    assert (Sz : forall a, In a zs -> css l a = ([], support l a)).
    { intros a Ia. unfold css, of_type. rewrite Hx, Hz, (proj2 (mem_In a zs) Ia), (mem_not a xs); [reflexivity|]. intros Ix. exact (Hxz a Ix Ia). }
    split; [|split].
    2: { intros q Hq. rewrite P3. now apply At. }
    2: { intros a v E. apply Mi in E as [M ->]. apply Hax in M as [Ix|Iz]; [|left; split; [exact Iz|now apply Fz]]. right. split; [exact Ix|].
         destruct (Fx a Ix) as [[E _]|(az & Iz & E & _)]; [now left|]. right. eauto. }
    constructor.
    - intros a. unfold dmem. rewrite Hn, <- mem_In. destruct (mem a ancs); split; (reflexivity || discriminate).
    - intros a v E. apply Mi in E as [M ->]. apply Hax in M as [Ix|Iz]; [|left; now apply Fz].
      destruct (Fx a Ix) as [[E _]|(az & Iz & E & _)]; [auto|]. right. left. exists az. split; [intros ->; exact (Hxz a Ix Iz)|]. split; [exact E|].
      rewrite Ma, (Fz az Iz); [reflexivity|]. apply Hax. auto.
    - intros ord ordp Hord Hordp.
      assert (K : forall sel P, ok_blocks (trans_s_blocks ord ordp l3) /\ bk (lg_blocks (trans_s_blocks ord ordp l3)) sel P
          (s_op data (czf cz data) (sf s) P)); [|split; [apply (K (fun _ => false) identity_op)|apply K]].
      intros sel P. apply (trans_s_track ord ordp Hord Hordp l3 data lq).
      + rewrite (touched_role _ _ _ T0 (incl_refl _)). exact Hd.
      + rewrite (touched_first _ _ _ T0). exact Hlq.
      + apply czf_in. exact Hinv.
      + unfold trans_code_ok in *. destruct (touched_fields _ _ _ T0) as (-> & _). exact Hcode.
      + intros q Hq. fold gate. rewrite P3. now apply At.
    - intros a v E. apply Mi in E as [Ia ->]. unfold gens.
      assert (Out : forall b q, In b ancs -> ~ In q data -> mem q (support l b) = false).
      { intros b q Ib Hq. apply mem_not. intros K. apply Hq. now apply (proj2 (Hsup b Ib)). }
      assert (On : forall N q, ~ In q data -> on cz s data N q = false).
      { intros N q Hq. unfold on, czf. rewrite (mem_not q data Hq). reflexivity. }
      apply Hax in Ia as [Ix|Iz].
      + assert (Ia : In a ancs) by (apply Hax; auto).
        destruct (Fx a Ix) as [[E K]|(az & Iz & E & K)]; rewrite E.
        * assert (Z : peq (s_op data (czf cz data) (sf s) (Pauli (prod_x (css l) [a]) (prod_z (css l) [a]))) (Pauli (prod_x (css l) [a]) (prod_z (css l) [a]))).
          { intros q. cbn [px pz s_op]. split; [reflexivity|]. unfold prod_x, prod_z. rewrite !prod_one, (Sx a Ix). cbn [fst snd mem existsb].
            assert (O : on cz s data (support l a) q = false).
            { destruct (mem q data) eqn:Mq; [apply K; now apply mem_In|]. apply On. intros Hq. apply mem_In in Hq. congruence. }
            unfold on in O. rewrite xorb_false_l. etransitivity; [|exact O]. f_equal.
            destruct (czf cz data q); [|reflexivity]. now rewrite prod_one, (Sx a Ix). }
          split; exact Z.
        * assert (Iaz : In az ancs) by (apply Hax; auto).
          assert (O : forall q, mem q (support l az) = on cz s data (support l a) q).
          { intros q. destruct (mem q data) eqn:Mq; [apply K; now apply mem_In|].
            assert (Hq : ~ In q data) by (intros Hq; apply mem_In in Hq; congruence). now rewrite On, Out. }
          split.
          -- intros q. cbn [px pz s_op]. unfold prod_x, prod_z. rewrite !prod_one, !prod_two, (Sx a Ix), (Sz az Iz).
             cbn [fst snd mem existsb]. rewrite xorb_false_r, !xorb_false_l. split; [reflexivity|].
             specialize (O q). unfold on in O.
             change (existsb (eqb q) (support l az)) with (mem q (support l az)). rewrite O.
             destruct (czf cz data q) as [b|]; [rewrite prod_one, (Sx a Ix); reflexivity|reflexivity].
          -- intros q. cbn [px pz s_op]. unfold prod_x, prod_z. rewrite !prod_one, !prod_two, (Sx a Ix), (Sz az Iz).
             cbn [fst snd mem existsb]. rewrite xorb_false_r, xorb_false_l. split; [reflexivity|].
             specialize (O q). unfold on in O.
             change (existsb (eqb q) (support l az)) with (mem q (support l az)). rewrite O.
             destruct (czf cz data q) as [b|]; [rewrite prod_two, (Sx a Ix), (Sz az Iz); cbn [fst mem existsb]; rewrite xorb_false_r|];
               apply xorb_nilpotent.
      + rewrite (Fz a Iz).
        assert (Z : peq (s_op data (czf cz data) (sf s) (Pauli (prod_x (css l) [a]) (prod_z (css l) [a]))) (Pauli (prod_x (css l) [a]) (prod_z (css l) [a]))).
        { intros q. cbn [px pz s_op]. split; [reflexivity|]. unfold prod_x, prod_z. rewrite !prod_one, (Sz a Iz). cbn [fst snd mem existsb].
          rewrite andb_false_r, xorb_false_r. destruct (czf cz data q); [|apply xorb_false_r]. rewrite prod_one, (Sz a Iz). apply xorb_false_r. }
        split; exact Z.
  Qed.
  Lemma s_labels : exists pf loc nd, pairing data pf /\ first_log l3 = Ok lq /\ new_stab_dict l3 gate = Ok nd /\
    label_act (fun ord ordp => trans_s_blocks ord ordp l3) (css l) ancs (s_op data pf loc) nd.
  Proof. destruct s_labels_at as (nd & A & B & C & D & _). exists (czf cz data), (sf s), nd. auto. Qed.
End S.
