(** Proofs about the loops shared by the two layout generators: which layout a
    list of placed qubits gives. *)
From Coq Require Import QArith Qcanon DecimalString DecimalZ.
From Verif Require Import Base Lib StimM LayoutM SpecLayout LayoutP LayoutP2 GenM.
Open Scope Z_scope.

(** * Labels *)
Lemma to_int_not_nil z : Z.to_int z <> Decimal.Pos Decimal.Nil /\ Z.to_int z <> Decimal.Neg Decimal.Nil.
Proof.
  assert (F : forall p, Pos.to_uint p <> Decimal.Nil).
  { intros p E. pose proof (DecimalPos.Unsigned.of_to p) as H. rewrite E in H. discriminate. }
  destruct z; simpl; split; try discriminate; intros [= E]; exact (F _ E).
Qed.
Lemma digits_inj z z' : NilZero.string_of_int (Z.to_int z) = NilZero.string_of_int (Z.to_int z') -> z = z'.
Proof.
  intros E. apply (f_equal NilZero.int_of_string) in E.
  destruct (to_int_not_nil z), (to_int_not_nil z'). rewrite !NilZero.isi in E by assumption.
  injection E as E. now apply to_int_inj.
Qed.
Lemma label_inj a b z z' : label (String a EmptyString) z = label (String b EmptyString) z' -> a = b /\ z = z'.
Proof. unfold label. simpl. intros [= -> E]. split; [reflexivity|now apply digits_inj]. Qed.

(** * Placed qubits *)
Inductive kind := KD | KX | KZ.
Record item := { it_kind : kind; it_pos : Z * Z; it_extra : attrs }.
Record placed := { pl_lab : string; pl_item : item; pl_ind : Z }.
Definition pos (p : placed) : Z * Z := it_pos (pl_item p).
Definition knd (p : placed) : kind := it_kind (pl_item p).
Definition isk (k : kind) (p : placed) : bool :=
  match k, knd p with KD, KD | KX, KX | KZ, KZ => true | _, _ => false end.
Definition isanc (p : placed) : bool := match knd p with KD => false | _ => true end.
Definition ext_ok (a : attrs) : Prop := a = [] \/ exists f, a = [("freq_group", PStr f)].
Definition role_of (k : kind) : string := match k with KD => "data" | _ => "anc" end.
Definition stab_of (k : kind) : pyv := match k with KD => PNone | KX => PStr "x_type" | KZ => PStr "z_type" end.
Definition padd (p s : Z * Z) : Z * Z := (fst p + fst s, snd p + snd s).

Section Place.
  Context (index : Z -> Z -> Z).
  Definition lab_of (k : kind) (rc : Z * Z) (x z : Z) : string :=
    match k with KD => label "D" (index (fst rc) (snd rc)) | KX => label "X" x | KZ => label "Z" z end.
  Fixpoint place (items : list item) (ind x z : Z) : list placed :=
    match items with
    | [] => []
    | it :: r => {| pl_lab := lab_of (it_kind it) (it_pos it) x z; pl_item := it; pl_ind := ind |}
                 :: place r (ind + 1) (match it_kind it with KX => x + 1 | _ => x end)
                          (match it_kind it with KZ => z + 1 | _ => z end)
    end.
  Lemma place_items items : forall ind x z, map pl_item (place items ind x z) = items.
  Proof. induction items as [|it r IH]; intros; cbn [place map]; [reflexivity|]. now rewrite IH. Qed.
  Lemma place_length items ind x z : length (place items ind x z) = length items.
  Proof. rewrite <- (map_length pl_item), place_items. reflexivity. Qed.
  Lemma place_inds items : forall ind x z,
    map pl_ind (place items ind x z) = map (fun k => ind + k) (range (Z.of_nat (length items))).
  Proof.
    unfold range. induction items as [|it r IH]; intros; cbn [place map]; [reflexivity|].
    rewrite IH, !Nat2Z.id, !map_map. cbn [length seq map pl_ind]. rewrite <- seq_shift, map_map.
    f_equal; [lia|]. apply map_ext. intros k. lia.
  Qed.
  Lemma place_lab items : forall ind x z p, In p (place items ind x z) ->
    match knd p with
    | KD => pl_lab p = label "D" (index (fst (pos p)) (snd (pos p)))
    | KX => exists n, x <= n /\ pl_lab p = label "X" n
    | KZ => exists n, z <= n /\ pl_lab p = label "Z" n
    end.
  Proof.
    induction items as [|it r IH]; intros ind x z p; cbn [place]; [intros []|].
    intros [<-|Hp].
    - unfold knd, pos; simpl. destruct (it_kind it); simpl; [reflexivity|exists x|exists z]; (split; [lia|reflexivity]).
    - apply IH in Hp. destruct (knd p); [exact Hp| |]; destruct Hp as (n & Hn & E); exists n;
        (split; [|exact E]); destruct (it_kind it); lia.
  Qed.
  Lemma place_nodup items : forall ind x z,
    NoDup (map it_pos items) ->
    (forall i j, In i items -> In j items -> it_kind i = KD -> it_kind j = KD ->
       index (fst (it_pos i)) (snd (it_pos i)) = index (fst (it_pos j)) (snd (it_pos j)) -> it_pos i = it_pos j) ->
    NoDup (map pl_lab (place items ind x z)).
  Proof.
    induction items as [|it r IH]; intros ind x z N Inj; cbn [place map]; [constructor|].
    cbn [map] in N. inversion N as [|? ? Hn N']; subst. constructor.
    - cbn [pl_lab]. intros Hin. apply in_map_iff in Hin as (p & E & Hp).
      pose proof (place_lab _ _ _ _ _ Hp) as L.
      assert (Hi : In (pl_item p) r).
      { rewrite <- (place_items r (ind + 1) (match it_kind it with KX => x + 1 | _ => x end)
                          (match it_kind it with KZ => z + 1 | _ => z end)). now apply in_map. }
      unfold knd, pos in L. destruct (it_kind (pl_item p)) eqn:K.
      + rewrite L in E. destruct (it_kind it) eqn:K'; cbn [lab_of] in E; apply label_inj in E as [E1 E2]; try discriminate.
        apply Hn. rewrite <- (Inj (pl_item p) it); auto using in_map; [now right|now left].
      + destruct L as (n & Hn' & L). rewrite L in E.
        destruct (it_kind it) eqn:K'; cbn [lab_of] in E; apply label_inj in E as [E1 E2]; try discriminate. lia.
      + destruct L as (n & Hn' & L). rewrite L in E.
        destruct (it_kind it) eqn:K'; cbn [lab_of] in E; apply label_inj in E as [E1 E2]; try discriminate. lia.
    - apply IH; [exact N'|]. intros i j Hi Hj. apply Inj; now right.
  Qed.
End Place.

(** * Writes *)
Definition wr (nd : dict string (dict string pyv)) (w : string * string * string) : dict string (dict string pyv) :=
  let '(a, d, b) := w in write a d b nd.
Definition rowd (a : string) (nd : dict string (dict string pyv)) : dict string pyv := odef [] (dget a nd).
Lemma rowd_wr a nd w : rowd a (wr nd w) =
  let '(a', d, b) := w in if eqb a' a then dset d (PStr b) (rowd a nd) else rowd a nd.
Proof.
  destruct w as [[a' d] b]. unfold rowd, wr, write. rewrite dget_dset.
  destruct (eqb_spec a' a) as [->|]; reflexivity.
Qed.
Definition nbrv (v : pyv) : Prop := v = PNone \/ exists b, v = PStr b.
Record nd_ok (nd : dict string (dict string pyv)) (W : list (string * string * string)) : Prop := {
  nd_keys : forall a, NoDup (dkeys (rowd a nd));
  nd_vals : forall a d v, In (d, v) (rowd a nd) -> nbrv v;
  nd_in : forall a d b, In (d, PStr b) (rowd a nd) <-> In (a, d, b) W }.

Lemma writes_sound W : forall nd a d v, dget d (rowd a (fold_left wr W nd)) = Some v ->
  (exists b, v = PStr b /\ In (a, d, b) W) \/ dget d (rowd a nd) = Some v.
Proof.
  induction W as [|[[a' d'] b'] W IH]; intros nd a d v; cbn [fold_left]; [auto|].
  intros H. apply IH in H as [(b & -> & H)|H]; [left; exists b; split; [reflexivity|now right]|].
  rewrite rowd_wr in H. destruct (eqb_spec a' a) as [->|]; [|auto].
  rewrite dget_dset in H. destruct (eqb_spec d' d) as [->|]; [|auto].
  injection H as <-. left. exists b'. split; [reflexivity|now left].
Qed.
Lemma writes_complete W : forall nd a d b, (forall b', In (a, d, b') W -> b' = b) ->
  dget d (rowd a nd) = Some (PStr b) \/ In (a, d, b) W -> dget d (rowd a (fold_left wr W nd)) = Some (PStr b).
Proof.
  induction W as [|[[a' d'] b'] W IH]; intros nd a d b F; cbn [fold_left]; [intros [H|[]]; exact H|].
  intros H. apply IH; [intros b0 Hb; apply F; now right|].
  rewrite rowd_wr. destruct H as [H|[[= -> -> ->]|H]]; [|left; now rewrite eqb_refl, dget_dset_same|auto].
  left. destruct (eqb_spec a' a) as [->|]; [|exact H]. rewrite dget_dset. destruct (eqb_spec d' d) as [->|]; [|exact H].
  f_equal. f_equal. apply F. now left.
Qed.
Lemma writes_keys W : forall nd a, NoDup (dkeys (rowd a nd)) -> NoDup (dkeys (rowd a (fold_left wr W nd))).
Proof.
  induction W as [|[[a' d'] b'] W IH]; intros nd a N; cbn [fold_left]; [exact N|]. apply IH.
  rewrite rowd_wr. destruct (eqb a' a); [now apply NoDup_dset|exact N].
Qed.
Lemma writes_ok W : (forall a d b b', In (a, d, b) W -> In (a, d, b') W -> b = b') -> nd_ok (fold_left wr W []) W.
Proof.
  intros F. assert (N : forall a, NoDup (dkeys (rowd a (fold_left wr W [])))) by (intros a; apply writes_keys; constructor).
  constructor; [exact N| |].
  - intros a d v H. apply In_dget in H; [|apply N]. apply writes_sound in H as [(b & -> & H)|H]; [|discriminate].
    right. eauto.
  - intros a d b. split.
    + intros H. apply In_dget in H; [|apply N]. apply writes_sound in H as [(b' & [= <-] & H)|H]; [exact H|discriminate].
    + intros H. apply dget_In. apply writes_complete; [|auto]. intros b' H'. exact (F a d b' b H' H).
Qed.

Lemma fill_row dirs : forall row : dict string pyv,
  let r := fold_left (fun n d => if dmem d n then n else dset d PNone n) dirs row in
  (NoDup (dkeys row) -> NoDup (dkeys r)) /\
  (forall d v, In (d, v) r -> v = PNone \/ In (d, v) row) /\ (forall d v, In (d, v) row -> In (d, v) r).
Proof.
  induction dirs as [|d0 dirs IH]; intros row; cbn [fold_left]; cbv zeta; [auto|].
  destruct (dmem d0 row) eqn:E; [apply IH|]. assert (Hn : ~ In d0 (dkeys row)) by (now apply dmem_false).
  destruct (IH (dset d0 PNone row)) as (A & B & C). rewrite dset_new in * by exact Hn.
  split; [|split].
  - intros N. apply A. rewrite dkeys_app. simpl. apply (Permutation_NoDup (Permutation_cons_append _ _)). now constructor.
  - intros d v H. apply B in H as [H|H]; [auto|]. apply in_app_or in H as [H|[[= <- <-]|[]]]; auto.
  - intros d v H. apply C. apply in_or_app. now left.
Qed.
Lemma add_missing_ok nd W : nd_ok nd W -> nd_ok (add_missing nd) W.
Proof.
  intros [N V I].
  assert (R : forall a, rowd a (add_missing nd) = fold_left (fun n d => if dmem d n then n else dset d PNone n) diag_dirs (rowd a nd)
              \/ rowd a (add_missing nd) = [] /\ rowd a nd = []).
  { intros a. unfold rowd, add_missing.
    rewrite (dget_map (fun kv : string * dict string pyv => fold_left (fun n d => if dmem d n then n else dset d PNone n) diag_dirs (snd kv))).
    destruct (dget a nd); simpl; auto. }
  constructor; intros a; destruct (R a) as [E|[E E']]; rewrite E; destruct (fill_row diag_dirs (rowd a nd)) as (A & B & C).
  - apply A, N.
  - constructor.
  - intros d v H. apply B in H as [->|H]; [now left|]. exact (V a d v H).
  - intros d v [].
  - intros d b. rewrite <- I. split; [intros H; apply B in H as [H|H]; [discriminate|exact H]|apply C].
  - intros d b. rewrite <- I, E'. reflexivity.
Qed.

(** * The loops *)
Section Run.
  Context (direction : Z * Z -> res string) (dirn : Z * Z -> string)
          (valid : Z -> Z -> bool) (index : Z -> Z -> Z) (shifts : list (Z * Z)) (pt : Qc * Qc).
  Hypothesis Hdir : forall s, In s shifts ->
    direction s = Ok (dirn s) /\ direction (invert_shift s) = Ok (dirn (invert_shift s)).

  Definition gstep (st : gst) (it : item) : res gst :=
    let (r, c) := it_pos it in
    match it_kind it with
    | KD => place_data index pt r c (it_extra it) st
    | KX => place_anc direction valid index shifts pt true r c (it_extra it) st
    | KZ => place_anc direction valid index shifts pt false r c (it_extra it) st
    end.
  Definition dlab (rc : Z * Z) : string := label "D" (index (fst rc) (snd rc)).
  Definition vld (rc : Z * Z) : bool := valid (fst rc) (snd rc).
  Definition anc_writes (a : string) (rc : Z * Z) (s : Z * Z) : list (string * string * string) :=
    if vld (padd rc s)
    then [(a, dirn s, dlab (padd rc s)); (dlab (padd rc s), dirn (invert_shift s), a)] else [].
  Definition writes_of (p : placed) : list (string * string * string) :=
    if isanc p then flat_map (anc_writes (pl_lab p) (pos p)) shifts else [].
  Definition info_of (p : placed) : attrs :=
    qubit_info pt (pl_lab p) (role_of (knd p)) (fst (pos p)) (snd (pos p))
               (it_extra (pl_item p)) (stab_of (knd p)) (pl_ind p).

  Lemma nbr_loop a r c : forall ss nd, incl ss shifts ->
    foldM (nbr_step direction valid index a r c) ss nd =
    Ok (fold_left wr (flat_map (anc_writes a (r, c)) ss) nd).
  Proof.
    induction ss as [|s ss IH]; intros nd Hs; cbn [foldM flat_map]; [reflexivity|].
    unfold nbr_step at 1, anc_writes at 1, vld, dlab. cbn [padd fst snd].
    destruct (Hdir s) as [E1 E2]; [apply Hs; now left|].
    destruct (valid (r + fst s) (c + snd s)); cbn [negb]; [|apply IH; intros x Hx; apply Hs; now right].
    rewrite E1; cbn [bind]. rewrite E2; cbn [bind]. cbn [fold_left app wr].
    apply IH. intros x Hx; apply Hs; now right.
  Qed.
  Lemma run_char items : forall st,
    exists st', foldM gstep items st = Ok st' /\
      gs_infos st' = gs_infos st ++ map info_of (place index items (gs_ind st) (gs_x st) (gs_z st)) /\
      gs_nbr st' = fold_left wr (flat_map writes_of (place index items (gs_ind st) (gs_x st) (gs_z st))) (gs_nbr st).
  Proof.
    induction items as [|it r IH]; intros st; cbn [foldM place map flat_map].
    - exists st. rewrite app_nil_r. auto.
    - destruct it as [k [row col] ext]. unfold gstep; cbn [it_pos it_kind it_extra].
      destruct k; cbn [it_kind].
      + unfold place_data; cbn [bind].
        match goal with |- exists _, foldM _ _ ?s = _ /\ _ => destruct (IH s) as (st' & E & E1 & E2) end.
        exists st'. split; [exact E|]. rewrite E1, E2. cbn [gs_infos gs_nbr gs_ind gs_x gs_z].
        split; [rewrite <- app_assoc; reflexivity|reflexivity].
      + unfold place_anc. rewrite nbr_loop by apply incl_refl. cbn [bind].
        match goal with |- exists _, foldM _ _ ?s = _ /\ _ => destruct (IH s) as (st' & E & E1 & E2) end.
        exists st'. split; [exact E|]. rewrite E1, E2. cbn [gs_infos gs_nbr gs_ind gs_x gs_z].
        split; [rewrite <- app_assoc; reflexivity|]. rewrite fold_left_app. reflexivity.
      + unfold place_anc. rewrite nbr_loop by apply incl_refl. cbn [bind].
        match goal with |- exists _, foldM _ _ ?s = _ /\ _ => destruct (IH s) as (st' & E & E1 & E2) end.
        exists st'. split; [exact E|]. rewrite E1, E2. cbn [gs_infos gs_nbr gs_ind gs_x gs_z].
        split; [rewrite <- app_assoc; reflexivity|]. rewrite fold_left_app. reflexivity.
  Qed.

  (** ** Loading *)
  Section Load.
    Context (ps : list placed) (nd : dict string (dict string pyv)) (W : list (string * string * string)).
    Hypothesis Hext : forall p, In p ps -> ext_ok (it_extra (pl_item p)).
    Hypothesis Hlab : NoDup (map pl_lab ps).
    Hypothesis Hind : NoDup (map pl_ind ps).
    Hypothesis Hnd : nd_ok nd W.
    Hypothesis HW : forall a d b, In (a, d, b) W -> In b (map pl_lab ps).
    Context (r : raw_layout).
    Definition info_n (p : placed) : attrs := set_neighbors nd (info_of p).
    Hypothesis Hr : rl_layout r = Some (map info_n ps).
    Hypothesis Hn : names_ok (odef [] (rl_logs r)) (odef [] (rl_logz r)) (odef [] (rl_logx r)) = true.

    Definition node (p : placed) : string * attrs := (pl_lab p, ddel "qubit" (info_n p)).
    Definition the_layout : layout :=
      {| l_name := odef (PStr "") (rl_name r); l_code := odef "" (rl_code r); l_logs := odef [] (rl_logs r);
         l_distance := odef (-1) (rl_distance r); l_dz := odef (-1) (rl_dz r); l_dx := odef (-1) (rl_dx r);
         l_logz := odef [] (rl_logz r); l_logx := odef [] (rl_logx r); l_desc := odef PNone (rl_desc r);
         l_order := odef [] (rl_order r);
         l_inds := map (fun p => (pl_lab p, pl_ind p)) ps;
         l_nodes := map node ps; l_adj := edge_map (map node ps) |}.

    Lemma info_n_eq p : In p ps -> info_n p =
      [("qubit", PStr (pl_lab p)); ("role", PStr (role_of (knd p)));
       ("coords", PList [PNum (zq (fst (pos p)) + fst pt)%Qc; PNum (zq (snd (pos p)) + snd pt)%Qc])]
      ++ it_extra (pl_item p) ++ [("stab_type", stab_of (knd p)); ("ind", PNum (zq (pl_ind p)));
                                  ("neighbors", PDict (rowd (pl_lab p) nd))].
    Proof.
      intros Hp. unfold info_n, set_neighbors, info_of, qubit_info.
      destruct (Hext p Hp) as [E|[f E]]; rewrite E; reflexivity.
    Qed.
    Ltac attr p Hp := rewrite (info_n_eq p Hp); destruct (Hext p Hp) as [EE|[ff EE]]; rewrite EE; reflexivity.
    Lemma info_lab p : In p ps -> dget "qubit" (info_n p) = Some (PStr (pl_lab p)).
    Proof. intros Hp. attr p Hp. Qed.
    Lemma node_role p : In p ps -> dget "role" (snd (node p)) = Some (PStr (role_of (knd p))).
    Proof. intros Hp. unfold node; cbn [snd]. rewrite dget_ddel. attr p Hp. Qed.
    Lemma node_stab p : In p ps -> dget "stab_type" (snd (node p)) = Some (stab_of (knd p)).
    Proof. intros Hp. unfold node; cbn [snd]. rewrite dget_ddel. attr p Hp. Qed.
    Lemma node_ind p : In p ps -> dget "ind" (snd (node p)) = Some (PNum (zq (pl_ind p))).
    Proof. intros Hp. unfold node; cbn [snd]. rewrite dget_ddel. attr p Hp. Qed.
    Lemma node_coords p : In p ps -> dget "coords" (snd (node p)) =
      Some (PList [PNum (zq (fst (pos p)) + fst pt)%Qc; PNum (zq (snd (pos p)) + snd pt)%Qc]).
    Proof. intros Hp. unfold node; cbn [snd]. rewrite dget_ddel. attr p Hp. Qed.
    Lemma node_nbrs p : In p ps -> dget "neighbors" (snd (node p)) = Some (PDict (rowd (pl_lab p) nd)).
    Proof. intros Hp. unfold node; cbn [snd]. rewrite dget_ddel. attr p Hp. Qed.
    Lemma info_nbrs p : In p ps -> dget "neighbors" (info_n p) = Some (PDict (rowd (pl_lab p) nd)).
    Proof. intros Hp. attr p Hp. Qed.
    Lemma info_keys p : In p ps -> NoDup (dkeys (info_n p)).
    Proof.
      intros Hp. apply nodupb_spec. attr p Hp.
    Qed.
    Lemma keys_nodes : dkeys (map node ps) = map pl_lab ps.
    Proof. unfold dkeys. rewrite map_map. reflexivity. Qed.
    Lemma node_get p : In p ps -> dget (pl_lab p) (map node ps) = Some (snd (node p)).
    Proof.
      intros Hp. apply In_dget; [rewrite keys_nodes; exact Hlab|]. apply in_map_iff. exists p. auto.
    Qed.

    Lemma load_ok : layout_init r = Ok the_layout.
    Proof.
      apply layout_init_char. constructor; cbn [the_layout l_name l_code l_logs l_distance l_dz l_dx l_logz l_logx l_desc
        l_order l_inds l_nodes l_adj]; try reflexivity.
      - exact Hn.
      - exists (map info_n ps). split; [exact Hr|].
        assert (G : forall qs, incl qs ps -> Forall2 node_of (map info_n qs) (map node qs)).
        { induction qs as [|p qs IH]; intros Hq; cbn [map]; constructor; [|apply IH; intros x Hx; apply Hq; now right].
          split; [|reflexivity]. apply info_lab. apply Hq. now left. }
        apply G, incl_refl.
      - rewrite keys_nodes. exact Hlab.
      - apply Forall_map, Forall_forall. intros p Hp. exists (rowd (pl_lab p) nd). split; [now apply node_nbrs|].
        apply Forall_forall. intros [d v] Hv. destruct (nd_vals _ _ Hnd _ _ _ Hv) as [->|[b ->]]; [now left|right].
        exists b. split; [reflexivity|]. rewrite keys_nodes. apply (nd_in _ _ Hnd) in Hv. eapply HW; eauto.
      - assert (R : raw_inds (map node ps) = map (fun p => (pl_lab p, PNum (zq (pl_ind p)))) ps).
        { unfold raw_inds. rewrite map_map. apply map_ext_in. intros p Hp. rewrite node_ind by exact Hp. reflexivity. }
        rewrite R. unfold load_inds.
        assert (F : existsb (fun kv : string * pyv => is_none (snd kv)) (map (fun p => (pl_lab p, PNum (zq (pl_ind p)))) ps) = false).
        { clear. induction ps as [|p qs IH]; [reflexivity|]. exact IH. }
        destruct ps as [|p0 ps']; [reflexivity|]. cbn [map forallb snd is_none andb]. cbn [map] in F. rewrite F.
        assert (M : forall qs, mapM (fun kv : string * pyv => as_ind (snd kv)) (map (fun p => (pl_lab p, PNum (zq (pl_ind p)))) qs) = Ok (map pl_ind qs)).
        { induction qs as [|p qs IH]; [reflexivity|]. cbn [map mapM snd].
          assert (A : as_ind (PNum (zq (pl_ind p))) = Ok (pl_ind p)) by (apply as_ind_ok; reflexivity).
          rewrite A. cbn [bind]. rewrite IH. reflexivity. }
        change ((pl_lab p0, PNum (zq (pl_ind p0))) :: map (fun p => (pl_lab p, PNum (zq (pl_ind p)))) ps')
          with (map (fun p => (pl_lab p, PNum (zq (pl_ind p)))) (p0 :: ps')).
        rewrite M. cbn [bind]. rewrite (proj2 (nodupb_spec _) Hind). f_equal.
        assert (G : forall qs, combine (map pl_lab qs) (map pl_ind qs) = map (fun p => (pl_lab p, pl_ind p)) qs).
        { clear. induction qs as [|p qs IH]; [reflexivity|]. cbn [map combine]. f_equal. exact IH. }
        unfold dkeys. rewrite map_map. exact (f_equal Ok (G (p0 :: ps'))).
    Qed.
    Lemma raw_dicts : py_dicts r.
    Proof.
      intros infos a Ei Ha. rewrite Hr in Ei. injection Ei as <-. apply in_map_iff in Ha as (p & <- & Hp).
      split; [now apply info_keys|]. intros row E. rewrite (info_nbrs p Hp) in E. injection E as <-. apply (nd_keys _ _ Hnd).
    Qed.
    Lemma layout_wf : wf the_layout.
    Proof. exact (loaded_wf r _ raw_dicts load_ok). Qed.
    Hypothesis HWsrc : forall a d b, In (a, d, b) W -> In a (map pl_lab ps).
    Lemma describes_W a d b : describes (map info_n ps) a d b <-> In (a, d, b) W.
    Proof.
      split.
      - intros (x & row & Hx & L & E & Hi). apply in_map_iff in Hx as (p & <- & Hp).
        unfold labelled in L. rewrite (info_lab p Hp) in L. injection L as <-.
        rewrite (info_nbrs p Hp) in E. injection E as <-. now apply (nd_in _ _ Hnd).
      - intros H. destruct (proj1 (in_map_iff _ _ _) (HWsrc _ _ _ H)) as (p & <- & Hp).
        exists (info_n p), (rowd (pl_lab p) nd). split; [now apply in_map|]. split; [now apply info_lab|].
        split; [now apply info_nbrs|]. now apply (nd_in _ _ Hnd).
    Qed.
    Hypothesis Hone : forall a d d' b, In (a, d, b) W -> In (a, d', b) W -> d = d'.
    Lemma pairs_dir qs a d b : In (a, b) (get_pairs the_layout qs (Some d)) <-> In a qs /\ In (a, d, b) W.
    Proof.
      rewrite (C51_dir_lemma r the_layout (map info_n ps) raw_dicts load_ok Hr), describes_W; [reflexivity|].
      intros q d1 d2 nb H1 H2. apply describes_W in H1, H2. eauto.
    Qed.
    Lemma pairs_any qs a b : In (a, b) (get_pairs the_layout qs None) <-> In a qs /\ exists d, In (a, d, b) W.
    Proof.
      rewrite (C51_none_lemma r the_layout (map info_n ps) raw_dicts load_ok Hr).
      split; intros [Ha [d H]]; (split; [exact Ha|]); exists d; now apply describes_W.
    Qed.
    Lemma qubits_by (f : placed -> bool) conds : conds <> [] ->
      (forall p, In p ps -> valid_attrs (snd (node p)) conds = Ok (f p)) ->
      get_qubits the_layout conds = Ok (map pl_lab (filter f ps)).
    Proof.
      intros Hc H. unfold get_qubits. destruct conds as [|c0 cs0]; [congruence|]. set (conds := c0 :: cs0) in *. clearbody conds.
      cbn [the_layout l_nodes].
      assert (G : forall qs, incl qs ps -> mapM (fun qa => valid_attrs (snd qa) conds) (map node qs) = Ok (map f qs)).
      { induction qs as [|p qs IH]; intros Hq; [reflexivity|]. cbn [map mapM]. rewrite H by (apply Hq; now left). cbn [bind].
        rewrite IH by (intros x Hx; apply Hq; now right). reflexivity. }
      rewrite G by apply incl_refl. cbn [bind]. f_equal. rewrite keys_nodes. clear.
      induction ps as [|p qs IH]; [reflexivity|]. cbn [map combine filter snd]. destruct (f p); cbn [map fst]; now rewrite IH.
    Qed.
    Lemma role_data : get_role the_layout "data" = Ok (map pl_lab (filter (isk KD) ps)).
    Proof.
      apply qubits_by; [discriminate|]. intros p Hp. cbn [valid_attrs]. unfold dget_err. rewrite node_role by exact Hp.
      cbn [of_opt bind]. unfold isk. destruct (knd p); reflexivity.
    Qed.
    Lemma role_anc : get_role the_layout "anc" = Ok (map pl_lab (filter isanc ps)).
    Proof.
      apply qubits_by; [discriminate|]. intros p Hp. cbn [valid_attrs]. unfold dget_err. rewrite node_role by exact Hp.
      cbn [of_opt bind]. unfold isanc. destruct (knd p); reflexivity.
    Qed.
    Lemma stabs_x : get_stabs the_layout "x_type" = Ok (map pl_lab (filter (isk KX) ps)).
    Proof.
      apply qubits_by; [discriminate|]. intros p Hp. cbn [valid_attrs]. unfold dget_err.
      rewrite node_role, node_stab by exact Hp. unfold isk. destruct (knd p); reflexivity.
    Qed.
    Lemma stabs_z : get_stabs the_layout "z_type" = Ok (map pl_lab (filter (isk KZ) ps)).
    Proof.
      apply qubits_by; [discriminate|]. intros p Hp. cbn [valid_attrs]. unfold dget_err.
      rewrite node_role, node_stab by exact Hp. unfold isk. destruct (knd p); reflexivity.
    Qed.
    Lemma inds_of qs : incl qs ps -> lay_inds the_layout (map pl_lab qs) = Ok (map pl_ind qs).
    Proof.
      unfold lay_inds. cbn [the_layout l_inds]. induction qs as [|p qs IH]; intros Hq; [reflexivity|]. cbn [map mapM].
      rewrite IH by (intros x Hx; apply Hq; now right). unfold dget_err.
      rewrite (In_dget (pl_lab p) (pl_ind p)); [reflexivity| |].
      - unfold dkeys. rewrite map_map. exact Hlab.
      - apply in_map_iff. exists p. split; [reflexivity|]. apply Hq. now left.
    Qed.
    Lemma coord_of p : In p ps -> has_coord the_layout (pl_lab p) [(zq (fst (pos p)) + fst pt)%Qc; (zq (snd (pos p)) + snd pt)%Qc].
    Proof.
      intros Hp. unfold has_coord, lparam, dget_err. cbn [the_layout l_nodes]. rewrite node_get by exact Hp.
      cbn [of_opt bind]. rewrite node_coords by exact Hp. reflexivity.
    Qed.
  End Load.

  (** ** Geometry *)
  Section Geometry.
    Context (items : list item) (ind x z : Z).
    Hypothesis Hpos : NoDup (map it_pos items).
    Hypothesis Hinj : forall i j, In i items -> In j items -> it_kind i = KD -> it_kind j = KD ->
       index (fst (it_pos i)) (snd (it_pos i)) = index (fst (it_pos j)) (snd (it_pos j)) -> it_pos i = it_pos j.
    Hypothesis Hval : forall i s, In i items -> it_kind i <> KD -> In s shifts ->
      (vld (padd (it_pos i) s) = true <-> exists d, In d items /\ it_kind d = KD /\ it_pos d = padd (it_pos i) s).
    Hypothesis Hpar : forall i j s, In i items -> In j items -> In s shifts -> it_pos j = padd (it_pos i) s ->
      (it_kind i = KD <-> it_kind j <> KD).
    Hypothesis Hinv : forall s, In s shifts -> In (invert_shift s) shifts.
    Hypothesis Hdinj : forall s s', In s shifts -> In s' shifts -> dirn s = dirn s' -> s = s'.
    Let ps := place index items ind x z.
    Let W := flat_map writes_of ps.
    Definition next (P : list placed) (a d b : string) : Prop :=
      exists p q s, In p P /\ In q P /\ In s shifts /\ pl_lab p = a /\ pl_lab q = b /\ d = dirn s /\ pos q = padd (pos p) s.

    Lemma ps_item p : In p ps -> In (pl_item p) items.
    Proof. intros Hp. rewrite <- (place_items index items ind x z). now apply in_map. Qed.
    Lemma item_ps i : In i items -> exists p, In p ps /\ pl_item p = i.
    Proof.
      intros Hi. rewrite <- (place_items index items ind x z) in Hi. apply in_map_iff in Hi as (p & <- & Hp). eauto.
    Qed.
    Lemma ps_nodup_lab : NoDup (map pl_lab ps).
    Proof. now apply place_nodup. Qed.
    Lemma ps_nodup_pos : NoDup (map pos ps).
    Proof. unfold pos. rewrite <- (map_map pl_item it_pos). unfold ps. rewrite place_items. exact Hpos. Qed.
    Lemma ps_nodup_ind : NoDup (map pl_ind ps).
    Proof.
      unfold ps. rewrite place_inds. apply FinFun.Injective_map_NoDup; [intros a b; lia|]. apply range_nodup.
    Qed.
    Lemma same_lab p q : In p ps -> In q ps -> pl_lab p = pl_lab q -> p = q.
    Proof.
      intros Hp Hq E. pose proof ps_nodup_lab as N. revert Hp Hq N. generalize ps. intros l.
      induction l as [|a l IH]; intros Hp Hq N; [destruct Hp|]. cbn [map] in N. inversion N as [|? ? Hn N']; subst.
      destruct Hp as [->|Hp], Hq as [->|Hq]; auto; exfalso; apply Hn; [rewrite E|rewrite <- E]; now apply in_map.
    Qed.
    Lemma same_pos p q : In p ps -> In q ps -> pos p = pos q -> p = q.
    Proof.
      intros Hp Hq E. pose proof ps_nodup_pos as N. revert Hp Hq N. generalize ps. intros l.
      induction l as [|a l IH]; intros Hp Hq N; [destruct Hp|]. cbn [map] in N. inversion N as [|? ? Hn N']; subst.
      destruct Hp as [->|Hp], Hq as [->|Hq]; auto; exfalso; apply Hn; [rewrite E|rewrite <- E]; now apply in_map.
    Qed.
    Lemma data_lab p : In p ps -> knd p = KD -> pl_lab p = dlab (pos p).
    Proof. intros Hp K. pose proof (place_lab _ _ _ _ _ _ Hp) as L. rewrite K in L. exact L. Qed.
    Lemma invert_invert s : invert_shift (invert_shift s) = s.
    Proof. destruct s as [a b]. unfold invert_shift; simpl. f_equal; lia. Qed.
    Lemma padd_invert p s : padd (padd p s) (invert_shift s) = p.
    Proof. destruct p, s. unfold padd, invert_shift; simpl. f_equal; lia. Qed.
    Lemma isanc_spec p : isanc p = true <-> knd p <> KD.
    Proof. unfold isanc. destruct (knd p); split; congruence. Qed.

    Lemma W_next a d b : In (a, d, b) W <-> next ps a d b.
    Proof.
      unfold W. rewrite in_flat_map. split.
      - intros (p & Hp & H). unfold writes_of in H. destruct (isanc p) eqn:A; [|destruct H].
        apply isanc_spec in A. apply in_flat_map in H as (s & Hs & H). unfold anc_writes in H.
        destruct (vld (padd (pos p) s)) eqn:V; [|destruct H].
        apply (Hval (pl_item p) s (ps_item p Hp) A Hs) in V as (d0 & Hd & Kd & Pd).
        destruct (item_ps d0 Hd) as (q & Hq & <-).
        assert (Lq : pl_lab q = dlab (padd (pos p) s)).
        { rewrite (data_lab q Hq Kd). unfold pos at 1. rewrite Pd. reflexivity. }
        destruct H as [[= <- <- <-]|[[= <- <- <-]|[]]].
        + exists p, q, s. do 3 (split; [assumption|]). split; [reflexivity|]. split; [exact Lq|]. split; [reflexivity|exact Pd].
        + exists q, p, (invert_shift s). do 2 (split; [assumption|]). split; [now apply Hinv|].
          split; [exact Lq|]. do 2 (split; [reflexivity|]). unfold pos at 2. rewrite Pd, padd_invert. reflexivity.
      - intros (p & q & s & Hp & Hq & Hs & <- & <- & -> & E).
        pose proof (Hpar _ _ s (ps_item p Hp) (ps_item q Hq) Hs E) as Par.
        destruct (it_kind (pl_item p)) eqn:Kp.
        + assert (Kq : knd q <> KD) by (apply Par; reflexivity).
          exists q. split; [exact Hq|]. unfold writes_of. rewrite (proj2 (isanc_spec q) Kq).
          apply in_flat_map. exists (invert_shift s). split; [now apply Hinv|].
          assert (E' : padd (pos q) (invert_shift s) = pos p) by (rewrite E; apply padd_invert).
          unfold anc_writes. rewrite E', invert_invert.
          assert (V : vld (pos p) = true).
          { rewrite <- E'. apply (Hval (pl_item q)); [now apply ps_item|exact Kq|now apply Hinv|].
            exists (pl_item p). split; [now apply ps_item|]. split; [exact Kp|]. symmetry. exact E'. }
          rewrite V. right; left. now rewrite (data_lab p Hp Kp).
        + assert (Kq : knd q = KD).
          { unfold knd. destruct (it_kind (pl_item q)); [reflexivity| |]; exfalso; assert (KX = KD) by (apply Par; discriminate); discriminate. }
          exists p. split; [exact Hp|]. assert (Kp' : knd p <> KD) by (unfold knd; congruence).
          unfold writes_of. rewrite (proj2 (isanc_spec p) Kp'). apply in_flat_map. exists s. split; [exact Hs|].
          unfold anc_writes. rewrite <- E.
          assert (V : vld (pos q) = true).
          { rewrite E. apply (Hval (pl_item p)); [now apply ps_item|exact Kp'|exact Hs|].
            exists (pl_item q). split; [now apply ps_item|]. auto. }
          rewrite V. left. now rewrite (data_lab q Hq Kq).
        + assert (Kq : knd q = KD).
          { unfold knd. destruct (it_kind (pl_item q)); [reflexivity| |]; exfalso; assert (KZ = KD) by (apply Par; discriminate); discriminate. }
          exists p. split; [exact Hp|]. assert (Kp' : knd p <> KD) by (unfold knd; congruence).
          unfold writes_of. rewrite (proj2 (isanc_spec p) Kp'). apply in_flat_map. exists s. split; [exact Hs|].
          unfold anc_writes. rewrite <- E.
          assert (V : vld (pos q) = true).
          { rewrite E. apply (Hval (pl_item p)); [now apply ps_item|exact Kp'|exact Hs|].
            exists (pl_item q). split; [now apply ps_item|]. auto. }
          rewrite V. left. now rewrite (data_lab q Hq Kq).
    Qed.
    Lemma W_fun a d b b' : In (a, d, b) W -> In (a, d, b') W -> b = b'.
    Proof.
      intros H H'. apply W_next in H as (p & q & s & Hp & Hq & Hs & <- & <- & -> & E).
      apply W_next in H' as (p' & q' & s' & Hp' & Hq' & Hs' & L & <- & D & E').
      apply (same_lab _ _ Hp' Hp) in L as ->. apply (Hdinj _ _ Hs Hs') in D as <-.
      f_equal. apply same_pos; auto. congruence.
    Qed.
    Lemma W_one a d d' b : In (a, d, b) W -> In (a, d', b) W -> d = d'.
    Proof.
      intros H H'. apply W_next in H as (p & q & s & Hp & Hq & Hs & <- & <- & -> & E).
      apply W_next in H' as (p' & q' & s' & Hp' & Hq' & Hs' & L & L' & -> & E').
      apply (same_lab _ _ Hp' Hp) in L as ->. apply (same_lab _ _ Hq' Hq) in L' as ->.
      rewrite E in E'. unfold padd in E'. injection E' as E1 E2. f_equal.
      destruct s, s'; simpl in *. f_equal; lia.
    Qed.
    Lemma W_dst a d b : In (a, d, b) W -> In b (map pl_lab ps).
    Proof. intros H. apply W_next in H as (p & q & s & Hp & Hq & Hs & <- & <- & -> & E). now apply in_map. Qed.
    Lemma W_src a d b : In (a, d, b) W -> In a (map pl_lab ps).
    Proof. intros H. apply W_next in H as (p & q & s & Hp & Hq & Hs & <- & <- & -> & E). now apply in_map. Qed.
  End Geometry.
End Run.

(** * What is known about a generated layout *)
Record planar (l : layout) (shifts : list (Z * Z)) (dirn : Z * Z -> string) (pt : Qc * Qc) (ps : list placed) : Prop := {
  pn_wf : wf l;
  pn_nodes : map fst (l_nodes l) = map pl_lab ps;
  pn_nlab : NoDup (map pl_lab ps);
  pn_npos : NoDup (map pos ps);
  pn_nind : NoDup (map pl_ind ps);
  pn_data : get_role l "data" = Ok (map pl_lab (filter (isk KD) ps));
  pn_anc : get_role l "anc" = Ok (map pl_lab (filter isanc ps));
  pn_x : get_stabs l "x_type" = Ok (map pl_lab (filter (isk KX) ps));
  pn_z : get_stabs l "z_type" = Ok (map pl_lab (filter (isk KZ) ps));
  pn_inds : forall qs, incl qs ps -> lay_inds l (map pl_lab qs) = Ok (map pl_ind qs);
  pn_coord : forall p, In p ps ->
    has_coord l (pl_lab p) [(zq (fst (pos p)) + fst pt)%Qc; (zq (snd (pos p)) + snd pt)%Qc];
  pn_par : forall p q s, In p ps -> In q ps -> In s shifts -> pos q = padd (pos p) s -> (knd p = KD <-> knd q <> KD);
  pn_dinj : forall s s', In s shifts -> In s' shifts -> dirn s = dirn s' -> s = s';
  pn_dir : forall qs a d b, In (a, b) (get_pairs l qs (Some d)) <-> In a qs /\ next dirn shifts ps a d b;
  pn_any : forall qs a b, In (a, b) (get_pairs l qs None) <-> In a qs /\ exists d, next dirn shifts ps a d b;
  pn_nbrs : forall p, In p ps -> exists row, lparam l "neighbors" (pl_lab p) = Ok (PDict row) /\
    forall d b, In (d, PStr b) row <-> next dirn shifts ps (pl_lab p) d b }.

Section Intro.
  Context (dirn : Z * Z -> string) (valid : Z -> Z -> bool) (index : Z -> Z -> Z)
          (shifts : list (Z * Z)) (pt : Qc * Qc) (items : list item) (ind x z : Z).
  Hypothesis Hpos : NoDup (map it_pos items).
  Hypothesis Hinj : forall i j, In i items -> In j items -> it_kind i = KD -> it_kind j = KD ->
     index (fst (it_pos i)) (snd (it_pos i)) = index (fst (it_pos j)) (snd (it_pos j)) -> it_pos i = it_pos j.
  Hypothesis Hval : forall i s, In i items -> it_kind i <> KD -> In s shifts ->
    (vld valid (padd (it_pos i) s) = true <-> exists d, In d items /\ it_kind d = KD /\ it_pos d = padd (it_pos i) s).
  Hypothesis Hpar : forall i j s, In i items -> In j items -> In s shifts -> it_pos j = padd (it_pos i) s ->
    (it_kind i = KD <-> it_kind j <> KD).
  Hypothesis Hinv : forall s, In s shifts -> In (invert_shift s) shifts.
  Hypothesis Hdinj : forall s s', In s shifts -> In s' shifts -> dirn s = dirn s' -> s = s'.
  Hypothesis Hext : forall i, In i items -> ext_ok (it_extra i).
  Definition all_writes : list (string * string * string) :=
    flat_map (writes_of dirn valid index shifts) (place index items ind x z).
  Lemma nbrs_ok_plain : nd_ok (fold_left wr all_writes []) all_writes.
  Proof. apply writes_ok. intros a d b b'. apply W_fun; assumption. Qed.

  Lemma planar_intro nd r : nd_ok nd all_writes ->
    rl_layout r = Some (map (set_neighbors nd) (map (info_of pt) (place index items ind x z))) ->
    names_ok (odef [] (rl_logs r)) (odef [] (rl_logz r)) (odef [] (rl_logx r)) = true ->
    exists l, layout_init r = Ok l /\ py_dicts r /\ planar l shifts dirn pt (place index items ind x z) /\
      l_logz l = odef [] (rl_logz r) /\ l_logx l = odef [] (rl_logx r) /\ l_logs l = odef [] (rl_logs r) /\
      l_order l = odef [] (rl_order r) /\ l_dx l = odef (-1) (rl_dx r) /\ l_dz l = odef (-1) (rl_dz r) /\
      l_distance l = odef (-1) (rl_distance r) /\ l_code l = odef "" (rl_code r) /\ l_name l = odef (PStr "") (rl_name r).
  Proof.
    intros Hnd Hr Hn. rewrite map_map in Hr. set (ps := place index items ind x z) in *.
    assert (E1 : forall p, In p ps -> ext_ok (it_extra (pl_item p))).
    { intros p Hp. apply Hext. eapply ps_item; eauto. }
    assert (E2 : NoDup (map pl_lab ps)) by (apply ps_nodup_lab; assumption).
    assert (E3 : NoDup (map pl_ind ps)) by apply ps_nodup_ind.
    assert (E4 : forall a d b, In (a, d, b) all_writes -> In b (map pl_lab ps)) by (intros a d b; apply W_dst; assumption).
    assert (E5 : forall a d b, In (a, d, b) all_writes -> In a (map pl_lab ps)) by (intros a d b; apply W_src; assumption).
    assert (E6 : forall a d d' b, In (a, d, b) all_writes -> In (a, d', b) all_writes -> d = d') by (intros a d d' b; apply W_one; assumption).
    exists (the_layout pt ps nd r). split; [apply (load_ok pt ps nd all_writes); assumption|].
    split; [apply (raw_dicts pt ps nd all_writes); assumption|]. split; [|repeat split].
    constructor.
    - apply (layout_wf pt ps nd all_writes); assumption.
    - apply keys_nodes.
    - exact E2.
    - apply ps_nodup_pos; assumption.
    - exact E3.
    - apply role_data; assumption.
    - apply role_anc; assumption.
    - apply stabs_x; assumption.
    - apply stabs_z; assumption.
    - intros qs. apply inds_of; assumption.
    - intros p. apply coord_of; assumption.
    - intros p q s Hp Hq. apply Hpar; [eapply ps_item|eapply ps_item]; eauto.
    - exact Hdinj.
    - intros qs a d b. rewrite (pairs_dir pt ps nd all_writes) by assumption.
      unfold all_writes. rewrite W_next by assumption. reflexivity.
    - intros qs a b. rewrite (pairs_any pt ps nd all_writes) by assumption.
      split; intros [Ha [d H]]; (split; [exact Ha|]); exists d; [unfold all_writes in H; rewrite W_next in H by assumption; exact H|].
      unfold all_writes. rewrite W_next by assumption. exact H.
    - intros p Hp. exists (rowd (pl_lab p) nd). split.
      + unfold lparam, dget_err. cbn [the_layout l_nodes]. rewrite node_get by assumption.
        cbn [of_opt bind]. rewrite (node_nbrs pt ps nd) by assumption. reflexivity.
      + intros d b. rewrite (nd_in _ _ Hnd). unfold all_writes. rewrite W_next by assumption. reflexivity.
  Qed.
End Intro.
