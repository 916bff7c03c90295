(** Proofs for Props_Time.v (C83): what the detectors contribute. *)
From Coq Require Import QArith Qcanon.
From Verif Require Import Base StimM MatM DetM Lib SpecTime DetCountP MergeP6.
Open Scope Z_scope.

Definition rmap {A B} (f : A -> B) (r : res A) : res B := match r with Ok a => Ok (f a) | Err e => Err e end.
(* counters that are equal or both at least three *)
Definition near (n n' : Z) : Prop := n = n' \/ 3 <= n /\ 3 <= n'.
Definition Nrel (r r' : dict string Z) : Prop := forall a,
  match dget a r, dget a r' with Some n, Some n' => near n n' | None, None => True | _, _ => False end.
Record Drel (k : Z) (d d' : detectors) : Prop := {
  dr_labels : labels d' = labels d; dr_frame : dfr d' = dfr d; dr_coords : dcoords d' = dcoords d;
  dr_prev : prev_gen d' = prev_gen d; dr_curr : curr_gen d' = curr_gen d; dr_active : active d' = active d;
  dr_total : total d' = total d + k; dr_rounds : Nrel (num_rounds d) (num_rounds d') }.

Definition bump (nr : dict string Z) (ab : string * bool) : res (string * Z) :=
  do n <- dget_err (fst ab) nr; Ok (fst ab, if snd ab then n + 1 else n).
Lemma next_rel k d d' : Drel k d d' ->
  match next_rounds d, next_rounds d' with Ok r, Ok r' => Nrel r r' | Err e, Err e' => e = e' | _, _ => False end.
Proof.
  intros R. unfold next_rounds. rewrite (dr_active _ _ _ R).
  change (match mapM (bump (num_rounds d)) (active d), mapM (bump (num_rounds d')) (active d) with Ok r, Ok r' => Nrel r r' | Err e, Err e' => e = e' | _, _ => False end).
  generalize (active d). intros l. induction l as [|[a b] l IH]; [intros x; exact I|]. cbn [mapM]. change (bump (num_rounds d) (a, b)) with (do n <- of_opt KeyError (dget a (num_rounds d)); Ok (a, if b then n + 1 else n)).
  change (bump (num_rounds d') (a, b)) with (do n <- of_opt KeyError (dget a (num_rounds d')); Ok (a, if b then n + 1 else n)).
  assert (H := dr_rounds _ _ _ R a). destruct (dget a (num_rounds d)) as [n|], (dget a (num_rounds d')) as [n'|]; cbn [of_opt bind]; try contradiction; [|exact eq_refl].
  destruct (mapM (bump (num_rounds d)) l) as [r|e], (mapM (bump (num_rounds d')) l) as [r'|e']; cbn [bind]; try contradiction; [|exact IH].
  intros x. cbn [dget]. destruct (eqb x a); [|apply IH]. unfold near in *. destruct b; lia.
Qed.
Lemma bump_get nr : forall l r, mapM (bump nr) l = Ok r -> forall a,
  dget a r = match dget a l with Some b => option_map (fun n => if b : bool then n + 1 else n) (dget a nr) | None => None end.
Proof.
  induction l as [|[x b] l IH]; intros r E a; [injection E as <-; reflexivity|]. cbn [mapM] in E.
  apply bind_ok in E as (y & Ey & E). apply bind_ok in E as (r' & Er & E). injection E as <-.
  unfold bump in Ey. cbn [fst snd] in Ey. apply bind_ok in Ey as (n & En & Ey). injection Ey as <-. cbn [dget].
  destruct (eqb_spec a x) as [->|N]; [|now apply IH]. unfold dget_err in En. destruct (dget x nr); [|discriminate]. injection En as <-. reflexivity.
Qed.
Lemma near_leb n n' j : near n n' -> j <= 3 -> (j <=? n) = (j <=? n').
Proof. intros H L. unfold near in H. destruct (Z.leb_spec j n), (Z.leb_spec j n'); auto; lia. Qed.

(** * Which measurements *)
Definition recent (l : list (string * Z)) : Prop := Forall (fun t => -3 <= snd t <= -1) l.
Definition recents (l : list (string * list (string * Z))) : Prop := Forall (fun x => recent (snd x)) l.
Lemma select_recent ls l k : -3 <= k <= -1 -> recent (select ls l k).
Proof. intros H. unfold select, recent. apply Forall_forall. intros t Ht. apply in_map_iff in Ht as (i & <- & _). exact H. Qed.
Lemma recent_app a b : recent a -> recent b -> recent (a ++ b).
Proof. unfold recent. intros. apply Forall_app. auto. Qed.
Lemma mapM_recent {A} (f : A -> res (string * list (string * Z))) l r :
  (forall x y, In x l -> f x = Ok y -> recent (snd y)) -> mapM f l = Ok r -> recents r.
Proof.
  intros H E. apply mapM_Forall2 in E. unfold recents. revert H. induction E as [|x y l r Hx E IH]; intros H; constructor.
  - apply (H x); [now left|exact Hx].
  - apply IH. intros x' y' I. apply H. now right.
Qed.
Lemma anc_meas_recent c p b nr r1 r2 dets : get_anc_meas c p b nr r1 r2 = Ok dets -> recents dets.
Proof.
  unfold get_anc_meas. cbv zeta. intros H. do 4 (apply bind_ok in H as (? & _ & H)).
  eapply mapM_recent; [|exact H]. intros [a [c' p']] y _ E. cbv zeta in E. apply bind_ok in E as (n & _ & E). injection E as <-. cbn [snd].
  apply recent_app; [apply select_recent; lia|]. apply recent_app; [destruct (2 <=? n); [apply select_recent; lia|constructor]|].
  apply recent_app; [destruct (negb r1 && (2 <=? n)); [apply select_recent; lia|constructor]|].
  destruct (negb r2 && (3 <=? n)); [apply select_recent; lia|constructor].
Qed.
Lemma anc_meas_rel c p b nr nr' r1 r2 : Nrel nr nr' -> get_anc_meas c p b nr r1 r2 = get_anc_meas c p b nr' r1 r2.
Proof.
  intros H. unfold get_anc_meas. cbv zeta. destruct (mapM _ _) as [x1|]; [|reflexivity]. cbn [bind]. destruct (mapM _ _) as [x2|]; [|reflexivity]. cbn [bind].
  destruct (mapM _ _) as [x3|]; [|reflexivity]. cbn [bind]. destruct (of_opt _ _) as [x4|]; [|reflexivity]. cbn [bind].
  apply mapM_ext. intros [a [c' p']] _. cbv zeta. specialize (H a). unfold dget_err.
  destruct (dget a nr) as [n|], (dget a nr') as [n'|]; try contradiction; [|reflexivity]. cbn [of_opt bind].
  rewrite (near_leb n n' 2 H), (near_leb n n' 3 H) by lia. reflexivity.
Qed.

(** * The instructions *)
Lemma later_time k cs t : later_args k (map ANum (cs ++ [t])) = map ANum (cs ++ [(t + zq k)%Qc]).
Proof.
  induction cs as [|c cs IH]; [reflexivity|]. cbn [app map]. rewrite <- IH. cbn [app map later_args].
  destruct cs; reflexivity.
Qed.
Lemma remove_recent l : recent l -> recent (remove_pairs l).
Proof.
  unfold recent, remove_pairs. rewrite !Forall_forall. intros H x I. apply filter_In in I as [I _]. auto.
Qed.
Section Rec.
  Context (g g' : string -> Z -> res target) (G : forall q z, -3 <= z <= -1 -> g q z = g' q z) (k : Z).
  Lemma det_instr_rel d d' ancs t x : dcoords d' = dcoords d -> recent (snd x) ->
    det_instr d' g' ancs (t + zq k)%Qc x = rmap (later k) (det_instr d g ancs t x).
  Proof.
    intros C H. unfold det_instr. rewrite C. cbv zeta.
    assert (E : mapM (fun t => g' (fst t) (snd t)) (remove_pairs (snd x)) = mapM (fun t => g (fst t) (snd t)) (remove_pairs (snd x))).
    { apply mapM_ext. intros y Hy. symmetry. apply G. apply remove_recent in H. unfold recent in H. rewrite Forall_forall in H. now apply H. }
    rewrite E. destruct (if mem (fst x) ancs then _ else _); [|reflexivity]. cbn [bind].
    destruct (dget_err _ _); [|reflexivity]. cbn [bind]. unfold mk, rmap, later. cbv zeta. cbn. rewrite <- later_time. reflexivity.
  Qed.
  Lemma det_instrs_rel d d' ancs t dets : dcoords d' = dcoords d -> recents dets ->
    mapM (det_instr d' g' ancs (t + zq k)%Qc) dets = rmap (map (later k)) (mapM (det_instr d g ancs t) dets).
  Proof.
    intros C H. induction H as [|x dets Hx H IH]; [reflexivity|]. cbn [mapM]. rewrite (det_instr_rel d d' ancs t x C Hx), IH.
    destruct (det_instr d g ancs t x); [|reflexivity]. cbn [rmap bind]. destruct (mapM (det_instr d g ancs t) dets); reflexivity.
  Qed.
  Lemma later_name i : nm (later k i) = nm i.
  Proof. unfold later. destruct (nm i) eqn:E; rewrite ?E; reflexivity. Qed.
  Lemma later_dets c : Forall (fun i => nm i = DETECTOR) c -> appends [] (map (later k) c) = map (later k) (appends [] c).
  Proof.
    intros F. rewrite (appends_det c []) by exact F. rewrite (appends_det (map (later k) c) []); [reflexivity|].
    apply Forall_forall. intros i I. apply in_map_iff in I as (j & <- & I). rewrite later_name. rewrite Forall_forall in F. auto.
  Qed.

  (* the measurements of the detectors of a round *)
  Definition anc_dets (reset : bool) (d : detectors) : res (dict string (list (string * Z))) :=
    match dfr d with
    | GateIndep =>
        mapM (fun a => do n <- dget_err a (num_rounds d);
                       let k := if reset then -2 else -3 in
                       Ok (a, (a, -1) :: (if 0 <=? k + n then [(a, k)] else []))) (labels d)
    | PostGate => get_anc_meas (curr_gen d) (prev_gen d) (curr_gen d) (num_rounds d) reset reset
    | PreGate => get_anc_meas (curr_gen d) (prev_gen d) (prev_gen d) (num_rounds d) reset reset
    end.
  Lemma anc_dets_rel reset d d' : Drel k d d' -> anc_dets reset d' = anc_dets reset d.
  Proof.
    intros R. unfold anc_dets. rewrite (dr_frame _ _ _ R), (dr_labels _ _ _ R), (dr_curr _ _ _ R), (dr_prev _ _ _ R).
    destruct (dfr d); [symmetry; apply anc_meas_rel, (dr_rounds _ _ _ R)|symmetry; apply anc_meas_rel, (dr_rounds _ _ _ R)|].
    apply mapM_ext. intros a _. assert (H := dr_rounds _ _ _ R a). unfold dget_err.
    destruct (dget a (num_rounds d)) as [n|], (dget a (num_rounds d')) as [n'|]; try contradiction; [|reflexivity]. cbn [of_opt bind].
    cbv zeta. replace (0 <=? (if reset then -2 else -3) + n') with (0 <=? (if reset then -2 else -3) + n); [reflexivity|].
    unfold near in H. destruct reset; destruct (Z.leb_spec 0 (-2 + n)), (Z.leb_spec 0 (-2 + n')), (Z.leb_spec 0 (-3 + n)), (Z.leb_spec 0 (-3 + n')); auto; lia.
  Qed.
  Lemma anc_dets_recent reset d r : anc_dets reset d = Ok r -> recents r.
  Proof.
    unfold anc_dets. destruct (dfr d); try apply anc_meas_recent. apply mapM_recent. intros a y _ E. apply bind_ok in E as (n & _ & E).
    cbv zeta in E. injection E as <-. constructor; [cbn; lia|]. destruct (0 <=? _); constructor; [destruct reset; cbn; lia|constructor].
  Qed.
  Lemma zq_add a b : zq (a + b) = (zq a + zq b)%Qc.
  Proof.
    unfold zq, Qcplus. apply Q2Qc_eq_iff. cbn [this Q2Qc]. rewrite !Qred_correct, inject_Z_plus. reflexivity.
  Qed.

  Lemma anc_rel reset req d d' : Drel k d d' ->
    snd (build_from_anc g' reset req d') = rmap (map (later k)) (snd (build_from_anc g reset req d)) /\
    (forall c, snd (build_from_anc g reset req d) = Ok c -> Drel k (fst (build_from_anc g reset req d)) (fst (build_from_anc g' reset req d'))).
  Proof.
    intros R. unfold build_from_anc, sbind, sread. cbv beta.
    assert (Q : requested d' req = requested d req).
    { unfold requested. rewrite (dr_active _ _ _ R), (dr_curr _ _ _ R). reflexivity. }
    rewrite Q. destruct (requested d req) as [ancs|e]; [|cbn; split; [reflexivity|discriminate]].
    assert (H := next_rel _ _ _ R). destruct (next_rounds d) as [nr|e], (next_rounds d') as [nr'|e']; try contradiction; [|cbn; split; [now subst|discriminate]].
    cbv beta. set (d1 := set_rounds nr (total d + 1) d). set (d1' := set_rounds nr' (total d' + 1) d').
    assert (R1 : Drel k d1 d1').
    { destruct R. constructor; cbn; auto. lia. }
    fold (anc_dets reset d1). fold (anc_dets reset d1'). rewrite (anc_dets_rel reset d1 d1' R1).
    destruct (anc_dets reset d1) as [dets|e] eqn:Ed; [|cbn; split; [reflexivity|discriminate]]. apply anc_dets_recent in Ed.
    replace (zq (total d1' - 1)) with (zq (total d1 - 1) + zq k)%Qc by (rewrite <- zq_add; f_equal; rewrite (dr_total _ _ _ R1); lia).
    rewrite (det_instrs_rel d1 d1' ancs _ dets (dr_coords _ _ _ R1) Ed).
    destruct (mapM (det_instr d1 g ancs (zq (total d1 - 1))) dets) as [c|e] eqn:Ec; cbn [rmap fst snd]; [|split; [reflexivity|discriminate]].
    apply det_names in Ec. unfold sret. cbn [fst snd rmap]. rewrite (later_dets c Ec). split; [reflexivity|]. intros _ _.
    destruct R1. constructor; cbn; auto.
  Qed.

  (* the measurements of the detectors of a logical measurement *)
  Definition data_dets (reset : bool) (nr : dict string Z) (d : detectors) : res (dict string (list (string * Z))) :=
    match dfr d with
    | GateIndep =>
        mapM (fun a => do n <- dget_err a nr;
                       Ok (a, (a, -1) :: (if 1 <? n then [(a, -2)] else [])
                                      ++ (if negb reset && (2 <? n) then [(a, -3)] else []))) (labels d)
    | _ => get_anc_meas (curr_gen d) (prev_gen d) (curr_gen d) nr true reset
    end.
  Lemma data_dets_rel reset nr nr' d d' : Nrel nr nr' -> Drel k d d' -> data_dets reset nr' d' = data_dets reset nr d.
  Proof.
    intros N R. unfold data_dets. rewrite (dr_frame _ _ _ R), (dr_labels _ _ _ R), (dr_curr _ _ _ R), (dr_prev _ _ _ R).
    destruct (dfr d); [symmetry; apply anc_meas_rel, N|symmetry; apply anc_meas_rel, N|].
    apply mapM_ext. intros a _. specialize (N a). unfold dget_err.
    destruct (dget a nr) as [n|], (dget a nr') as [n'|]; try contradiction; [|reflexivity]. cbn [of_opt bind].
    replace (1 <? n') with (1 <? n); [replace (2 <? n') with (2 <? n); [reflexivity|]|]; unfold near in N.
    - destruct (Z.ltb_spec 2 n), (Z.ltb_spec 2 n'); auto; lia.
    - destruct (Z.ltb_spec 1 n), (Z.ltb_spec 1 n'); auto; lia.
  Qed.
  Lemma data_dets_recent reset nr d r : data_dets reset nr d = Ok r -> recents r.
  Proof.
    unfold data_dets. destruct (dfr d); try apply anc_meas_recent. apply mapM_recent. intros a y _ E. apply bind_ok in E as (n & _ & E).
    injection E as <-. cbn [snd]. constructor; [cbn; lia|]. apply recent_app; [destruct (1 <? n)|destruct (negb reset && (2 <? n))]; repeat constructor; cbn; lia.
  Qed.
  Lemma to_data_recent sup l r : recent l -> to_data sup l = Ok r -> recent r.
  Proof.
    intros H E. unfold to_data in E. apply bind_ok in E as (rs & E & F). injection F as <-.
    apply mapM_Forall2 in E. unfold recent in *. revert H. induction E as [|x y l rs Hx E IH]; intros H; [constructor|]. inversion H as [|? ? H1 H2]; subst.
    cbn [concat]. apply Forall_app. split; [|auto]. destruct (eqb_spec (snd x) (-1)).
    - apply bind_ok in Hx as (qs & _ & Hx). injection Hx as <-. apply Forall_forall. intros t I. apply in_map_iff in I as (q & <- & _). cbn. lia.
    - injection Hx as <-. constructor; [cbn; lia|constructor].
  Qed.
  Lemma data_rel sup reset rc req d d' : Drel k d d' ->
    snd (build_from_data g' sup reset rc req d') = rmap (map (later k)) (snd (build_from_data g sup reset rc req d)) /\
    (forall c, snd (build_from_data g sup reset rc req d) = Ok c -> Forall (fun i => nm i = DETECTOR) c /\ Drel k (fst (build_from_data g sup reset rc req d)) (fst (build_from_data g' sup reset rc req d'))).
  Proof.
    intros R. unfold build_from_data. destruct (strict_superset rc (dkeys sup)); [cbn; split; [reflexivity|discriminate]|]. unfold sbind, sread, slift. cbv beta.
    assert (Q : requested d' req = requested d req).
    { unfold requested. rewrite (dr_active _ _ _ R), (dr_curr _ _ _ R). reflexivity. }
    rewrite Q. destruct (requested d req) as [ancs|e]; [|cbn; split; [reflexivity|discriminate]].
    assert (H := next_rel _ _ _ R). destruct (next_rounds d) as [nr|e], (next_rounds d') as [nr'|e']; try contradiction; [|cbn; split; [now subst|discriminate]].
    cbv beta. fold (data_dets reset nr d). fold (data_dets reset nr' d'). rewrite (data_dets_rel reset nr nr' d d' H R).
    destruct (data_dets reset nr d) as [dets|e] eqn:Ed; [|cbn; split; [reflexivity|discriminate]]. apply data_dets_recent in Ed.
    destruct (mapM _ (filter _ dets)) as [dets'|e] eqn:Et; [|cbn; split; [reflexivity|discriminate]].
    assert (Er : recents dets').
    { eapply mapM_recent; [|exact Et]. intros x y I E. apply bind_ok in E as (t & E & F). injection F as <-. cbn [snd]. eapply to_data_recent; [|exact E].
      apply filter_In in I as [I _]. unfold recents in Ed. rewrite Forall_forall in Ed. auto. }
    replace (zq (total d') - Q2Qc (1 # 2))%Qc with (zq (total d) - Q2Qc (1 # 2) + zq k)%Qc by (rewrite (dr_total _ _ _ R), zq_add; ring).
    rewrite (det_instrs_rel d d' ancs _ dets' (dr_coords _ _ _ R) Er).
    destruct (mapM (det_instr d g ancs _) dets') as [c|e] eqn:Ec; cbn [rmap fst snd]; [|split; [reflexivity|discriminate]].
    apply det_names in Ec. unfold sret. cbn [fst snd rmap]. rewrite (later_dets c Ec). split; [reflexivity|]. intros c' [= <-].
    split; [rewrite (appends_det c []) by exact Ec; exact Ec|].
    destruct R. constructor; cbn; auto.
  Qed.
End Rec.
Lemma siter_active (f : string -> ST detectors unit) :
  (forall a d d', active d = active d' -> snd (f a d) = snd (f a d') /\ active (fst (f a d)) = active (fst (f a d'))) ->
  forall l d d', active d = active d' -> snd (siter f l d) = snd (siter f l d').
Proof.
  intros H. induction l as [|a l IH]; intros d d' E; [reflexivity|]. cbn [siter]. unfold sbind. destruct (H a d d' E) as [A B].
  destruct (f a d) as [d1 [[]|e]], (f a d') as [d1' [[]|e']]; cbn in *; try discriminate; [now apply IH|exact A].
Qed.
Lemma deactivate_rel k l d d' : Drel k d d' -> snd (deactivate l d') = snd (deactivate l d).
Proof.
  intros R. unfold deactivate. rewrite (dr_active _ _ _ R). destruct (strict_superset l _); [reflexivity|].
  apply siter_active; [|apply (dr_active _ _ _ R)]. intros a x y E. unfold deactivate_one. rewrite E.
  destruct (dget a (active y)) as [[]|]; cbn; auto. now rewrite E.
Qed.

(** * The state after t rounds *)
Record after_rounds (A : dict string bool) (Ge : gen) (d0 : detectors) (t : Z) (d : detectors) : Prop := {
  ar_labels : labels d = labels d0; ar_frame : dfr d = dfr d0; ar_coords : dcoords d = dcoords d0;
  ar_prev : prev_gen d = Ge; ar_curr : curr_gen d = Ge; ar_active : active d = A; ar_total : total d = t;
  ar_rounds : forall a, dget a (num_rounds d) = option_map (fun b : bool => if b then t else 0) (dget a A) }.
Lemma after_near A Ge d0 t k d d' : 3 <= t -> 0 <= k -> after_rounds A Ge d0 t d -> after_rounds A Ge d0 (t + k) d' -> Drel k d d'.
Proof.
  intros Ht Hk [] []. constructor; try congruence. intros a. rewrite ar_rounds0, ar_rounds1. destruct (dget a A) as [[]|]; cbn; auto; unfold near; lia.
Qed.
Lemma after_round A Ge d0 t d g reset req d' c : after_rounds A Ge d0 t d -> build_from_anc g reset req d = (d', Ok c) -> after_rounds A Ge d0 (t + 1) d'.
Proof.
  intros R H. unfold build_from_anc in H. apply sbind_ok in H as (d1 & ancs & H1 & H). injection H1 as <- _.
  apply sbind_ok in H as (d1 & nr & H1 & H). injection H1 as <- H1.
  apply sbind_ok in H as (d1 & u & H2 & H). injection H2 as <- _.
  apply sbind_ok in H as (d1 & dets & H2 & H). injection H2 as <- _.
  apply sbind_ok in H as (d1 & c1 & H2 & H). injection H2 as <- _.
  apply sbind_ok in H as (d1 & u1 & H2 & H). injection H2 as <- _. apply sret_ok in H as [-> _].
  destruct R. constructor; cbn; auto; [lia|].
  unfold next_rounds in H1. rewrite ar_active0 in H1. intros a. rewrite (bump_get _ _ _ H1 a), ar_rounds0. destruct (dget a A) as [[]|]; reflexivity.
Qed.
