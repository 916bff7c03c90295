(** Proofs for Props_Number.v (C84): the operations with a state and the experiments. *)
From Coq Require Import QArith Qcanon.
From Verif Require Import Base StimM SetupM MatM NoiseM LayoutM DetM BlockM ExpM MergeM SpecDet SpecFresh SpecNumber Lib NumberP.
Open Scope Z_scope.

(** * Two programs with related states and results *)
Section Sim.
  Context {S : Type} (R : S -> S -> Prop).
  Definition sim {A B} (g : A -> B) (x : ST S A) (y : ST S B) : Prop := forall s s', R s s' ->
    R (fst (x s)) (fst (y s')) /\ snd (y s') = rmap g (snd (x s)).
  Lemma sim_ret {A B} (g : A -> B) a b : b = g a -> sim g (sret a) (sret b).
  Proof. intros -> s s' E. split; [exact E|reflexivity]. Qed.
  Lemma sim_fail {A B} (g : A -> B) e : sim g (sfail e) (sfail e).
  Proof. intros s s' E. split; [exact E|reflexivity]. Qed.
  Lemma sim_lift {A} (x : res A) : sim (fun a => a) (slift x) (slift x).
  Proof. intros s s' E. split; [exact E|symmetry; apply rmap_id]. Qed.
  Lemma sim_lift' {A B} (g : A -> B) (x : res A) y : y = rmap g x -> sim g (slift x) (slift y).
  Proof. intros -> s s' E. split; [exact E|reflexivity]. Qed.
  Lemma sim_read {A B} (g : A -> B) (x : S -> res A) (y : S -> res B) :
    (forall s s', R s s' -> y s' = rmap g (x s)) -> sim g (sread x) (sread y).
  Proof. intros H s s' E. split; [exact E|]. apply H, E. Qed.
  Lemma sim_bind {A B C D} (g : A -> C) (h : B -> D) (x : ST S A) (y : ST S C) k l :
    sim g x y -> (forall a, sim h (k a) (l (g a))) -> sim h (sbind x k) (sbind y l).
  Proof.
    intros Hx Hk s s' E. unfold sbind. destruct (Hx s s' E) as [E1 E2].
    destruct (x s) as [s1 [a|e]], (y s') as [s1' r']; simpl in *; subst r'; simpl; [apply Hk; exact E1|auto].
  Qed.
  Lemma sim_fold {A B C D} (g : B -> D) (k : A -> C) (x : B -> A -> ST S B) (y : D -> C -> ST S D) l :
    (forall b a, In a l -> sim g (x b a) (y (g b) (k a))) -> forall b, sim g (sfold x l b) (sfold y (map k l) (g b)).
  Proof.
    induction l as [|a l IH]; intros H b; simpl; [now apply sim_ret|].
    apply (sim_bind g); [apply H; now left|]. intros b1. apply IH. intros; apply H; now right.
  Qed.
  Lemma sim_fold' {A B D} (g : B -> D) (x : B -> A -> ST S B) (y : D -> A -> ST S D) l b b' :
    b' = g b -> (forall b a, In a l -> sim g (x b a) (y (g b) a)) -> sim g (sfold x l b) (sfold y l b').
  Proof. intros -> H. rewrite <- (map_id l) at 2. now apply (sim_fold g (fun a => a)). Qed.
End Sim.

Section Number.
  Context (f : Z -> Z).
  Notation rt := (renumber_target f).
  Notation ri := (renumber_instr f).
  Notation rc := (renumber f).
  Notation Rm := (renumbered f).
  Notation sm := (sim Rm).
  Definition Rw (w w' : world) : Prop := Rm (fst w) (fst w') /\ snd w' = snd w.
  Notation sw := (sim Rw).

  (** * The noise model *)
  Lemma sm_add q : sm (fun u => u) (add_meas q) (add_meas q).
  Proof.
    intros m m' H. pose proof H as (K & S0 & N & I & O & J). unfold add_meas.
    assert (D : dmem q (inds m') = dmem q (inds m)) by (unfold dmem; rewrite I; now destruct (dget q (inds m))).
    rewrite D, O. destruct (negb (dmem q (inds m))); [split; [exact H|reflexivity]|].
    destruct (dget q (order m)) as [l|]; [|split; [exact H|reflexivity]]. split; [|reflexivity].
    cbn [fst]. unfold renumbered. cbn [kind stp inds order num]. rewrite N. split; [exact K|split; [exact S0|split; [reflexivity|split; [exact I|split; [|exact J]]]]].
    intros r. rewrite !dget_dset, O. reflexivity.
  Qed.
  Lemma measure1_eq e g qs m : measure1 e g qs m =
    match get_inds m qs with
    | Ok is => match chans (chan1 m e "meas_error_prob") (combine qs is) [] with
               | Ok c => sfold (fun c qi => sdo _ <- add_meas (fst qi);
                                  sdo i <- sread (fun m => meas_instr m g (fst qi) (snd qi)); sret (append c i)) (combine qs is) c m
               | Err x => (m, Err x)
               end
    | Err x => (m, Err x)
    end.
  Proof.
    unfold measure1. unfold sbind at 1. unfold sread at 1. destruct (get_inds m qs) as [is|]; [|reflexivity].
    unfold sbind at 1. unfold sread at 1. destruct (chans _ _ _); reflexivity.
  Qed.
  Lemma sm_measure1 e g qs : sm rc (measure1 e g qs) (measure1 e g qs).
  Proof.
    intros m m' H. rewrite !measure1_eq.
    assert (G := get_rt f m m' H qs). rewrite G. destruct (get_inds m qs) as [is|] eqn:E; cbn [rmap]; [|split; [exact H|reflexivity]].
    pose proof (get_known m qs is E) as K.
    assert (C := chans_rt f m _ _ qs is [] (chan1_rt f m m' H e "meas_error_prob") K).
    change (rc []) with (@nil instr) in C. rewrite C.
    destruct (chans (chan1 m e "meas_error_prob") (combine qs is) []) as [c|]; [|split; [exact H|reflexivity]]. cbn [rmap].
    rewrite combine_rt.
    assert (Z : sim (fun a b => Rm a b /\ inds a = inds m) rc
       (sfold (fun c qi => sdo _ <- add_meas (fst qi); sdo i <- sread (fun m => meas_instr m g (fst qi) (snd qi)); sret (append c i)) (combine qs is) c)
       (sfold (fun c qi => sdo _ <- add_meas (fst qi); sdo i <- sread (fun m => meas_instr m g (fst qi) (snd qi)); sret (append c i))
          (map (fun qi => (fst qi, f (snd qi))) (combine qs is)) (rc c))).
    { apply sim_fold. intros b [q i] Hin. cbn [fst snd]. apply (sim_bind _ (fun u : unit => u)).
      - intros s s' [A B]. destruct (sm_add q s s' A) as [A1 A2]. split; [split; [exact A1|]|exact A2].
        unfold add_meas. destruct (negb _); [exact B|]. destruct (dget q (order s)); exact B.
      - intros _. apply (sim_bind _ ri).
        + apply sim_read. intros s s' [A B]. apply (meas_rt f s s' A). rewrite B. apply in_combine_r in Hin.
          rewrite Forall_forall in K. exact (K _ Hin).
        + intros j. apply sim_ret. now rewrite append_rc. }
    destruct (Z m m' (conj H eq_refl)) as [[A _] B]. split; assumption.
  Qed.
  Lemma sm_measure0 g qs : sm rc (measure0 g qs) (measure0 g qs).
  Proof.
    unfold measure0. apply sim_fold'; [reflexivity|]. intros b q _.
    apply (sim_bind _ (fun u : unit => u)); [apply sm_add|]. intros _. apply (sim_bind _ ri).
    - apply sim_read. intros m m' H. apply (bind_rmap (map f)); [now apply get_rt|]. intros is E. apply (mk_rt f m m' H).
      now apply get_known in E.
    - intros i. apply sim_ret. now rewrite append_rc.
  Qed.
  Lemma sm_decoh sym n g qs : sm rc (measure_decoh sym n g qs) (measure_decoh sym n g qs).
  Proof.
    unfold measure_decoh. destruct sym.
    - apply (sim_bind _ (fun d : pval => d)). { apply sim_read. intros m m' H. rewrite (half_eq f m m' H). symmetry. apply rmap_id. }
      intros d. apply (sim_bind _ rc). { apply sim_read. intros m m' H. now apply idle_dur_rt. }
      intros c1. apply (sim_bind _ rc).
      { apply sim_fold'; [reflexivity|]. intros b q _. apply (sim_bind _ (fun u : unit => u)); [apply sm_add|]. intros _. apply (sim_bind _ ri).
        - apply sim_read. intros m m' H. apply (bind_rmap (map f)); [now apply get_rt|]. intros is E.
          destruct (get_one m q is E) as (i & -> & Ki). cbn [map nth]. now apply (meas_rt f m m' H).
        - intros i. apply sim_ret. now rewrite append_rc. }
      intros c. apply (sim_bind _ rc). { apply sim_read. intros m m' H. now apply idle_dur_rt. }
      intros c2. apply sim_ret. symmetry. apply rc_app.
    - apply (sim_bind _ (fun d : pval => d)). { apply sim_read. intros m m' H. rewrite (mdur_eq f m m' H). symmetry. apply rmap_id. }
      intros _. destruct qs as [|q qs]; [now apply sim_ret|]. apply (sim_bind _ (fun u : unit => u)); [apply sm_add|]. intros _. apply sim_fail.
  Qed.
  Lemma sm_apply o qs : sm rc (apply o qs) (apply o qs).
  Proof.
    intros m m' H. unfold apply. assert (K : kind m' = kind m) by apply H. rewrite K.
    destruct (kind m), o; first [now apply sm_measure1|now apply sm_measure0|now apply sm_decoh
      |split; [exact H|first [now apply circ_rt|now apply biased_rt|now apply exper_rt|now apply decoh_rt|now apply noiseless_rt]]].
  Qed.
  Lemma sm_new {A} (a : res A) : sm (fun x => x) (fun m => (new_circuit m, a)) (fun m => (new_circuit m, a)).
  Proof.
    intros m m' (K & S0 & N & I & O & J). split; [|symmetry; apply rmap_id]. cbn [fst]. unfold renumbered, new_circuit. cbn [kind stp inds order num].
    split; [exact K|split; [exact S0|split; [reflexivity|split; [exact I|split; [|exact J]]]]]. intros q.
    assert (D : forall d : dict string Z, dget q (map (fun kv => (fst kv, @nil Z)) d) = option_map (fun _ => []) (dget q d)).
    { induction d as [|[k v] d IH]; simpl; [reflexivity|]. destruct (eqb q k); [reflexivity|exact IH]. }
    rewrite !D, I. now destruct (dget q (inds m)).
  Qed.
  Lemma sm_call c : sm rc (run_call c) (run_call c).
  Proof. destruct c; simpl; [apply sm_apply|now apply sim_ret]. Qed.
  Lemma sm_block b : sm rc (run_block b) (run_block b).
  Proof.
    induction b as [|c b IH]; simpl; [now apply sim_ret|]. apply (sim_bind _ rc); [apply sm_call|]. intros x.
    apply (sim_bind _ rc); [exact IH|]. intros y. apply sim_ret. symmetry. apply rc_app.
  Qed.
  Lemma sm_blocks l : sm rc (run_blocks l) (run_blocks l).
  Proof.
    induction l as [|b l IH]; simpl; [now apply sim_ret|]. apply (sim_bind _ (fun a => a)); [apply sim_lift|]. intros b1.
    apply (sim_bind _ rc); [apply sm_block|]. intros x.
    apply (sim_bind _ rc); [exact IH|]. intros y. apply sim_ret. symmetry. apply rc_app.
  Qed.

  (** * Merging *)
  Lemma names_rc c : names (rc c) = names c.
  Proof. unfold names, renumber. now rewrite map_map. Qed.
  Definition rd (d : dict (list gname) (list circuit)) := map (fun kv => (fst kv, map rc (snd kv))) d.
  Lemma dget_rd k d : dget k (rd d) = option_map (map rc) (dget k d).
  Proof. induction d as [|[k' v] d IH]; simpl; [reflexivity|]. destruct (eqb k k'); [reflexivity|exact IH]. Qed.
  Lemma dset_rd k v d : dset k (map rc v) (rd d) = rd (dset k v d).
  Proof. induction d as [|[k' v'] d IH]; simpl; [reflexivity|]. destruct (eqb k k'); simpl; [reflexivity|now rewrite IH]. Qed.
  Lemma group_rc bs : group_blocks (map rc bs) = rd (group_blocks bs).
  Proof.
    unfold group_blocks. change (@nil (list gname * list circuit)) with (rd []) at 1. generalize (@nil (list gname * list circuit)) as d.
    induction bs as [|b bs IH]; intros d; [reflexivity|]. cbn [map fold_left]. rewrite <- IH. f_equal.
    rewrite names_rc, dget_rd. destruct (dget (names b) d) as [l|]; cbn [option_map].
    - rewrite <- dset_rd. now rewrite map_app.
    - change [rc b] with (map rc [b]). apply dset_rd.
  Qed.
  Lemma slice_rc t b : slice1 t (rc b) = rc (slice1 t b).
  Proof. unfold slice1, renumber. rewrite skipn_map. apply firstn_map. Qed.
  Lemma merge_rc fuse bs : merge_tick_blocks fuse (map rc bs) = rmap rc (merge_tick_blocks fuse bs).
  Proof.
    unfold merge_tick_blocks.
    assert (L : map (@length instr) (map rc bs) = map (@length instr) bs).
    { rewrite map_map. apply map_ext. intros b. apply map_length. }
    rewrite L. destruct (dedup _) as [|n [|]]; try reflexivity. cbn [rmap]. f_equal. rewrite group_rc.
    assert (V : concat (dvals (rd (group_blocks bs))) = map rc (concat (dvals (group_blocks bs)))).
    { unfold dvals, rd. rewrite map_map. cbn [snd]. rewrite concat_map, map_map. reflexivity. }
    rewrite V. generalize (concat (dvals (group_blocks bs))) as gs. intros gs.
    assert (G : forall l a, fold_left (fun acc t => fold_left (fun acc b => cat fuse acc (slice1 t b)) (map rc gs) acc) l (rc a)
                      = rc (fold_left (fun acc t => fold_left (fun acc b => cat fuse acc (slice1 t b)) gs acc) l a)).
    { induction l as [|t l IH]; intros a; [reflexivity|]. cbn [fold_left]. rewrite <- IH. f_equal. clear.
      revert a. induction gs as [|b gs IH]; intros a; [reflexivity|]. cbn [map fold_left]. rewrite <- IH. f_equal.
      now rewrite slice_rc, cat_rc. }
    exact (G (seq 0 n) []).
  Qed.
  Definition rz (x : option (list circuit * list blocks)) : option (list circuit * list blocks) :=
    match x with Some (cs, rs) => Some (map rc cs, rs) | None => None end.
  Lemma sm_zip_next fuse its : sm rz (zip_next fuse its) (zip_next fuse its).
  Proof.
    induction its as [|[|b r] rest IH]; simpl; [now apply sim_ret..|].
    apply (sim_bind _ (fun a => a)); [apply sim_lift|]. intros b1. apply (sim_bind _ rc); [apply sm_block|]. intros c.
    apply (sim_bind _ rz); [exact IH|]. intros x. apply sim_ret. destruct x as [[cs rs]|]; [|reflexivity]. cbn [rz map].
    change (@nil instr) with (rc []) at 1. now rewrite cat_rc.
  Qed.
  Lemma add_rc fuse acc c : add_step fuse (rc acc) (rc c) = rc (add_step fuse acc c).
  Proof.
    destruct c as [|i c]; [apply (cat_rc f fuse acc [])|]. cbn [add_step renumber map]. cbn [nm renumber_instr].
    destruct (eqb (nm i) TICK); [apply append_rc|apply (cat_rc f fuse acc (i :: c))].
  Qed.
  Lemma sm_zip fuse n : forall its acc, sm rc (zip_loop fuse n its acc) (zip_loop fuse n its (rc acc)).
  Proof.
    induction n as [|n IH]; intros its acc; simpl; [now apply sim_ret|]. apply (sim_bind _ rz); [apply sm_zip_next|].
    intros [[cs rs]|]; cbn [rz]; [|now apply sim_ret]. apply (sim_bind _ rc); [apply sim_lift', merge_rc|].
    intros c. rewrite add_rc. apply IH.
  Qed.
  Lemma sm_merged fuse its : sm rc (merged_blocks fuse its) (merged_blocks fuse its).
  Proof. unfold merged_blocks. destruct its; [now apply sim_ret|apply sm_zip with (acc := [])]. Qed.
  Lemma ticks_rc c : ticks (rc c) = ticks c.
  Proof. unfold ticks, renumber. induction c as [|i c IH]; simpl; [reflexivity|]. destruct (eqb (nm i) TICK); simpl; congruence. Qed.
  Lemma numbered_rc c : forall k, numbered k (rc c) = map (fun ki => (fst ki, ri (snd ki))) (numbered k c).
  Proof. induction c as [|i c IH]; intros k; simpl; [reflexivity|]. destruct (eqb (nm i) TICK); simpl; now rewrite IH. Qed.
  Lemma filter_map {A B} (g : A -> B) (p : B -> bool) l : filter p (map g l) = map g (filter (fun a => p (g a)) l).
  Proof. induction l as [|a l IH]; simpl; [reflexivity|]. destruct (p (g a)); simpl; now rewrite IH. Qed.
  Lemma meas_blocks_rc c : meas_blocks (rc c) = meas_blocks c.
  Proof. unfold meas_blocks. now rewrite numbered_rc, filter_map, map_map. Qed.
  Lemma block_rc cs k : block_number (map rc cs) k = map ri (block_number cs k).
  Proof.
    unfold block_number.
    assert (G : flat_map (numbered 0) (map rc cs) = map (fun ki => (fst ki, ri (snd ki))) (flat_map (numbered 0) cs)).
    { induction cs as [|c cs IH]; simpl; [reflexivity|]. now rewrite IH, numbered_rc, map_app. }
    now rewrite G, filter_map, !map_map.
  Qed.
  Lemma insert_rc i l : insert_instr (ri i) (map ri l) = map ri (insert_instr i l).
  Proof. induction l as [|j l IH]; simpl; [reflexivity|]. unfold name_leb at 1. cbn [nm renumber_instr].
    fold (name_leb i j). destruct (name_leb i j); simpl; [reflexivity|now rewrite IH]. Qed.
  Lemma sort_rc l : sort_instrs (map ri l) = map ri (sort_instrs l).
  Proof. induction l as [|i l IH]; simpl; [reflexivity|]. now rewrite IH, insert_rc. Qed.
  Lemma parse_rc show b : parse_block show (map ri b) = rc (parse_block show b).
  Proof.
    unfold parse_block. rewrite <- (appends_rc f (map (reparse show) b) []). f_equal. now rewrite !map_map.
  Qed.
  Lemma join_rc bs : join_ticks (map rc bs) = rc (join_ticks bs).
  Proof.
    induction bs as [|b [|b' bs] IH]; [reflexivity..|].
    change (rc b ++ tick ++ join_ticks (map rc (b' :: bs)) = rc (b ++ tick ++ join_ticks (b' :: bs))). rewrite IH, !rc_app. reflexivity.
  Qed.
  Lemma existsb_rc cs : existsb (fun c => existsb (fun i => eqb (nm i) SHIFT_COORDS) c) (map rc cs)
    = existsb (fun c => existsb (fun i => eqb (nm i) SHIFT_COORDS) c) cs.
  Proof.
    induction cs as [|c cs IH]; [reflexivity|]. cbn [map existsb]. rewrite IH. f_equal.
    induction c as [|i c IHc]; [reflexivity|]. cbn [renumber map existsb]. f_equal. exact IHc.
  Qed.
  Lemma circuits_rc show chk cs : merge_circuits show chk (map rc cs) = rmap rc (merge_circuits show chk cs).
  Proof.
    unfold merge_circuits. rewrite existsb_rc.
    destruct (existsb (fun c => existsb (fun i => eqb (nm i) SHIFT_COORDS) c) cs); [reflexivity|].
    assert (T : map ticks (map rc cs) = map ticks cs) by (rewrite map_map; apply map_ext; apply ticks_rc).
    assert (M : map meas_blocks (map rc cs) = map meas_blocks cs) by (rewrite map_map; apply map_ext; apply meas_blocks_rc).
    rewrite T, M. destruct (dedup (map ticks cs)) as [|n [|]]; try reflexivity. cbv zeta.
    destruct (chk && _)%bool; [reflexivity|]. destruct (chk && _)%bool; [reflexivity|]. cbn [rmap]. f_equal.
    rewrite <- join_rc, map_map. f_equal. apply map_ext. intros k. now rewrite block_rc, sort_rc, parse_rc.
  Qed.

  (** * The detectors *)
  Lemma mapM_ext' {A B} (g h : A -> res B) l : (forall a, g a = h a) -> mapM g l = mapM h l.
  Proof. intros H. induction l as [|a l IH]; simpl; [reflexivity|]. now rewrite H, IH. Qed.
  Lemma mapM_fix {A B} (k : B -> B) (g : A -> res B) l r : (forall a b, g a = Ok b -> k b = b) -> mapM g l = Ok r -> map k r = r.
  Proof.
    intros H E. apply mapM_Forall2 in E. induction E as [|a b l r E _ IH]; simpl; [reflexivity|]. now rewrite (H _ _ E), IH.
  Qed.
  Definition recs_only (g : string -> Z -> res target) : Prop := forall q k t, g q k = Ok t -> rt t = t.
  Lemma det_instr_ext d g g' ancs t x : (forall q k, g' q k = g q k) -> det_instr d g' ancs t x = det_instr d g ancs t x.
  Proof.
    intros H. unfold det_instr. destruct (mem (fst x) ancs); [|reflexivity].
    rewrite (mapM_ext' (fun t => g' (fst t) (snd t)) (fun t => g (fst t) (snd t))) by (intros; apply H). reflexivity.
  Qed.
  Lemma mk_tg g t a i : mk g t a = Ok i -> i = Instr g t a.
  Proof. unfold mk. destruct (instr_ok _); [now intros [= <-]|discriminate]. Qed.
  Lemma det_instr_fix d g ancs t x i : recs_only g -> det_instr d g ancs t x = Ok i -> ri i = i.
  Proof.
    intros H E. unfold det_instr in E. apply bind_ok in E. destruct E as (recs & E1 & E). apply bind_ok in E. destruct E as (cs & _ & E).
    apply mk_tg in E. subst i. unfold renumber_instr. cbn [nm tg ar]. f_equal. destruct (mem (fst x) ancs).
    - apply (mapM_fix rt (fun t => g (fst t) (snd t)) (remove_pairs (snd x))); [|exact E1]. intros [q k] b Eb. apply (H _ _ _ Eb).
    - now injection E1 as <-.
  Qed.
  (* the same circuit, and one without qubits *)
  Definition both (x y : ST detectors circuit) : Prop := forall d, y d = x d /\ (forall c, snd (x d) = Ok c -> rc c = c).
  Lemma both_bind {A} (x y : ST detectors A) k l : (forall d, y d = x d) -> (forall a, both (k a) (l a)) -> both (sbind x k) (sbind y l).
  Proof.
    intros H H1 d. unfold sbind. rewrite H. destruct (x d) as [d1 [a|e]]; [apply H1|]. split; [reflexivity|]. intros c [=].
  Qed.
  Lemma both_instrs g g' ancs (t : detectors -> Qc) dets (k : ST detectors unit) :
    (forall q r, g' q r = g q r) -> recs_only g ->
    both (sdo c <- sread (fun d => mapM (det_instr d g ancs (t d)) dets); sdo _ <- k; sret (appends [] c))
         (sdo c <- sread (fun d => mapM (det_instr d g' ancs (t d)) dets); sdo _ <- k; sret (appends [] c)).
  Proof.
    intros H H1 d. unfold sbind, sread.
    rewrite (mapM_ext' (det_instr d g' ancs (t d)) (det_instr d g ancs (t d))) by (intros; now apply det_instr_ext).
    split; [reflexivity|]. destruct (mapM _ _) as [l|] eqn:E; [|intros c [=]]. destruct (k d) as [d1 [u|]]; [|intros c [=]].
    intros c [= <-]. rewrite <- (appends_rc f l []). change (rc []) with (@nil instr). f_equal.
    apply (mapM_fix ri _ _ _ (fun a b => det_instr_fix d g ancs (t d) a b H1) E).
  Qed.
  Lemma both_anc g g' reset req : (forall q r, g' q r = g q r) -> recs_only g -> both (build_from_anc g reset req) (build_from_anc g' reset req).
  Proof.
    intros H H1. unfold build_from_anc. do 4 (apply both_bind; [reflexivity|intros ?]). apply (both_instrs g g' _ (fun d => zq (total d - 1))); assumption.
  Qed.
  Lemma both_data g g' sup reset recon req : (forall q r, g' q r = g q r) -> recs_only g ->
    both (build_from_data g sup reset recon req) (build_from_data g' sup reset recon req).
  Proof.
    intros H H1. unfold build_from_data. destruct (strict_superset _ _); [intros d; split; [reflexivity|intros c [=]]|].
    do 4 (apply both_bind; [reflexivity|intros ?]). apply (both_instrs g g' _ (fun d => zq (total d) - Q2Qc (1#2))%Qc); assumption.
  Qed.

  (** * Both objects *)
  Lemma sw_onm {A} (g : A -> A) (x y : ST model A) : sm g x y -> sw g (onm x) (onm y).
  Proof.
    intros H [m d] [m' d'] [E E']. cbn [fst snd] in *. subst d'. unfold onm. cbn [fst snd]. destruct (H m m' E) as [A1 A2].
    destruct (x m), (y m'); cbn [fst snd] in *. split; [split; [exact A1|reflexivity]|exact A2].
  Qed.
  Lemma sw_ond {A} (x : ST detectors A) : sw (fun a => a) (ond (fun _ => x)) (ond (fun _ => x)).
  Proof.
    intros [m d] [m' d'] [E E']. cbn [fst snd] in *. subst d'. unfold ond. cbn [fst snd]. destruct (x d) as [d1 r].
    split; [split; [exact E|reflexivity]|]. cbn [snd]. symmetry. apply rmap_id.
  Qed.
  Lemma sw_dets (x : model -> ST detectors circuit) : (forall m m', Rm m m' -> both (x m) (x m')) -> sw rc (ond x) (ond x).
  Proof.
    intros H [m d] [m' d'] [E E']. cbn [fst snd] in *. subst d'. unfold ond. cbn [fst snd]. destruct (H m m' E d) as [A1 A2]. rewrite A1.
    destruct (x m d) as [d1 [c|e]]; (split; [split; [exact E|reflexivity]|]); cbn [snd rmap] in *; [|reflexivity].
    now rewrite A2.
  Qed.
  Lemma sw_anc reset req : sw rc (ond (fun m => build_from_anc (meas_target m) reset req)) (ond (fun m => build_from_anc (meas_target m) reset req)).
  Proof. apply sw_dets. intros m m' E. apply both_anc; [exact (target_eq f m m' E)|exact (target_tr f m)]. Qed.
  Lemma sw_data sup reset recon req : sw rc (ond (fun m => build_from_data (meas_target m) sup reset recon req))
    (ond (fun m => build_from_data (meas_target m) sup reset recon req)).
  Proof. apply sw_dets. intros m m' E. apply both_data; [exact (target_eq f m m' E)|exact (target_tr f m)]. Qed.
End Number.
