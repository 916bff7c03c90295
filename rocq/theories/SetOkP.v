(** Proofs about C77, part 1: setting the transversal gates raises no exception. What
    the functions have in common. *)
From Coq Require Import QArith Qcanon.
From Verif Require Import Base Lib StimM NoiseM DetM LayoutM SpecLayout LayoutP LayoutP2 GenM GenP SpecGen GeomP BlockM SpecTrack TrackP
  RoundP UnrotP LiftP SpecLog LogM LogP LogP2 LogP3 LogP4 LogP5 LogP6.
Open Scope Z_scope.

Lemma foldM_all {A B} (f : A -> B -> res A) (I : A -> Prop) qs : forall d, I d ->
  (forall d q, In q qs -> I d -> exists d', f d q = Ok d' /\ I d') -> exists d', foldM f qs d = Ok d' /\ I d'.
Proof.
  induction qs as [|q qs IH]; intros d Hd H; cbn [foldM]; [eauto|].
  destruct (H d q (or_introl eq_refl) Hd) as (d1 & E & H1). rewrite E. cbn [bind].
  apply IH; [exact H1|]. intros d' q' Hq'. apply H. now right.
Qed.
Lemma set_params_all gate value qs l : (forall q, In q qs -> In q (dkeys (l_nodes l)) /\ exists v, value q = Ok v) ->
  exists l', set_params gate value qs l = Ok l'.
Proof.
  intros H. unfold set_params.
  destruct (foldM_all (fun l q => do v <- value q; lset_param l gate q v) (fun l' => dkeys (l_nodes l') = dkeys (l_nodes l)) qs l eq_refl) as (l' & E & _); [|eauto].
  intros l1 q Hq K. destruct (H q Hq) as [Hk [v Ev]]. rewrite Ev. cbn [bind]. rewrite <- K in Hk. destruct (key_dget _ _ Hk) as [x Ex].
  destruct (lset_param l1 gate q v) as [l2|] eqn:E2.
  - exists l2. split; [reflexivity|]. rewrite (touched_keys [] _ _ (lset_touched [] _ _ _ _ _ E2 (fun F => F))). exact K.
  - exfalso. unfold lset_param, dget_err in E2. rewrite Ex in E2. discriminate.
Qed.

(** Sorting labels gives one list for one set. *)
Lemma ascii_compare_refl x : Ascii.compare x x = Eq.
Proof. unfold Ascii.compare. apply N.compare_refl. Qed.
Lemma leb_trans x : forall y z, String.leb x y = true -> String.leb y z = true -> String.leb x z = true.
Proof.
  unfold String.leb. induction x as [|a x IH]; intros y z H1 H2; cbn [String.compare] in *; [now destruct z|].
  destruct y as [|b y]; [discriminate|]. destruct z as [|c z]; [discriminate|]. cbn [String.compare] in *. unfold Ascii.compare in *.
  specialize (IH y z).
  destruct (N.compare_spec (Ascii.N_of_ascii a) (Ascii.N_of_ascii b)) as [E1|E1|E1];
  destruct (N.compare_spec (Ascii.N_of_ascii b) (Ascii.N_of_ascii c)) as [E2|E2|E2];
  destruct (N.compare_spec (Ascii.N_of_ascii a) (Ascii.N_of_ascii c)) as [E3|E3|E3]; try discriminate; try reflexivity; try lia; auto.
Qed.
Lemma insert_swap x y l : insert_str x (insert_str y l) = insert_str y (insert_str x l).
Proof.
  assert (G : forall x y l, String.leb x y = true -> insert_str x (insert_str y l) = insert_str y (insert_str x l)).
  { clear. intros x y l Hxy. destruct (string_dec x y) as [->|N]; [reflexivity|].
    assert (Hyx : String.leb y x = false).
    { destruct (String.leb y x) eqn:E; [|reflexivity]. exfalso. apply N. now apply String.leb_antisym. }
    induction l as [|z l IH].
    - cbn [insert_str]. now rewrite Hxy, Hyx.
    - cbn [insert_str]. destruct (String.leb y z) eqn:Ey.
      + rewrite (leb_trans _ _ _ Hxy Ey). cbn [insert_str]. rewrite Hxy, Hyx. cbn [insert_str]. now rewrite Ey.
      + destruct (String.leb x z) eqn:Ex; cbn [insert_str]; rewrite ?Ex, ?Hyx; cbn [insert_str]; rewrite ?Ey; [reflexivity|]. now rewrite IH. }
  destruct (String.leb_total x y) as [H|H]; [now apply G|]. symmetry. now apply G.
Qed.
Lemma sort_same l l' : Permutation l l' -> sort_str l = sort_str l'.
Proof.
  unfold sort_str. induction 1 as [|x a b _ IH|x y a|a b c _ IH1 _ IH2]; cbn [fold_right]; [reflexivity|congruence|apply insert_swap|congruence].
Qed.
Lemma sort_set l l' : NoDup l -> NoDup l' -> (forall q : string, In q l <-> In q l') -> sort_str l = sort_str l'.
Proof. intros N N' H. apply sort_same. now apply NoDup_Permutation. Qed.
Lemma toggle_nodup {A} `{Eqb A} (x : A) s : NoDup s -> NoDup (toggle x s).
Proof.
  intros N. unfold toggle. destruct (mem x s) eqn:M; [now apply NoDup_filter|]. constructor; [|exact N].
  intros I. apply mem_In in I. congruence.
Qed.
Lemma somes_In (z : list (option string)) q : In q (flat_map (fun o => match o with Some q => [q] | None => [] end) z) <-> In (Some q) z.
Proof.
  rewrite in_flat_map. split.
  - intros ([x|] & Hx & I); [destruct I as [->|[]]; exact Hx|destruct I].
  - intros H. exists (Some q). split; [exact H|now left].
Qed.
Lemma somes_nodup (z : list (option string)) : NoDup z -> NoDup (flat_map (fun o => match o with Some q => [q] | None => [] end) z).
Proof.
  induction z as [|[x|] z IH]; intros N; inversion N as [|? ? Hn N']; subst; cbn [flat_map app]; [constructor| |now apply IH].
  constructor; [|now apply IH]. rewrite somes_In. exact Hn.
Qed.
(* every support of the table is found *)
Lemma ztab_find l zs a : In a zs -> exists b, dget (sorted_support l a) (zstab_table l zs) = Some b.
Proof.
  unfold zstab_table. intros H.
  assert (G : forall qs d, (In a qs \/ exists b, dget (sorted_support l a) d = Some b) ->
    exists b, dget (sorted_support l a) (fold_left (fun d a => dset (sorted_support l a) a d) qs d) = Some b).
  { induction qs as [|q qs IH]; intros d [K|K]; cbn [fold_left]; [destruct K|exact K| |]; apply IH.
    - destruct K as [->|K]; [right; exists a; apply dget_dset_same|now left].
    - right. destruct K as [b Eb]. rewrite dget_dset. destruct (eqb _ _); eauto. }
  apply G. now left.
Qed.

(** * The attributes of S *)
Section End.
  Context (cz : dict (option string) (option string)) (s : dict (option string) string) (both : bool) (fixed : option string).
  Context (l : layout) (data xs zs ancs : list string) (gate : string).
  Hypothesis Hinv : forall q b, In q data -> dget (Some q) cz = Some (Some b) ->
    In b data /\ dget (Some b) cz = Some (Some q) /\ b <> q.
  Hypothesis Hs : forall q g, In q data -> dget (Some q) s = Some g -> g = "I" \/ is_s g = true.
  Hypothesis Hboth : both = false -> forall q g, In q data -> dget (Some q) s = Some g -> g <> "I" -> dget (Some q) cz = Some None.
  Hypothesis Hd : get_role l "data" = Ok data.
  Hypothesis Hx : get_stabs l "x_type" = Ok xs.
  Hypothesis Hz : get_stabs l "z_type" = Ok zs.
  Hypothesis Ha : get_role l "anc" = Ok ancs.
  Hypothesis Hanc : forall q, In q ancs -> In q xs \/ In q zs.
  Hypothesis Hkeys : incl (data ++ ancs) (dkeys (l_nodes l)).
  Hypothesis Hsup : forall a, In a xs \/ In a zs -> NoDup (support l a) /\ incl (support l a) data.
  Hypothesis Hgate : ~ In gate structure.
  (* every qubit has an entry *)
  Hypothesis Hcz : forall q, In q data -> exists b, dget (Some q) cz = Some b.
  Hypothesis Hsg : forall q, In q data -> exists g, dget (Some q) s = Some g.
  (* Z-type ancillas are told apart by their supports *)
  Hypothesis Hz1 : forall a b, In a zs -> In b zs -> (forall q, In q (support l a) <-> In q (support l b)) -> a = b.
  (* the Z-type ancilla of an X-type one *)
  Context (f : string -> string).
  Hypothesis Hf : forall a, In a xs -> Some a <> fixed -> In (f a) zs /\
    (forall q, In q data -> mem q (support l (f a)) = on cz s data (support l a) q) /\
    xorl (map (contrib cz s both data None) (support l a)) = false.
  Hypothesis Hall : forall b, In b zs -> exists a, In a xs /\ Some a <> fixed /\ f a = b.

  Lemma z_fold_all N : incl N data -> forall acc, NoDup acc -> exists z, foldM (z_stab_step cz s both) N acc = Ok z /\ NoDup z.
  Proof.
    intros I acc Na. apply (foldM_all (z_stab_step cz s both) (@NoDup _) N acc Na). intros d q Hq Nd. unfold z_stab_step, dget_err.
    destruct (Hsg q (I q Hq)) as [g ->]. destruct (Hcz q (I q Hq)) as [b ->]. cbn [of_opt bind].
    destruct (eqb g "I"); [|destruct both]; eexists; (split; [reflexivity|]); repeat apply toggle_nodup; exact Nd.
  Qed.
  Lemma s_end_all : exists l2, trans_s_end cz s both fixed l gate = Ok l2.
  Proof.
    unfold trans_s_end. rewrite Hd, Ha, Hx, Hz. cbn [bind].
    destruct (set_params_all gate (s_attr cz s) data l) as [l1 E1].
    { intros q Hq. split; [apply Hkeys, in_or_app; now left|]. unfold s_attr, dget_err. destruct (Hcz q Hq) as [b ->], (Hsg q Hq) as [g ->]. cbn [of_opt bind]. eauto. }
    rewrite E1. cbn [bind]. destruct (set_params_ok structure _ _ _ Hgate _ _ E1) as (T1 & _ & _).
    assert (Ss : forall a, sorted_support l1 a = sort_str (support l a)).
    { intros a. unfold sorted_support, support. now rewrite (touched_nbrs _ _ _ T1). }
    assert (Step : forall d ax, In ax xs -> exists d', s_new_stab cz s both fixed l1 (zstab_table l1 zs) d ax = Ok d' /\
      dmem ax d' = true /\ (Some ax <> fixed -> dmem (f ax) d' = true) /\ forall x, dmem x d = true -> dmem x d' = true).
    { intros d ax Ix. unfold s_new_stab.
      assert (Dm : forall (k x : string) (v : list string) d, dmem x d = true -> dmem x (dset k v d) = true).
      { intros k x v d0 M. unfold dmem in *. rewrite dget_dset. destruct (eqb k x); [reflexivity|exact M]. }
      assert (Ds : forall (x : string) (v : list string) d, dmem x (dset x v d) = true).
      { intros x v d0. unfold dmem. now rewrite dget_dset_same. }
      destruct (eqb_spec (Some ax) fixed) as [Ef|Nf].
      { exists (dset ax [ax] d). split; [reflexivity|]. split; [apply Ds|]. split; [contradiction|]. intros x. apply Dm. }
      destruct (Hf ax Ix Nf) as (Iz & Sz & Nn). destruct (Hsup ax (or_introl Ix)) as [Nd Inc].
      assert (I' : incl (sort_str (support l ax)) data) by (intros x Hxx; apply Inc, sort_In, Hxx).
      rewrite Ss. destruct (z_fold_all _ I' [] (NoDup_nil _)) as (z & Ez & Nz). rewrite Ez. cbn [bind].
      pose proof (z_fold cz s both data Hs Hboth _ I' _ _ Ez) as M. cbn [mem existsb] in M.
      assert (Mp : forall o, mem o z = xorl (map (contrib cz s both data o) (support l ax))).
      { intros o. rewrite M, xorb_false_l. apply xorl_perm, Permutation_map, sort_perm. }
      unfold sorted_labels. rewrite Mp, Nn. cbn [bind].
      assert (Ek : sort_str (flat_map (fun o => match o with Some q => [q] | None => [] end) z) = sorted_support l1 (f ax)).
      { rewrite Ss. destruct (Hsup (f ax) (or_intror Iz)) as [Nd' Inc']. apply sort_set; [now apply somes_nodup|exact Nd'|].
        intros q. rewrite somes_In.
        assert (Mq : In q data -> mem (Some q) z = mem q (support l (f ax))).
        { intros Hq. rewrite Mp, (Sz q Hq). now apply (contrib_sum cz s both data). }
        split; intros H.
        - assert (Hq : In q data).
          { apply mem_In in H. rewrite Mp in H. destruct (in_dec string_dec q data) as [I|I]; [exact I|]. exfalso.
            rewrite xorl_false in H; [discriminate|]. intros v Hv. apply in_map_iff in Hv as (y & <- & Hy). unfold contrib.
            destruct (eqb_spec (Some q) (Some y)) as [[= ->]|]; [destruct (I (Inc y Hy))|]. cbn [andb]. rewrite xorb_false_r.
            destruct (eqb_spec (Some q) (czf cz data y)) as [Ey|]; [|reflexivity]. symmetry in Ey. apply (czf_in cz data Hinv) in Ey as (_ & K & _). contradiction. }
          apply mem_In. rewrite <- (Mq Hq). now apply mem_In.
        - apply mem_In. rewrite (Mq (Inc' q H)). now apply mem_In. }
      rewrite Ek. destruct (ztab_find l1 zs (f ax) Iz) as [b Eb]. unfold dget_err. rewrite Eb. cbn [of_opt bind].
      apply ztab_get in Eb as [Ib Eb]. rewrite !Ss in Eb.
      assert (Efb : f ax = b).
      { apply Hz1; [exact Iz|exact Ib|]. intros q. rewrite <- (sort_In q (support l (f ax))), Eb. apply sort_In. }
      subst b. exists (dset (f ax) [f ax] (dset ax [ax; f ax] d)). split; [reflexivity|]. split; [apply Dm, Ds|]. split; [intros _; apply Ds|].
      intros x Hxx. now apply Dm, Dm. }
    assert (New : exists new, foldM (s_new_stab cz s both fixed l1 (zstab_table l1 zs)) xs [] = Ok new /\
      forall a, In a xs -> dmem a new = true /\ (Some a <> fixed -> dmem (f a) new = true)).
    { assert (G : forall qs d, incl qs xs -> exists new, foldM (s_new_stab cz s both fixed l1 (zstab_table l1 zs)) qs d = Ok new /\
        (forall x, dmem x d = true -> dmem x new = true) /\ forall a, In a qs -> dmem a new = true /\ (Some a <> fixed -> dmem (f a) new = true)).
      { induction qs as [|q qs IH]; intros d I; cbn [foldM]; [exists d; split; [reflexivity|]; split; [auto|intros a []]|].
        destruct (Step d q (I q (or_introl eq_refl))) as (d1 & -> & M1 & M2 & M3). cbn [bind].
        destruct (IH d1 (fun x Hx => I x (or_intror Hx))) as (new & En & K & A). exists new. split; [exact En|]. split; [auto|].
        intros a [<-|Hq]; [|now apply A]. split; auto. }
      destruct (G xs [] (incl_refl _)) as (new & En & _ & A). eauto. }
    destruct New as (new & -> & A). cbn [bind]. apply set_params_all. intros q Hq.
    split; [rewrite (touched_keys _ _ _ T1); apply Hkeys, in_or_app; now right|].
    assert (M : dmem q new = true).
    { destruct (Hanc q Hq) as [I|I]; [now apply A|]. destruct (Hall q I) as (x & Ix & Nx & <-). now apply A. }
    unfold dmem in M. unfold dget_err. destruct (dget q new); [|discriminate]. cbn [of_opt bind]. eauto.
  Qed.
End End.

(** * Checks and folding line in a layout on a grid *)
Section Grid.
  Context (l : layout) (shifts : list (Z * Z)) (dirn : Z * Z -> string) (pt : Qc * Qc) (ps : list placed).
  Hypothesis P : planar l shifts dirn pt ps.
  Lemma node_place q : In q (dkeys (l_nodes l)) <-> exists p, In p ps /\ pl_lab p = q.
  Proof.
    change (dkeys (l_nodes l)) with (map fst (l_nodes l)). rewrite (pn_nodes _ _ _ _ _ P), in_map_iff. split; intros (p & A & B); exists p; auto.
  Qed.
  Lemma coords_value p : In p ps -> dget (pl_lab p) (qubit_coords_attr l) = Some (PList [PNum (fst (crd pt (pos p))); PNum (snd (crd pt (pos p)))]).
  Proof.
    intros Hp. pose proof (get_coords_ok _ _ _ _ _ P p Hp) as E. unfold get_coords in E. destruct (strict_superset _ _); [discriminate|].
    cbn [mapM] in E. apply bind_ok in E as [v [Ev E]]. injection E as ->. unfold dget_err in Ev. destruct (dget _ _); [|discriminate]. now injection Ev as ->.
  Qed.
  Lemma all_coords : exists cs, get_coords l (dkeys (l_nodes l)) = Ok cs /\ forall c, In c cs -> exists x y, c = PList [PNum x; PNum y].
  Proof.
    unfold get_coords.
    assert (S : strict_superset (dkeys (l_nodes l)) (dkeys (qubit_coords_attr l)) = false).
    { unfold strict_superset. apply andb_false_iff. right. apply negb_false_iff. apply forallb_forall. intros q Hq. apply mem_In.
      apply node_place in Hq as (p & Hp & <-). eapply dget_Some_key. now apply coords_value. }
    rewrite S. assert (I : incl (dkeys (l_nodes l)) (dkeys (l_nodes l))) by apply incl_refl. revert I. generalize (dkeys (l_nodes l)) at 1 3. 
    induction l0 as [|q qs IH]; intros I; [exists []; split; [reflexivity|intros c []]|]. cbn [mapM].
    destruct (proj1 (node_place q) (I q (or_introl eq_refl))) as (p & Hp & <-). unfold dget_err at 1. rewrite (coords_value p Hp). cbn [of_opt bind].
    destruct IH as (cs & E & H); [intros x Hx; apply I; now right|]. rewrite E. cbn [bind]. eexists. split; [reflexivity|].
    intros c [<-|Hc]; [eauto|now apply H].
  Qed.
  Lemma fold_checks_all dq g code : l_code l = code -> l_logs l = [g] -> In dq (labs ps KD) -> fold_checks l code true dq = Ok tt.
  Proof.
    intros Hc Hl Hq. unfold fold_checks. rewrite Hc, eqb_refl. cbn [negb]. rewrite (pn_data _ _ _ _ _ P). cbn [bind].
    fold (labs ps KD). rewrite (proj2 (mem_In dq _) Hq). cbn [negb].
    destruct all_coords as (cs & -> & H). cbn [bind].
    assert (M : exists lens, mapM (fun c => match c with PList x => Ok (length x) | _ => Err Unmodelled end) cs = Ok lens /\ forallb (Nat.eqb 2) lens = true).
    { induction cs as [|c cs IH]; [exists []; auto|]. destruct (H c (or_introl eq_refl)) as (x & y & ->). cbn [mapM bind].
      destruct IH as (lens & -> & F); [intros c Hcc; apply H; now right|]. cbn [bind]. eexists. split; [reflexivity|]. cbn [forallb length]. now rewrite F. }
    destruct M as (lens & -> & F). cbn [bind]. rewrite F. cbn [negb]. now rewrite Hl.
  Qed.
  Lemma first_nbr_all p row stabs d q : In p ps -> lparam l "neighbors" (pl_lab p) = Ok (PDict row) -> In q stabs ->
    next dirn shifts ps (pl_lab p) d q -> exists x, first_nbr row stabs = Ok x.
  Proof.
    intros Hp L Hq N. destruct (pn_nbrs _ _ _ _ _ P p Hp) as (row' & L' & K). rewrite L in L'. injection L' as <-.
    apply K in N. unfold first_nbr.
    assert (I : In (d, q) (flat_map (fun dq => match snd dq with PStr q => if mem q stabs then [(fst dq, q)] else [] | _ => [] end) row)).
    { apply in_flat_map. exists (d, PStr q). split; [exact N|]. cbn [fst snd]. rewrite (proj2 (mem_In q stabs) Hq). now left. }
    destruct (flat_map _ row); [destruct I|]. cbn [hd_error of_opt]. eauto.
  Qed.
  (* the first X-type and the first Z-type neighbours exist, and the corner between them *)
  Lemma fold_line_all d : In d ps ->
    (forall k, k = KX \/ k = KZ -> exists p s, In p ps /\ In s shifts /\ knd p = k /\ pos p = padd (pos d) s) ->
    (forall pa pz s1 s2, In pa ps -> In pz ps -> In s1 shifts -> In s2 shifts -> knd pa = KX -> knd pz = KZ ->
      pos pa = padd (pos d) s1 -> pos pz = padd (pos d) s2 -> exists ph, In ph ps /\ pos ph = padd (pos pa) s2) ->
    exists r, fold_line l (pl_lab d) = Ok r.
  Proof.
    intros Hd H1 H2. unfold fold_line. rewrite (pn_x _ _ _ _ _ P), (pn_z _ _ _ _ _ P). cbn [bind].
    destruct (pn_nbrs _ _ _ _ _ P d Hd) as (row & L & K). rewrite L. cbn [bind]. fold (labs ps KX) (labs ps KZ).
    assert (F : forall k, k = KX \/ k = KZ -> exists dd p s, first_nbr row (labs ps k) = Ok (dd, pl_lab p) /\ In p ps /\ In s shifts /\ knd p = k /\
      pos p = padd (pos d) s /\ dd = dirn s).
    { intros k Hk. destruct (H1 k Hk) as (p & s & Hp & Hs & Kp & Ep).
      destruct (first_nbr_all d row (labs ps k) (dirn s) (pl_lab p) Hd L) as [[dd q] E]; [apply labs_place; eauto| |].
      { exists d, p, s. auto 9. }
      destruct (first_nbr_ok _ _ _ _ _ P d row _ _ _ Hd L E) as [Iq (p1 & p2 & s2 & Hp1 & Hp2 & Hs2 & L1 & L2 & D2 & E2)].
      apply (lab_eq _ _ _ _ _ P _ _ Hp1 Hd) in L1. subst p1. subst q. apply labs_place in Iq as (p3 & Hp3 & K3 & L3).
      apply (lab_eq _ _ _ _ _ P _ _ Hp3 Hp2) in L3. subst p3. exists dd, p2, s2. rewrite E. auto 9. }
    destruct (F KX) as (d1 & pa & s1 & -> & Hpa & Hs1 & Ka & Ea & ->); [now left|].
    destruct (F KZ) as (d2 & pz & s2 & -> & Hpz & Hs2 & Kz & Ez & ->); [now right|]. cbn [bind].
    destruct (H2 pa pz s1 s2 Hpa Hpz Hs1 Hs2 Ka Kz Ea Ez) as (ph & Hph & Eh).
    assert (I : In (pl_lab ph) (get_neighbors l [pl_lab pa] (Some (dirn s2)))).
    { unfold get_neighbors. apply in_map_iff. exists (pl_lab pa, pl_lab ph). split; [reflexivity|]. apply (pn_dir _ _ _ _ _ P). split; [now left|].
      exists pa, ph, s2. auto 9. }
    destruct (get_neighbors l [pl_lab pa] (Some (dirn s2))) as [|h r] eqn:Eg; [destruct I|]. cbn [hd_error of_opt bind].
    assert (Ih : In h (get_neighbors l [pl_lab pa] (Some (dirn s2)))) by (rewrite Eg; now left).
    unfold get_neighbors in Ih. apply in_map_iff in Ih as ([x y] & Ey & Ih). cbn in Ey. subst y.
    apply (pn_dir _ _ _ _ _ P) in Ih as [_ (p3 & p4 & s3 & _ & Hp4 & _ & _ & <- & _)].
    rewrite (coords_of_ok _ _ _ _ _ P p4 Hp4), (coords_of_ok _ _ _ _ _ P d Hd). cbn [bind]. eauto.
  Qed.
End Grid.
