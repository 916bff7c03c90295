(** The circuit blocks of the memory experiments on generated layouts raise no exception. *)
From Coq Require Import QArith Qcanon.
From Verif Require Import Base Lib StimM SetupM NoiseM SpecNoise NoiseP LayoutM SpecLayout LayoutP LayoutP2 DetM DetP
  GenM GenP SpecGen GeomP RotP RotP2 UnrotP BlockM ExpM SpecTrack TrackP ActP RoundP OneP CnotP7 SpecOk OkP OkP2 OkP3.
Open Scope Z_scope.
Local Opaque rot_ps unrot_ps.

Section Fine.
  Context (l : layout) (shifts : list (Z * Z)) (dirn : Z * Z -> string) (pt : Qc * Qc) (ps : list placed).
  Hypothesis P : planar l shifts dirn pt ps.
  Context (ord : nat -> list string -> list string).
  Hypothesis Hp : forall k s, Permutation (ord k s) s.
  Context (qi : dict string Z).
  Hypothesis Hq : incl (map pl_lab ps) (dkeys qi).
  Local Notation K := (dkeys qi).
  Local Notation labs := (labs ps).
  Local Notation ancs := (ancs ps).
  Hypothesis Ho : l_order l = rot_order \/ l_order l = unrot_order.

  Lemma in_ord k s : incl s K -> incl (ord k s) K.
  Proof. intros H q Hi. apply H. eapply Permutation_in; [apply Hp|exact Hi]. Qed.
  Lemma in_dedup (s : list string) : incl s K -> incl (dedup s) K.
  Proof. intros H q Hi. apply H. now apply dedup_In. Qed.
  Lemma in_diff (a b : list string) : incl a K -> incl (diff a b) K.
  Proof. intros H q Hi. apply H. unfold diff in Hi. now apply filter_In in Hi. Qed.
  Lemma in_nbr qs d : incl (get_neighbors l qs (Some d)) K.
  Proof. intros q Hi. apply Hq. eapply nbr_all; eauto. Qed.
  Lemma in_kind k : incl (labs k) K.
  Proof. intros q Hi. apply Hq. apply in_map_iff in Hi as (p & <- & Hi). apply filter_In in Hi as [Hi _]. now apply in_map. Qed.
  Lemma in_ancs : incl ancs K.
  Proof. intros q Hi. apply Hq. apply in_map_iff in Hi as (p & <- & Hi). apply filter_In in Hi as [Hi _]. now apply in_map. Qed.
  Lemma pair_fine qs d : spairs (flat_pairs (get_pairs l qs (Some d))) /\ incl (flat_pairs (get_pairs l qs (Some d))) K.
  Proof.
    assert (F : Forall (fun p => fst p <> snd p /\ In (fst p) K /\ In (snd p) K) (get_pairs l qs (Some d))).
    { apply Forall_forall. intros [a b] H. apply (pn_dir _ _ _ _ _ P) in H as [_ (p & q & s & H1 & H2 & Hs & <- & <- & _ & E)]. cbn [fst snd].
      split; [|split; apply Hq; now apply in_map]. intros El. apply (lab_eq _ _ _ _ _ P) in El; auto. subst q.
      pose proof (pn_par _ _ _ _ _ P p p s H1 H1 Hs E) as X. destruct (knd p); intuition congruence. }
    induction F as [|[a b] L (A & B & C) F [IH1 IH2]]; [split; [exact I|intros q []]|]. cbn [flat_pairs flat_map app fst snd] in *. split; [split; auto|].
    intros q [<-|[<-|H]]; auto.
  Qed.
  Lemma spairs_app : forall a b : list string, spairs a -> spairs b -> spairs (a ++ b).
  Proof.
    intros a. induction a as [a IH] using (well_founded_induction (well_founded_ltof _ (@length string))). intros b H H'.
    destruct a as [|x [|y a]]; [exact H'|destruct H|]. destruct H as [H1 H2]. split; [exact H1|]. apply IH; auto. unfold ltof. cbn. lia.
  Qed.
  Lemma pair_fine2 qs d qs' d' : let L := flat_pairs (get_pairs l qs (Some d) ++ get_pairs l qs' (Some d')) in spairs L /\ incl L K.
  Proof.
    cbv zeta. unfold flat_pairs. rewrite flat_map_app. destruct (pair_fine qs d) as [A B], (pair_fine qs' d') as [A' B'].
    split; [now apply spairs_app|now apply incl_app].
  Qed.

  Ltac inc := repeat first [ exact in_ancs | apply in_kind | apply in_nbr | apply in_ord | apply in_diff | apply in_dedup | apply incl_app
    | progress unfold union, symdiff, nw_se | assumption | (intros ? H; destruct H; fail) ].
  Ltac fine1 := split; [exact I|split; [inc|first [discriminate|intros _]]].
  Ltac fcall := repeat (first [apply Forall_nil | apply Forall_cons]); cbn [fine_call]; first [exact I|fine1|idtac].
  Ltac fblock := unfold tick_block, had_block; eexists; split; [reflexivity|]; fcall.
  Ltac fblocks := repeat (first [apply Forall_nil | apply Forall_cons]).

  Lemma start_fine reset : allfine qi (round_start (labs KD) ancs reset).
  Proof. unfold round_start. destruct reset; cbn [app]; fblocks; fblock. Qed.
  Lemma end_fine : allfine qi (round_end (labs KD) ancs).
  Proof. unfold round_end. fblocks; fblock. Qed.
  Lemma order_ok t k : In t ["x_type"; "z_type"]%string -> (k < 4)%nat -> exists d, order_at l t k = Ok d.
  Proof.
    intros Ht Hk. unfold order_at. destruct Ho as [-> | ->]; (destruct Ht as [<-|[<-|[]]]); do 4 (destruct k as [|k]; [eexists; reflexivity|]); lia.
  Qed.
  Lemma order_keys : dkeys (l_order l) = ["x_type"; "z_type"]%string.
  Proof. destruct Ho as [-> | ->]; reflexivity. Qed.
  Lemma stabs_ok t : In t ["x_type"; "z_type"]%string -> exists k, get_stabs l t = Ok (labs k) /\ k <> KD.
  Proof.
    intros [<-|[<-|[]]]; [exists KX|exists KZ]; (split; [|discriminate]); [apply (pn_x _ _ _ _ _ P)|apply (pn_z _ _ _ _ _ P)].
  Qed.
  Lemma cz_ok k : (k < 4)%nat -> exists c, cz_lists l k = Ok c /\ Forall (fun L => spairs L /\ incl L K) c.
  Proof.
    intros Hk. unfold cz_lists. rewrite order_keys. cbn [mapM]. destruct (stabs_ok "x_type") as (kx & -> & _); [now left|]. destruct (order_ok "x_type" k) as [dx ->]; [now left|lia|].
    destruct (stabs_ok "z_type") as (kz & -> & _); [right; now left|]. destruct (order_ok "z_type" k) as [dz ->]; [right; now left|lia|]. cbn [bind].
    eexists. split; [reflexivity|]. repeat constructor; apply pair_fine.
  Qed.
  Lemma cz_calls c : Forall (fun L => spairs L /\ incl L K) c -> Forall (fine_call qi) (map (Call OCZ) c).
  Proof. intros F. apply Forall_map. eapply Forall_impl; [|exact F]. intros L [A B]. cbn [fine_call]. split; [exact I|]. auto. Qed.
  Lemma cz_fine site qs k : (k < 4)%nat -> incl qs K -> fine_block qi (cz_block ord site l qs k).
  Proof.
    intros Hk Hqs. unfold cz_block. destruct (cz_ok k Hk) as (c & -> & F). cbn [bind]. eexists. split; [reflexivity|]. apply Forall_app. split; [now apply cz_calls|]. fcall.
  Qed.
  Lemma css_rot_ok : exists r, css_rot l ancs (labs KX) = Ok r /\ incl r K.
  Proof.
    unfold css_rot. destruct (order_ok "x_type" 0) as [d ->]; [now left|lia|]. destruct (order_ok "x_type" 3) as [d' ->]; [now left|lia|]. cbn [bind].
    eexists. split; [reflexivity|]. inc.
  Qed.
  Lemma css_fine code reset : l_code l = code -> allfine qi (css_round ord code l reset).
  Proof.
    intros Hc. unfold css_round. rewrite Hc, eqb_refl. cbn [negb]. rewrite (pn_data _ _ _ _ _ P), (pn_anc _ _ _ _ _ P), (pn_x _ _ _ _ _ P). cbn [bind generator].
    apply Forall_app. split; [apply start_fine|]. apply Forall_app. split; [|apply end_fine].
    destruct css_rot_ok as (r & Er & Hr). unfold RoundP.labs, RoundP.ancs in Er. rewrite Er. cbn [bind].
    fblocks; try (apply cz_fine; [lia|inc; (apply in_kind || apply in_ancs)]); fblock; inc; (apply in_kind || apply in_ancs).
  Qed.
  Lemma xzzx_fine reset : l_code l = "rotated_surface_code"%string -> allfine qi (xzzx_round ord l reset).
  Proof.
    intros Hc. unfold xzzx_round. rewrite Hc, eqb_refl. cbn [negb]. rewrite (pn_data _ _ _ _ _ P), (pn_anc _ _ _ _ _ P), (pn_x _ _ _ _ _ P). cbn [bind generator].
    apply Forall_app. split; [apply start_fine|]. apply Forall_app. split; [|apply end_fine].
    destruct css_rot_ok as (r & Er & Hr). unfold RoundP.labs, RoundP.ancs in Er. unfold xzzx_rot. rewrite Er. rewrite (pn_z _ _ _ _ _ P). cbn [bind].
    unfold xzzx_g. destruct (cz_ok 2 ltac:(lia)) as (c2 & E2 & F2), (cz_ok 3 ltac:(lia)) as (c3 & E3 & F3). rewrite E2, E3. cbn [bind].
    fblocks; try (apply cz_fine; [lia|inc; (apply in_kind || apply in_ancs)]).
    all: try (eexists; split; [reflexivity|]; apply Forall_app; split; [apply cz_calls; apply Forall_app; now split|]; fcall; inc; (apply in_kind || apply in_ancs)).
    all: fblock; inc; (apply in_kind || apply in_ancs).
  Qed.
  Lemma part_fine qs rot ind t : In t ["x_type"; "z_type"]%string -> incl qs K -> (forall s, incl s K -> incl (rot t s) K) -> allfine qi (pipe_part ord l qs rot ind t).
  Proof.
    intros Ht Hqs Hr. unfold pipe_part. destruct (stabs_ok t Ht) as (k & -> & _). assert (E : exists dirs, dget_err t (l_order l) = Ok dirs).
    { destruct Ho as [-> | ->]; (destruct Ht as [<-|[<-|[]]]); eexists; reflexivity. }
    destruct E as [dirs ->]. cbn [bind generator]. assert (Hs := Hr (labs k) (in_kind k)).
    apply Forall_app. split; [destruct ind; fblocks; fblock|]. apply Forall_app. split.
    - apply Forall_concat, Forall_map, Forall_forall. intros [n d] _. cbn [fst snd]. destruct (pair_fine (labs k) d) as [A B]. fblocks; fblock. exact A.
    - destruct ind; fblocks; fblock.
  Qed.
  Lemma pipe_fine rot reset : l_code l = "rotated_surface_code"%string -> (forall t s, incl s K -> incl (rot (labs KD) t s) K) -> allfine qi (pipe_round ord rot l reset).
  Proof.
    intros Hc Hr. unfold pipe_round. rewrite Hc, eqb_refl. cbn [negb]. rewrite (pn_data _ _ _ _ _ P), (pn_anc _ _ _ _ _ P). cbn [bind generator].
    apply Forall_app. split; [apply start_fine|]. apply Forall_app. split; [|apply end_fine]. apply Forall_concat, Forall_map. rewrite order_keys.
    assert (X : incl (dedup (labs KD ++ ancs)) K) by inc.
    repeat constructor; cbn [fst snd]; (apply part_fine; [cbn; auto|exact X|intros s H; now apply Hr]).
  Qed.
  Lemma css_pipe_fine reset : l_code l = "rotated_surface_code"%string -> allfine qi (css_pipe_round ord l reset).
  Proof. intros Hc. apply pipe_fine; [exact Hc|]. intros t s H. unfold css_pipe_rot. destruct (eqb t "x_type"); inc. intros q []. Qed.
  Lemma xzzx_pipe_fine reset : l_code l = "rotated_surface_code"%string -> allfine qi (xzzx_pipe_round ord l reset).
  Proof. intros Hc. apply pipe_fine; [exact Hc|]. intros t s H. unfold xzzx_pipe_rot. inc. Qed.
  Lemma coherent_fine : allfine qi (google_coherent ord l).
  Proof.
    unfold google_coherent. rewrite (pn_data _ _ _ _ _ P), (pn_x _ _ _ _ _ P), (pn_z _ _ _ _ _ P). cbn [bind generator]. unfold google_cz, google_cz1.
    assert (D := in_kind KD). assert (X := in_kind KX). assert (Z := in_kind KZ). unfold RoundP.labs in D, X, Z.
    fblocks; fblock; first [apply pair_fine|apply pair_fine2].
  Qed.
  Lemma google_fine : l_code l = "rotated_surface_code"%string -> allfine qi (google_round ord l).
  Proof.
    intros Hc. unfold google_round. rewrite Hc, eqb_refl. cbn [negb]. rewrite (pn_data _ _ _ _ _ P), (pn_anc _ _ _ _ _ P). cbn [bind generator].
    assert (D := in_kind KD). assert (A := in_ancs). unfold RoundP.labs, RoundP.ancs in D, A.
    apply Forall_app. split; [apply coherent_fine|]. fblocks; fblock.
  Qed.
  Lemma basis_ok (rot : bool) : exists k, get_stabs l (if rot then "x_type" else "z_type")%string = Ok (labs k) /\ k <> KD.
  Proof. apply stabs_ok. destruct rot; cbn; auto. Qed.
  Lemma google_meas_fine rot : allfine qi (google_meas ord l rot).
  Proof.
    unfold google_meas. rewrite (pn_data _ _ _ _ _ P), (pn_anc _ _ _ _ _ P). cbn [bind generator].
    assert (D := in_kind KD). assert (A := in_ancs). unfold RoundP.labs, RoundP.ancs in D, A. destruct (basis_ok rot) as (k & -> & _). cbn [bind].
    apply Forall_app. split; [apply coherent_fine|]. fblocks; fblock.
  Qed.
  Lemma log_meas_fine rot : allfine qi (log_meas_blocks l rot).
  Proof.
    unfold log_meas_blocks. rewrite (pn_data _ _ _ _ _ P), (pn_anc _ _ _ _ _ P). cbn [bind generator].
    assert (D := in_kind KD). assert (A := in_ancs). unfold RoundP.labs, RoundP.ancs in D, A. destruct rot; cbn [app]; fblocks; fblock.
  Qed.
  Lemma log_xzzx_fine rot : allfine qi (log_meas_xzzx_blocks ord l rot).
  Proof.
    unfold log_meas_xzzx_blocks. rewrite (pn_data _ _ _ _ _ P), (pn_anc _ _ _ _ _ P). cbn [bind].
    assert (D := in_kind KD). assert (A := in_ancs). unfold RoundP.labs, RoundP.ancs in D, A. destruct (basis_ok rot) as (k & -> & _). cbn [bind generator]. fblocks; fblock.
  Qed.
  Context (di : dict string Z) (Hi : forall q b, In (q, b) di -> In q K).
  Lemma exc_in : incl (excited di) K.
  Proof. unfold excited. apply in_dedup. intros q H. apply in_map_iff in H as ([q' b] & <- & H). apply filter_In in H as [H _]. eauto. Qed.
  Lemma init_start_fine qs : incl qs K -> allfine qi (init_start ord qs di).
  Proof.
    intros H. assert (E := exc_in). unfold init_start. fblocks; try (fblock; fail). destruct (excited di) as [|e r] eqn:X; cbn [app]; fblock.
  Qed.
  Lemma init_fine rot : allfine qi (init_blocks ord l di rot).
  Proof.
    unfold init_blocks. rewrite (pn_data _ _ _ _ _ P), (pn_anc _ _ _ _ _ P). cbn [bind generator].
    assert (D := in_kind KD). assert (A := in_ancs). unfold RoundP.labs, RoundP.ancs in D, A.
    apply Forall_app. split; [apply init_start_fine; inc|]. destruct rot; fblocks; fblock.
  Qed.
  Lemma init_xzzx_fine rot : l_code l = "rotated_surface_code"%string -> allfine qi (init_xzzx_blocks ord l di rot).
  Proof.
    intros Hc. unfold init_xzzx_blocks. rewrite Hc, eqb_refl. cbn [negb]. rewrite (pn_data _ _ _ _ _ P), (pn_anc _ _ _ _ _ P). cbn [bind].
    assert (D := in_kind KD). assert (A := in_ancs). unfold RoundP.labs, RoundP.ancs in D, A. destruct (basis_ok rot) as (k & -> & _). cbn [bind generator].
    apply Forall_app. split; [apply init_start_fine; inc|]. fblocks; fblock.
  Qed.

  (** * The queries of the layout *)
  Lemma coords_ok : exists cs, LayoutM.qubit_coords l = Ok cs /\ incl (dkeys cs) K.
  Proof.
    assert (N : NoDup (dkeys (l_nodes l))) by exact (LayoutP.wf_nodup _ (pn_wf _ _ _ _ _ P)).
    destruct (mapM_total (fun qc : string * pyv => do c <- as_num_list (snd qc); Ok (fst qc, c)) (qubit_coords_attr l)) as [cs E].
    - intros [q v] H. cbn [fst snd].
      assert (Nk : NoDup (dkeys (qubit_coords_attr l))).
      { unfold qubit_coords_attr. clear -N. unfold dkeys in *. induction (l_nodes l) as [|[k a] n IH]; [constructor|]. cbn [map fst snd flat_map] in *. inversion N; subst.
        destruct (dget "coords" a); cbn [app map fst]; [constructor; auto|auto]. intros H. apply H1. apply in_map_iff in H as ([k' v] & <- & H).
        apply in_flat_map in H as ([k2 a2] & H & H'). cbn in H'. destruct (dget "coords" a2); [|destruct H']. destruct H' as [[= <- <-]|[]]. apply in_map_iff. exists (k2, a2). auto. }
      assert (Hk : In q (dkeys (l_nodes l))).
      { unfold qubit_coords_attr in H. apply in_flat_map in H as ([k2 a2] & H & H'). cbn in H'. destruct (dget "coords" a2); [|destruct H']. destruct H' as [[= <- <-]|[]]. apply in_map_iff. exists (k2, a2). auto. }
      unfold dkeys in Hk. rewrite (pn_nodes _ _ _ _ _ P) in Hk. apply in_map_iff in Hk as (p & <- & Hin).
      pose proof (pn_coord _ _ _ _ _ P p Hin) as C. apply (has_coord_attr l _ _ N) in C. apply In_dget in H; [|exact Nk]. rewrite C in H. injection H as <-.
      cbn. eauto.
    - exists cs. split; [exact E|]. apply mapM_Forall2 in E. intros q Hin. apply in_map_iff in Hin as (x & <- & Hin). destruct (Forall2_in_r _ _ _ x E Hin) as ([k v] & Hkv & Q).
      apply bind_ok in Q as (c & _ & Q). injection Q as <-. cbn [fst snd]. apply Hq. rewrite <- (pn_nodes _ _ _ _ _ P).
      unfold qubit_coords_attr in Hkv. apply in_flat_map in Hkv as ([k2 a2] & H & H'). cbn in H'. destruct (dget "coords" a2); [|destruct H']. destruct H' as [[= <- <-]|[]]. apply in_map_iff. exists (k2, a2). auto.
  Qed.
  Hypothesis Hs : NoDup shifts.
  Lemma stab_ok (rot : bool) : exists stabs, get_stabs l (basis_type rot) = Ok stabs /\ incl stabs ancs /\
     exists sup, support_from_adj l stabs = Ok sup /\ incl stabs (dkeys sup) /\ forall a qs, dget a sup = Some qs -> incl qs (labs KD).
  Proof.
    destruct (basis_ok rot) as (k & E & Kk). exists (labs k). split; [exact E|]. split.
    { intros q H. apply in_map_iff in H as (p & <- & H). apply filter_In in H as [H B]. apply in_map, filter_In. split; [exact H|]. unfold isk, isanc in *. destruct (knd p), k; congruence. }
    assert (X : exists sup, support_from_adj l (labs k) = Ok sup).
    { unfold support_from_adj. apply foldM_total. intros d a H. assert (M : dmem a (l_nodes l) = true).
      { apply dmem_In. unfold dkeys. rewrite (pn_nodes _ _ _ _ _ P). apply in_map_iff in H as (p & <- & H). apply filter_In in H as [H _]. now apply in_map. }
      rewrite M. eauto. }
    destruct X as [sup U]. exists sup. split; [exact U|]. pose proof (support_lemma l _ sup (pn_wf _ _ _ _ _ P) U) as S. split.
    - intros a H. destruct (S a H) as (s & H' & _). now apply dget_Some_key in H'.
    - intros a qs H b Hb. assert (Hin : In a (labs k)).
      { apply (sup_keys l (labs k) sup U). now apply dget_Some_key in H. }
      destruct (S a Hin) as (s & H' & _ & B). rewrite H in H'. injection H' as <-. apply B in Hb.
      apply in_map_iff in Hin as (p & <- & Hin). apply filter_In in Hin as [Hin Bk].
      apply (support_data _ _ _ _ _ P p Hin); [|exact Hs|exact Hb]. unfold isk in Bk. destruct (knd p), k; congruence.
  Qed.
End Fine.
