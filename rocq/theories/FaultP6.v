(** The circuit distance of a memory experiment, from conditions on the gates of a round
    and on the code. *)
From Coq Require Import QArith Qcanon.
From Verif Require Import Base Lib StimM SetupM NoiseM SpecNoise NoiseP LayoutM SpecLayout LayoutP LayoutP2 DetM SpecDet DetP DetCountP SpecGen GeomP
  BlockM ExpM SpecTrack SpecExp SpecFault TrackP ActP RoundTopP LiftP ExpDetP ExpP ExpP2 ExpP3 ExpP4 ExpP7 ExpP8 ExpP9 ExpP12 FaultP FaultP2 FaultP3 FaultP4 FaultP5.
Open Scope Z_scope.

(** * Counting lines *)
Lemma pigeon (line : string -> option nat) Ts : Forall (one_line line) Ts -> forall K, NoDup K ->
  (forall k, In k K -> exists q, In q (concat Ts) /\ line q = Some k) -> (length K <= length Ts)%nat.
Proof.
  induction 1 as [|T Ts O _ IH]; intros K N H.
  - destruct K as [|k K]; [cbn; lia|]. destruct (H k (or_introl eq_refl)) as (q & [] & _).
  - set (cov := fun k => existsb (fun q => eqb (line q) (Some k)) T).
    assert (C : forall k, cov k = true <-> exists q, In q T /\ line q = Some k).
    { intros k. unfold cov. rewrite existsb_exists. split; intros (q & Hq & E); exists q; (split; [exact Hq|]); now apply eqb_eq. }
    assert (L1 : (length (filter cov K) <= 1)%nat).
    { assert (N1 : NoDup (filter cov K)) by now apply NoDup_filter.
      assert (E : forall k k', In k (filter cov K) -> In k' (filter cov K) -> k = k').
      { intros k k' Hk Hk'. apply filter_In in Hk as [_ Hk], Hk' as [_ Hk']. apply C in Hk as (q & Hq & E1), Hk' as (q' & Hq' & E2). exact (O q q' k k' Hq Hq' E1 E2). }
      destruct (filter cov K) as [|k [|k' K']]; cbn; try lia. exfalso. inversion N1 as [|? ? Nk _]. apply Nk. rewrite (E k k'); [now left|now left|right; now left]. }
    assert (L2 : (length (filter (fun k => negb (cov k)) K) <= length Ts)%nat).
    { apply IH; [now apply NoDup_filter|]. intros k Hk. apply filter_In in Hk as [Hk Nk]. destruct (H k Hk) as (q & Hq & E). cbn [concat] in Hq.
      apply in_app_iff in Hq as [Hq|Hq]; [|eauto]. exfalso. rewrite (proj2 (C k)) in Nk by eauto. discriminate. }
    assert (FL : (length (filter cov K) + length (filter (fun k => negb (cov k)) K) = length K)%nat) by (clear; induction K as [|k K IH]; [reflexivity|]; cbn; destruct (cov k); cbn; lia).
    cbn [length]. lia.
Qed.

Lemma anti_point st X X' Z Z' a : (forall q, X q = X' q /\ Z q = Z' q) -> anti st X Z a = anti st X' Z' a.
Proof. intros E. unfold anti. f_equal; apply xorl_ext'; intros q _; apply E. Qed.

(* the gates of a round do not spread errors over several lines *)
Record safe (st : stabilizers) (ancs data hset : list string) (line : string -> option nat) (g : list (gate string)) : Prop := {
  sf_ok : okb ancs g;
  sf_h : forall b, In b ancs -> hn g b = 2%nat;
  sf_nodup : forall b, In b ancs -> NoDup (czs g b);
  sf_data : forall b q, In b ancs -> In q (czs g b) -> In q data;
  sf_kind : forall b, In b ancs -> (forall q, anti st (px (BS (hs hset) [q])) (pz (BS (hs hset) [q])) b = false) \/
    (forall q, In q (czs g b) -> anti st (px (BS (hs hset) [q])) (pz (BS (hs hset) [q])) b = true) /\
    exists A B, czs g b = A ++ B /\ one_line line A /\ one_line line B }.

(* from the places of the faults to their number *)
Lemma core_fault qi c st ancs data hset g (rf : nat -> bool) line L bts l lq d fs :
  SpecNoise.wf_inds qi -> Forall2 (gate_rel qi) L (gates c) -> (forall q, In q data -> ~ In q ancs) -> (length data <= num_meas L)%nat ->
  (forall r, acts st ancs (g r)) -> (forall r, safe st ancs data hset line (g r)) ->
  (forall A B, L = A ++ B -> classified st ancs data hset g B) ->
  (forall a, In a bts -> fam st ancs data hset (support l a)) -> fam st ancs data hset lq ->
  (forall a, In a bts -> flipped_parity data c fs (support l a) = false) -> flipped_parity data c fs lq = true ->
  (forall T, (forall a, In a bts -> par (support l a) T = false) -> par lq T = true ->
     forall i, (i < d)%nat -> exists q, In q T /\ line q = Some i) ->
  Forall (possible c) fs -> (d <= length fs)%nat.
Proof.
  intros W HR Hda Hn Ha Hs Cl Fb Fl Pb Pl Hdist Pos. set (F := fam st ancs data hset) in *.
  assert (Sok : forall r, okb ancs (g r)) by (intros r; apply (sf_ok _ _ _ _ _ _ (Hs r))).
  assert (Sh : forall r b, In b ancs -> hn (g r) b = 2%nat) by (intros r; apply (sf_h _ _ _ _ _ _ (Hs r))).
  assert (Sn : forall r b, In b ancs -> NoDup (czs (g r) b)) by (intros r; apply (sf_nodup _ _ _ _ _ _ (Hs r))).
  assert (Sd : forall r b q, In b ancs -> In q (czs (g r) b) -> In q data) by (intros r; apply (sf_data _ _ _ _ _ _ (Hs r))).
  assert (Sk := fun r => sf_kind _ _ _ _ _ _ (Hs r)).
  destruct (faults_small data line F qi c L W HR) with (fs := fs) as (Ts & E1 & E2 & E3).
  - intros A B S EL FS. eapply (classified_ok st ancs data hset Hda g rf); eauto.
  - intros A B q x z EL. eapply (small_single st ancs data hset Hda g rf); eauto.
  - intros A n b q B xb zb xq zq EL. eapply (small_pair st ancs data hset Hda g rf); eauto.
  - intros A n b q B EL. destruct (Cl _ _ EL) as [[_ No]|(r & p & s & B' & Eg & _ & _ & EB)]; [exfalso; eapply No; reflexivity|].
    destruct (EB _ _ _ _ eq_refl) as (s1 & -> & _). pose proof (Sok r) as O. rewrite Eg in O. apply (okb_app ancs (hs hset)) in O.
    cbn [okb] in O. destruct n; try (exfalso; exact O). destruct O as (O1 & O2 & _). intros ->. contradiction.
  - exact Hn.
  - exact Pos.
  - rewrite <- E1. rewrite <- (seq_length d 0). apply (pigeon line Ts E2); [apply seq_NoDup|]. intros i Hi. apply in_seq in Hi.
    apply (Hdist (concat Ts)); [| |lia].
    + intros a Ha'. rewrite <- E3 by (now apply Fb). now apply Pb.
    + rewrite <- E3 by exact Fl. exact Pl.
Qed.
Lemma generic_fault ordt k l R di rot reset dets gauge w w' c st ancs data hset bts lg lq Rq X H0 H' line d fs :
  (forall t n s, Permutation (ordt t n s) s) ->
  SpecNoise.wf_inds (inds (fst w)) -> NoDup (labels (snd w)) -> memory ordt k l R di rot reset dets gauge w = (w', Ok c) ->
  wf l -> get_role l "anc" = Ok ancs -> get_role l "data" = Ok data -> NoDup data -> (forall q, In q data -> ~ In q ancs) ->
  (forall a b, In a ancs -> In b ancs -> anti st (on (fst (st a))) (on (snd (st a))) b = false) ->
  (forall r, exists g, round_of l st (round_k ordt k r l) ancs g /\ safe st ancs data hset line g) ->
  lg_blocks (init_of ordt k l di rot) = If Rq X H0 -> NoDup H0 -> (forall q, mem q H0 = hs hset q) ->
  lg_blocks (meas_of ordt k l rot) = Df data H' -> NoDup H' -> (forall q, mem q H' = hs hset q) ->
  get_stabs l (basis_type rot) = Ok bts -> (forall ds, dets = Some ds -> incl bts ds) ->
  (forall a, In a bts -> In a ancs /\ NoDup (support l a) /\ incl (support l a) data /\
     forall q, on (fst (st a)) q = hs hset q && mem q (support l a) /\ on (snd (st a)) q = negb (hs hset q) && mem q (support l a)) ->
  l_logs l = [lg] -> dget lg (if rot then l_logx l else l_logz l) = Some lq -> NoDup lq -> incl lq data ->
  (forall a, In a ancs -> anti st (fun q => hs hset q && mem q lq) (fun q => negb (hs hset q) && mem q lq) a = false) ->
  (forall T, (forall a, In a bts -> par (support l a) T = false) -> par lq T = true ->
     forall i, (i < d)%nat -> exists q, In q T /\ line q = Some i) ->
  Forall (possible c) fs -> undetected c fs -> logical_error c fs -> (d <= length fs)%nat.
Proof.
  intros Hp W N E Wl Ea Ed Nd Hda Hcom Hr EI NH0 EH0 ED NH' EH' Eb Hdets Hbt Elog Elq Nlq Ilq Clq Hdist Pos Un Lo.
  apply memory_any in E as (HR & ancs' & data' & Ea' & Ed' & Na & Hout & HIm & _ & HDm); [|exact W|exact N].
  rewrite Ea in Ea'. injection Ea' as <-. rewrite Ed in Ed'. injection Ed' as <-.
  set (I := lg_blocks (init_of ordt k l di rot)) in *. set (D := lg_blocks (meas_of ordt k l rot)) in *.
  set (g := fun r => middle ancs (lg_blocks (round_k ordt k r l false))).
  assert (Hg : forall r, round_of l st (round_k ordt k r l) ancs (g r) /\ safe st ancs data hset line (g r)).
  { intros r. destruct (Hr r) as (g' & Hg' & Sg). assert (Eg : g r = g').
    { unfold g. rewrite (ro_gates _ _ _ _ _ Hg'). unfold round_g, middle. cbn [app]. rewrite app_length, map_length.
      replace (length g' + length ancs - length ancs)%nat with (length g') by lia. rewrite firstn_app, Nat.sub_diag. cbn [firstn]. now rewrite app_nil_r, firstn_all. }
    rewrite Eg. auto. }
  set (G := fun r => lg_blocks (round_k ordt k r l reset)) in *.
  assert (EG : forall n, Gn G n = Rn ancs g (fun _ => reset) n).
  { intros n. rewrite <- Gn_Rn. apply Gn_ext. intros r. unfold G. apply (ro_gates _ _ _ _ _ (proj1 (Hg r))). }
  assert (Ha : forall r, acts st ancs (g r)) by (intros r; apply (ro_acts _ _ _ _ _ (proj1 (Hg r)))).
  assert (HG : forall r, mlab (G r) = ancs) by (intros r; unfold G; rewrite (ro_gates _ _ _ _ _ (proj1 (Hg r))); eapply mlab_round; eauto).
  set (F := fam st ancs data hset).
  assert (Fb : forall a, In a bts -> F (support l a)).
  { intros a Hi. destruct (Hbt a Hi) as (Hia & _ & Hs & Hq). split; [exact Hs|]. intros b Hb. rewrite <- (Hcom a b Hia Hb). apply anti_point. intros q. destruct (Hq q). cbn [BS px pz]. auto. }
  assert (Fl : F lq) by (split; [exact Ilq|exact Clq]).
  assert (Hb : incl bts ancs) by (intros a Hi; now destruct (Hbt a Hi)).
  destruct (final_parities ordt Hp (snd w) (inds (fst w)) l rot reset gauge dets (Z.to_nat R) I G D c ancs data bts Ea Eb Hb Hdets Nd Hda HIm HG HDm fs Un lq lg Wl Hout Nlq Ilq
    (fun a Hi => proj1 (proj2 (proj2 (Hbt a Hi)))) Elog Elq) as [Pb Pl]. specialize (Pl Lo).
  assert (exists m, tracked (inds (fst w)) m (I ++ Gn G (Z.to_nat R) ++ D) c) as [m T].
  { destruct Hout as [(ancs' & ds & dsf & c01 & c2 & c3 & c4 & w2 & m3 & Ec & _ & _ & _ & _ & _ & _ & _ & Hm)].
    destruct Hm as [(stabs & sup & lq' & qs & cd & o & ls & _ & T4 & _)]. exists m3. rewrite Ec. rewrite <- !app_assoc in T4. exact T4. }
  rewrite EG in T. set (L := I ++ Rn ancs g (fun _ => reset) (Z.to_nat R) ++ D) in *.
  assert (Cl : forall A B, L = A ++ B -> classified st ancs data hset g B).
  { intros A B EL. unfold L in EL. rewrite EI, ED in EL. exact (all_class st ancs data hset Na Nd Hda g (fun _ => reset) Ha Rq X H0 NH0 EH0 _ _ A B NH' EH' EL). }
  apply (core_fault (inds (fst w)) c st ancs data hset g (fun _ => reset) line L bts l lq d fs); auto.
  - exact (tk_rel _ _ _ _ T).
  - rewrite <- mlab_len. unfold L. rewrite !mlab_app, HDm, !app_length. lia.
  - intros r. apply Hg.
Qed.
