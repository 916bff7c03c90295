(** The gates of the rounds do not spread errors over several lines; every undetected
    error that changes the observable touches every line. *)
From Coq Require Import QArith Qcanon.
From Verif Require Import Base Lib StimM SetupM NoiseM SpecNoise NoiseP LayoutM SpecLayout LayoutP LayoutP2 DetM
  GenM GenP SpecGen GeomP RotP RotP2 UnrotP BlockM ExpM SpecTrack SpecExp SpecFault TrackP ActP RoundP CssP PipeP RoundTopP
  ExpP ExpP2 ExpP8 ExpP9 ExpP12 FaultP FaultP2 FaultP3 FaultP6.
Open Scope Z_scope.
Local Opaque rot_ps unrot_ps.

(** * Layers of gates *)
Lemma hn_app s t q : hn (s ++ t) q = (hn s q + hn t q)%nat.
Proof. induction s as [|[n a|n a b] s IH]; [reflexivity| |exact IH]. cbn [app hn]. destruct n; try exact IH. destruct (eqb a q); [cbn|]; now rewrite IH. Qed.
Lemma hn_H L q : NoDup L -> hn (map (G1 GH) L) q = if mem q L then 1%nat else 0%nat.
Proof.
  induction 1 as [|a L Na N IH]; [reflexivity|]. cbn [map hn mem existsb]. rewrite IH. rewrite (eqb_sym q a). unfold mem.
  destruct (eqb_spec a q) as [->|Ne]; [|reflexivity]. fold (mem q L). now rewrite (mem_not q L Na).
Qed.
Lemma hn_cz L q : hn (cz_gates L) q = 0%nat.
Proof. induction L as [|p L IH]; [reflexivity|exact IH]. Qed.
Lemma czs_H L b : czs (map (G1 GH) L) b = [].
Proof. induction L as [|p L IH]; [reflexivity|exact IH]. Qed.
Lemma czs_cz L b : czs (cz_gates L) b = map snd (filter (fun p => eqb (fst p) b) L).
Proof. induction L as [|[x y] L IH]; [reflexivity|]. cbn [cz_gates map czs filter fst snd]. fold (cz_gates L). rewrite IH. destruct (eqb x b); reflexivity. Qed.
Lemma okb_H ancs L s : NoDup L -> (forall q, In q L -> In q ancs -> (hn s q <= 1)%nat) -> okb ancs s -> okb ancs (map (G1 GH) L ++ s).
Proof.
  induction 1 as [|a L Na N IH]; intros H O; [exact O|]. cbn [map app okb]. split.
  - intros Ha. rewrite hn_app, hn_H, (mem_not a L Na) by exact N. apply H; [now left|exact Ha].
  - apply IH; [|exact O]. intros q Hq. apply H. now right.
Qed.
Lemma okb_cz ancs L s : (forall b q, In (b, q) L -> In b ancs /\ ~ In q ancs /\ hn s b = 1%nat) -> okb ancs s -> okb ancs (cz_gates L ++ s).
Proof.
  induction L as [|[b q] L IH]; intros H O; [exact O|]. cbn [cz_gates map app okb fst snd]. fold (cz_gates L).
  destruct (H b q (or_introl eq_refl)) as (A & B & C). repeat (split; [assumption|]). split; [now rewrite hn_app, hn_cz|].
  apply IH; [|exact O]. intros b' q' Hi. apply H. now right.
Qed.
Lemma round_is l st rd ancs g g' : round_of l st rd ancs g -> lg_blocks (rd false) = round_g ancs g' false -> g = g'.
Proof. intros R E. rewrite (ro_gates _ _ _ _ _ R) in E. unfold round_g in E. cbn [app] in E. now apply app_inv_tail in E. Qed.

(** * Partners of an ancilla *)
Section Planar.
  Context (l : layout) (shifts : list (Z * Z)) (dirn : Z * Z -> string) (pt : Qc * Qc) (ps : list placed).
  Hypothesis P : planar l shifts dirn pt ps.
  Hypothesis Nsh : NoDup shifts.
  Local Notation labs := (labs ps).
  Local Notation ancs := (ancs ps).
  Definition partners (k : kind) (s : Z * Z) (b : string) : list string := czs (cz_gates (get_pairs l (labs k) (Some (dirn s)))) b.
  Lemma isk_eq k p : isk k p = true <-> knd p = k.
  Proof. clear. unfold isk. destruct k, (knd p); split; congruence. Qed.
  Lemma pair_place k s b q : k <> KD -> In s shifts -> In (b, q) (get_pairs l (labs k) (Some (dirn s))) ->
    exists p d, In p ps /\ In d ps /\ pl_lab p = b /\ pl_lab d = q /\ knd p = k /\ knd d = KD /\ pos d = padd (pos p) s.
  Proof.
    intros Hk Hs Hi. apply (dir_pair _ _ _ _ _ P) in Hi as (p & d & Hp & Hd & Ep & Eq & E & Hl & K); [|exact Hs].
    assert (Kp : knd p = k). { rewrite <- Ep in Hl. apply mem_In in Hl. rewrite (mem_labs _ _ _ _ _ P) in Hl by exact Hp. now apply isk_eq. }
    exists p, d. repeat (split; [assumption|]). split; [|exact E]. destruct (knd d) eqn:Kd; [reflexivity| |]; exfalso; apply Hk; rewrite <- Kp; apply K; discriminate.
  Qed.
  Lemma partners_In k s b q : k <> KD -> In s shifts -> In q (partners k s b) ->
    exists p d, In p ps /\ In d ps /\ pl_lab p = b /\ pl_lab d = q /\ knd p = k /\ knd d = KD /\ pos d = padd (pos p) s.
  Proof.
    intros Hk Hs Hq. unfold partners in Hq. rewrite czs_cz in Hq. apply in_map_iff in Hq as ([x y] & <- & Hq). apply filter_In in Hq as [Hq E].
    apply eqb_true in E. cbn [fst snd] in *. subst x. now apply pair_place.
  Qed.
  Lemma partners_nodup k s b : NoDup (partners k s b).
  Proof.
    unfold partners. rewrite czs_cz. pose proof (get_pairs_nodup l (labs k) (Some (dirn s)) (pn_wf _ _ _ _ _ P)) as N. revert N.
    generalize (get_pairs l (labs k) (Some (dirn s))). intros L. clear. induction L as [|[x y] L IH]; intros N; [constructor|]. inversion N as [|? ? Hn N']; subst.
    cbn [filter fst]. destruct (eqb_spec x b) as [->|]; [|auto]. cbn [map snd]. constructor; [|auto]. intros H. apply in_map_iff in H as ([x' y'] & E & H).
    apply filter_In in H as [H Ex]. apply eqb_true in Ex. cbn [fst snd] in *. subst. contradiction.
  Qed.
  Lemma partners_other k s p : k <> KD -> In s shifts -> In p ps -> knd p <> k -> partners k s (pl_lab p) = [].
  Proof.
    intros Hk Hs Hi K. destruct (partners k s (pl_lab p)) as [|q L] eqn:E; [reflexivity|]. exfalso.
    destruct (partners_In k s (pl_lab p) q Hk Hs) as (p' & d & Hp' & _ & E1 & _ & K' & _); [rewrite E; now left|].
    apply (lab_eq _ _ _ _ _ P) in E1; auto. subst p'. contradiction.
  Qed.
  Lemma partners_at k s p q : k <> KD -> In s shifts -> In p ps -> In q (partners k s (pl_lab p)) ->
    exists d, In d ps /\ pl_lab d = q /\ knd d = KD /\ pos d = padd (pos p) s.
  Proof.
    intros Hk Hs Hi Hq. apply partners_In in Hq as (p' & d & Hp' & Hd & E1 & E2 & K & Kd & E); auto. apply (lab_eq _ _ _ _ _ P) in E1; auto. subst p'. eauto.
  Qed.
  Definition around (k : kind) (o : list (Z * Z)) (b : string) : list string := flat_map (fun s => partners k s b) o.
  Lemma around_In k o p q : k <> KD -> incl o shifts -> In p ps -> In q (around k o (pl_lab p)) ->
    exists d s, In s o /\ In d ps /\ pl_lab d = q /\ knd d = KD /\ pos d = padd (pos p) s.
  Proof.
    intros Hk Ho Hi Hq. apply in_flat_map in Hq as (s & Hs & Hq). apply partners_at in Hq as (d & A & B & C & D); auto. exists d, s. auto.
  Qed.
  Lemma around_nodup k o p : k <> KD -> incl o shifts -> NoDup o -> In p ps -> NoDup (around k o (pl_lab p)).
  Proof.
    intros Hk Ho No Hi. induction o as [|s o IH]; [constructor|]. inversion No as [|? ? Ns No']; subst. cbn [around flat_map].
    apply NoDup_app_intro; [apply partners_nodup|apply IH; [intros x Hx; apply Ho; now right|exact No']|].
    intros q Hq Hq'. apply partners_at in Hq as (d & Hd & E & _ & Ep); [|assumption|apply Ho; now left|assumption].
    apply (around_In k o p q Hk) in Hq' as (d' & s' & Hs' & Hd' & E' & _ & Ep'); [|intros x Hx; apply Ho; now right|assumption].
    assert (d = d') by (eapply (lab_eq _ _ _ _ _ P); auto; congruence). subst d'. rewrite Ep in Ep'. apply padd_inj in Ep'. subst s'. contradiction.
  Qed.
  Lemma around_support k o p q : k <> KD -> incl o shifts -> In p ps -> In q (around k o (pl_lab p)) -> In q (support l (pl_lab p)).
  Proof.
    intros Hk Ho Hi Hq. apply around_In in Hq as (d & s & Hs & Hd & E & _ & Ep); auto. apply (support_mem _ _ _ _ _ P Nsh p q Hi). exists d, s. auto.
  Qed.

  (* lines of data qubits *)
  Context (lp : Z * Z -> option nat).
  Definition line (q : string) : option nat := match find (fun p => eqb (pl_lab p) q) ps with Some p => lp (pos p) | None => None end.
  Lemma line_at p : In p ps -> line (pl_lab p) = lp (pos p).
  Proof.
    intros Hi. unfold line. destruct (find _ ps) as [p'|] eqn:E.
    - apply find_some in E as [Hp' E]. apply eqb_true in E. apply (lab_eq _ _ _ _ _ P) in E; auto. now subst.
    - exfalso. pose proof (find_none _ _ E p Hi) as F. cbn in F. rewrite eqb_refl in F. discriminate.
  Qed.

  Context (basis : kind) (ox oz : list (Z * Z) * list (Z * Z)).
  Definition halves (k : kind) : list (Z * Z) * list (Z * Z) := match k with KX => ox | _ => oz end.
  Definition whole (k : kind) : list (Z * Z) := fst (halves k) ++ snd (halves k).
  Hypothesis Who : forall k, incl (whole k) shifts /\ NoDup (whole k).
  Hypothesis Hlp : forall p s s' k k', In p ps -> knd p <> KD -> knd p <> basis ->
    (In s (fst (halves (knd p))) /\ In s' (fst (halves (knd p))) \/ In s (snd (halves (knd p))) /\ In s' (snd (halves (knd p)))) ->
    lp (padd (pos p) s) = Some k -> lp (padd (pos p) s') = Some k' -> k = k'.
  Lemma safe_of st hset g : okb ancs g -> (forall b, In b ancs -> hn g b = 2%nat) ->
    (forall p, In p ps -> knd p <> KD -> czs g (pl_lab p) = around (knd p) (whole (knd p)) (pl_lab p)) ->
    (forall p q, In p ps -> knd p <> KD -> anti st (px (BS (hs hset) [q])) (pz (BS (hs hset) [q])) (pl_lab p) = negb (isk basis p) && mem q (support l (pl_lab p))) ->
    safe st ancs (labs KD) hset line g.
  Proof.
    intros Ok Hn Ec Ea. constructor; [exact Ok|exact Hn| | |].
    - intros b Hb. apply (anc_place ps) in Hb as (p & Hi & K & <-). rewrite Ec by assumption. apply around_nodup; auto; apply Who.
    - intros b q Hb Hq. apply (anc_place ps) in Hb as (p & Hi & K & <-). rewrite Ec in Hq by assumption.
      apply around_In in Hq as (d & s & _ & Hd & <- & Kd & _); auto; [|apply Who]. apply mem_In. rewrite (mem_labs _ _ _ _ _ P) by assumption. now apply isk_eq.
    - intros b Hb. apply (anc_place ps) in Hb as (p & Hi & K & <-). destruct (isk basis p) eqn:B.
      + left. intros q. now rewrite Ea, B.
      + right. assert (Kb : knd p <> basis) by (intros E; apply isk_eq in E; congruence). split.
        * intros q Hq. rewrite Ea, B by assumption. cbn [negb andb]. apply mem_In. rewrite Ec in Hq by assumption. eapply around_support; eauto. apply Who.
        * exists (around (knd p) (fst (halves (knd p))) (pl_lab p)), (around (knd p) (snd (halves (knd p))) (pl_lab p)).
          destruct (Who (knd p)) as [Wi _]. unfold whole in Wi. assert (Wi1 : incl (fst (halves (knd p))) shifts) by (intros x Hx; apply Wi, in_app_iff; now left).
          assert (Wi2 : incl (snd (halves (knd p))) shifts) by (intros x Hx; apply Wi, in_app_iff; now right).
          split; [rewrite Ec by assumption; unfold around, whole; apply flat_map_app|].
          split; intros q q' k k' Hq Hq' Eq Eq'; apply around_In in Hq as (d & s & Hs & Hd & <- & _ & Ep), Hq' as (d' & s' & Hs' & Hd' & <- & _ & Ep'); auto;
            rewrite line_at in Eq, Eq' by assumption; rewrite Ep in Eq; rewrite Ep' in Eq'; eapply (Hlp p s s'); eauto.
  Qed.
End Planar.

(** * The rounds of the CSS codes *)
Section CssSafe.
  Context (l : layout) (shifts : list (Z * Z)) (dirn : Z * Z -> string) (pt : Qc * Qc) (ps : list placed).
  Hypothesis P : planar l shifts dirn pt ps.
  Context (s0 s1 s2 s3 : Z * Z).
  Hypothesis Ps : Permutation shifts [s0; s1; s2; s3].
  Context (ord : nat -> list string -> list string).
  Hypothesis Hp : forall k s, Permutation (ord k s) s.
  Local Notation labs := (labs ps).
  Local Notation ancs := (ancs ps).
  Local Notation g := (inner l dirn ps s0 s1 s2 s3 ord).
  Lemma sh_in : In s0 shifts /\ In s1 shifts /\ In s2 shifts /\ In s3 shifts.
  Proof. repeat split; (eapply Permutation_in; [symmetry; exact Ps|]; cbn; auto). Qed.
  Lemma ord_nodup k L : NoDup L -> NoDup (ord k L).
  Proof. intros N. eapply Permutation_NoDup; [symmetry; apply Hp|exact N]. Qed.
  Lemma ord_mem k q L : mem q (ord k L) = mem q L.
  Proof. apply Bool.eq_true_iff_eq. rewrite !mem_In. split; apply Permutation_in; [apply Hp|symmetry; apply Hp]. Qed.
  Lemma rot_all b : In b ancs -> mem b (rot l dirn ps s0 s3) = true.
  Proof. intros Hb. apply mem_In. unfold rot, union. rewrite dedup_In, in_app_iff, dedup_In, in_app_iff, dedup_In. auto. Qed.
  Lemma data_not b : In b ancs -> mem b (labs KD) = false.
  Proof.
    intros Hb. apply (anc_place ps) in Hb as (p & Hi & K & <-). rewrite (mem_labs _ _ _ _ _ P) by assumption. apply not_true_iff_false. intros E. apply isk_eq in E. contradiction.
  Qed.
  Lemma rot_nd : NoDup (rot l dirn ps s0 s3). Proof. unfold rot, union. apply dedup_NoDup. Qed.
  Lemma labs_nd : NoDup (labs KD). Proof. eapply kind_nodup. exact P. Qed.
  Lemma pair_ok k s b q : k <> KD -> In s shifts -> In (b, q) (get_pairs l (labs k) (Some (dirn s))) -> In b ancs /\ ~ In q ancs.
  Proof.
    intros Hk Hs Hi. apply (pair_place l shifts dirn pt ps P) in Hi as (p & d & Hp0 & Hd & <- & <- & K & Kd & _); auto.
    split; [apply mem_In; rewrite (mem_ancs _ _ _ _ _ P) by assumption; apply isanc_spec; congruence|].
    intros H. apply mem_In in H. rewrite (mem_ancs _ _ _ _ _ P) in H by assumption. apply isanc_spec in H. contradiction.
  Qed.
  Lemma inner_hn b : In b ancs -> hn g b = 2%nat.
  Proof.
    intros Hb. unfold inner. rewrite !hn_app, !hn_cz, !hn_H, !ord_mem, rot_all, data_not; auto using ord_nodup, rot_nd, labs_nd.
  Qed.
  Lemma inner_ok : okb ancs g.
  Proof.
    destruct sh_in as (I0 & I1 & I2 & I3). unfold inner.
    assert (PL : forall kx kz b q, In kx shifts -> In kz shifts -> In (b, q) (get_pairs l (labs KX) (Some (dirn kx)) ++ get_pairs l (labs KZ) (Some (dirn kz))) -> In b ancs /\ ~ In q ancs).
    { intros kx kz b q Hx Hz H. apply in_app_iff in H as [H|H]; [apply (pair_ok KX kx)|apply (pair_ok KZ kz)]; (discriminate || assumption). }
    assert (E : forall T, T = [] \/ T <> [] -> okb ancs (map (G1 GH) T) = okb ancs (map (G1 GH) T ++ [])) by (intros; now rewrite app_nil_r).
    apply okb_H; [apply ord_nodup, rot_nd| |].
    { intros q _ Hq. rewrite !hn_app, !hn_cz, !hn_H, !ord_mem, data_not, rot_all; auto using ord_nodup, rot_nd, labs_nd. }
    apply okb_cz.
    { intros b q H. destruct (PL s0 s0 b q I0 I0 H) as [A B]. repeat (split; [assumption|]). rewrite !hn_app, !hn_cz, !hn_H, !ord_mem, data_not, rot_all; auto using ord_nodup, rot_nd, labs_nd. }
    apply okb_H; [apply labs_nd| |].
    { intros q _ Hq. rewrite !hn_app, !hn_cz, !hn_H, !ord_mem, data_not, rot_all; auto using ord_nodup, rot_nd, labs_nd. }
    apply okb_cz.
    { intros b q H. destruct (PL s1 s2 b q I1 I2 H) as [A B]. repeat (split; [assumption|]). rewrite !hn_app, !hn_cz, !hn_H, !ord_mem, data_not, rot_all; auto using ord_nodup, rot_nd, labs_nd. }
    apply okb_cz.
    { intros b q H. destruct (PL s2 s1 b q I2 I1 H) as [A B]. repeat (split; [assumption|]). rewrite !hn_app, !hn_cz, !hn_H, !ord_mem, data_not, rot_all; auto using ord_nodup, rot_nd, labs_nd. }
    apply okb_H; [apply labs_nd| |].
    { intros q _ Hq. rewrite !hn_app, !hn_cz, !hn_H, !ord_mem, rot_all; auto using ord_nodup, rot_nd, labs_nd. }
    apply okb_cz.
    { intros b q H. destruct (PL s3 s3 b q I3 I3 H) as [A B]. repeat (split; [assumption|]). rewrite !hn_H, !ord_mem, rot_all; auto using ord_nodup, rot_nd, labs_nd. }
    rewrite <- (app_nil_r (map _ _)). apply okb_H; [apply ord_nodup, rot_nd|intros; cbn; lia|exact I].
  Qed.
  Lemma inner_czs p : In p ps -> knd p <> KD ->
    czs g (pl_lab p) = around l dirn ps (knd p) (whole ([s0; s1], [s2; s3]) ([s0; s2], [s1; s3]) (knd p)) (pl_lab p).
  Proof.
    destruct sh_in as (I0 & I1 & I2 & I3). intros Hi K. unfold inner, L0, L1, L2, L3. rewrite !cz_gates_app. rewrite !czs_app, !czs_H. cbn [app].
    fold (partners l dirn ps KX s0 (pl_lab p)) (partners l dirn ps KX s1 (pl_lab p)) (partners l dirn ps KX s2 (pl_lab p)) (partners l dirn ps KX s3 (pl_lab p)).
    fold (partners l dirn ps KZ s0 (pl_lab p)) (partners l dirn ps KZ s1 (pl_lab p)) (partners l dirn ps KZ s2 (pl_lab p)) (partners l dirn ps KZ s3 (pl_lab p)).
    unfold around, whole, halves. destruct (knd p) eqn:Kp; [congruence| |]; cbn [fst snd app flat_map]; rewrite !app_nil_r, <- ?app_assoc.
    - rewrite !(partners_other l shifts dirn pt ps P KZ) by (assumption || congruence). cbn [app]. now rewrite ?app_nil_r.
    - rewrite !(partners_other l shifts dirn pt ps P KX) by (assumption || congruence). cbn [app]. now rewrite ?app_nil_r.
  Qed.
End CssSafe.

(** * Pipelined rounds *)
Section PipeSafe.
  Context (l : layout) (shifts : list (Z * Z)) (dirn : Z * Z -> string) (pt : Qc * Qc) (ps : list placed).
  Hypothesis P : planar l shifts dirn pt ps.
  Context (ox oz : list (Z * Z) * list (Z * Z)).
  Hypothesis Px : Permutation shifts (fst ox ++ snd ox).
  Hypothesis Pz : Permutation shifts (fst oz ++ snd oz).
  Context (ord : nat -> list string -> list string).
  Hypothesis Hp : forall k s, Permutation (ord k s) s.
  Local Notation labs := (labs ps).
  Local Notation ancs := (ancs ps).
  Context (rot : list string -> string -> list string -> list string).
  Local Notation rotx := (rot (labs KD) "x_type" (labs KX)).
  Local Notation rotz := (rot (labs KD) "z_type" (labs KZ)).
  Hypothesis Nrx : NoDup rotx.
  Hypothesis Nrz : NoDup rotz.
  Hypothesis Hrx : forall p, In p ps -> knd p <> KD -> mem (pl_lab p) rotx = isk KX p.
  Hypothesis Hrz : forall p, In p ps -> knd p <> KD -> mem (pl_lab p) rotz = isk KZ p.
  Local Notation g := (pinner l dirn ps (fst ox ++ snd ox) (fst oz ++ snd oz) ord rot).
  Lemma qubits_all b : In b ancs -> mem b (qubits ps) = true.
  Proof. intros Hb. apply mem_In. unfold qubits. rewrite dedup_In, in_app_iff. auto. Qed.
  Lemma qubits_nd : NoDup (qubits ps). Proof. apply dedup_NoDup. Qed.
  Lemma pinner_hn b : In b ancs -> hn g b = 2%nat.
  Proof.
    intros Hb. unfold pinner. rewrite !hn_app, !hn_cz, !hn_H, !(ord_mem ord Hp), qubits_all; auto using (ord_nodup ord Hp), qubits_nd.
    apply (anc_place ps) in Hb as (p & Hi & K & <-). rewrite Hrx, Hrz by assumption. unfold isk. destruct (knd p); (congruence || reflexivity).
  Qed.
  Lemma czp_ok k o b q : k <> KD -> incl o shifts -> In (b, q) (cz_all l dirn ps k o) -> In b ancs /\ ~ In q ancs /\ exists p, In p ps /\ knd p = k /\ pl_lab p = b.
  Proof.
    intros Hk Ho H. unfold cz_all in H. apply in_flat_map in H as (s & Hs & H).
    pose proof (pair_place l shifts dirn pt ps P k s b q Hk (Ho s Hs) H) as (p & d & Hi & _ & E & _ & K & _).
    destruct (pair_ok l shifts dirn pt ps P k s b q Hk (Ho s Hs) H) as [A B]. split; [exact A|]. split; [exact B|]. eauto.
  Qed.
  Lemma pinner_ok : okb ancs g.
  Proof.
    assert (Ix : incl (fst ox ++ snd ox) shifts) by (intros x; apply Permutation_in; now symmetry).
    assert (Iz : incl (fst oz ++ snd oz) shifts) by (intros x; apply Permutation_in; now symmetry).
    unfold pinner. apply okb_H; [apply (ord_nodup ord Hp), Nrx| |].
    { intros q H1 Hq. rewrite !hn_app, !hn_cz, !hn_H, !(ord_mem ord Hp), qubits_all; auto using (ord_nodup ord Hp), qubits_nd.
      apply (anc_place ps) in Hq as (p & Hi & K & <-). apply mem_In in H1. rewrite (ord_mem ord Hp) in H1. rewrite Hrx in H1 by assumption. rewrite Hrz by assumption.
      unfold isk in *. destruct (knd p); (congruence || (cbn; lia)). }
    apply okb_cz.
    { intros b q H. apply czp_ok in H as (A & B & p & Hi & K & <-); [|discriminate|exact Ix]. repeat (split; [assumption|]).
      rewrite !hn_app, !hn_cz, !hn_H, !(ord_mem ord Hp), qubits_all; auto using (ord_nodup ord Hp), qubits_nd. rewrite Hrz by (congruence || assumption). unfold isk. now rewrite K. }
    apply okb_H; [apply (ord_nodup ord Hp), qubits_nd| |].
    { intros q _ Hq. rewrite !hn_app, !hn_cz, !hn_H, !(ord_mem ord Hp); auto using (ord_nodup ord Hp). destruct (mem q rotz); cbn; lia. }
    apply okb_cz.
    { intros b q H. apply czp_ok in H as (A & B & p & Hi & K & <-); [|discriminate|exact Iz]. repeat (split; [assumption|]).
      rewrite !hn_H, !(ord_mem ord Hp); auto using (ord_nodup ord Hp). rewrite Hrz by (congruence || assumption). unfold isk. now rewrite K. }
    rewrite <- (app_nil_r (map _ _)). apply okb_H; [apply (ord_nodup ord Hp), Nrz|intros; cbn; lia|exact I].
  Qed.
  Lemma czs_all k o b : czs (cz_gates (cz_all l dirn ps k o)) b = around l dirn ps k o b.
  Proof. clear. unfold cz_all, around. induction o as [|s o IH]; [reflexivity|]. cbn [flat_map]. now rewrite cz_gates_app, czs_app, IH. Qed.
  Lemma around_other k o p : k <> KD -> incl o shifts -> In p ps -> knd p <> k -> around l dirn ps k o (pl_lab p) = [].
  Proof.
    intros Hk Ho Hi K. unfold around. induction o as [|s o IH]; [reflexivity|]. cbn [flat_map].
    rewrite (partners_other l shifts dirn pt ps P), IH; auto; [intros x Hx; apply Ho; now right|apply Ho; now left].
  Qed.
  Lemma pinner_czs p : In p ps -> knd p <> KD -> czs g (pl_lab p) = around l dirn ps (knd p) (whole ox oz (knd p)) (pl_lab p).
  Proof.
    assert (Ix : incl (fst ox ++ snd ox) shifts) by (intros x; apply Permutation_in; now symmetry).
    assert (Iz : incl (fst oz ++ snd oz) shifts) by (intros x; apply Permutation_in; now symmetry).
    intros Hi K. unfold pinner. rewrite !czs_app, !czs_H, !czs_all. cbn [app]. unfold whole, halves. destruct (knd p) eqn:Kp; [congruence| |].
    - rewrite (around_other KZ) by (assumption || congruence). now rewrite !app_nil_r.
    - rewrite (around_other KX) by (assumption || congruence). now rewrite !app_nil_r.
  Qed.
End PipeSafe.

(** * Every line is touched *)
Lemma par_op T S : NoDup S -> par S T = xorl (map (fun q => Nat.odd (count q T)) S).
Proof.
  intros N. unfold par. induction T as [|x T IH]; [symmetry; apply xorl_false; intros b Hb; apply in_map_iff in Hb as (q & <- & _); reflexivity|].
  cbn [map]. rewrite xorl_cons, IH.
  rewrite <- (par_single x S N). unfold par. rewrite <- xorl_two. apply xorl_ext'. intros q _. cbn [count mem existsb].
  rewrite orb_false_r. destruct (eqb q x); cbn; [rewrite Nat.odd_succ, <- Nat.negb_odd|]; now destruct (Nat.odd (count q T)).
Qed.
