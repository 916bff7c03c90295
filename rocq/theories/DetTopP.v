(** The statements of C04-C12 for reachable states and whole histories. *)
From Coq Require Import QArith Qcanon.
From Verif Require Import Base Lib StimM MatM MatP DetM SpecDet DetP DetCountP DetLinP DetDetP DetHistP DetPairP.
Open Scope Z_scope.

Lemma reachable_wf d : reachable d -> wf_det d.
Proof.
  intros (ls & f & cs & d0 & h & Hi & H). destruct (det_init_wf _ _ _ _ Hi) as [Hw _]. eapply dreach_wf; eauto.
Qed.
Lemma dhist_reachable ls f cs d0 h d out : det_init ls f cs = Ok d0 -> dhist d0 h d out -> reachable d.
Proof. intros Hi H. exists ls, f, cs, d0, h. split; auto. eapply dhist_reach; eauto. Qed.

Fixpoint run (l : list dop) (d : detectors) : option (detectors * list circuit) :=
  match l with
  | [] => Some (d, [])
  | o :: l => match call o d with
              | (d1, Ok c) => match run l d1 with Some (d2, cs) => Some (d2, c :: cs) | None => None end
              | _ => None
              end
  end.
Lemma run_dhist l : forall d d' cs, run l d = Some (d', cs) -> dhist d l d' cs.
Proof.
  induction l as [|o l IH]; simpl; intros d d' cs H; [injection H as <- <-; constructor|].
  destruct (call o d) as [d1 [c|e]] eqn:E; [|discriminate]. destruct (run l d1) as [[d2 cs']|] eqn:E'; [|discriminate].
  injection H as <- <-. econstructor; eauto.
Qed.

Lemma C04_anc ls f cs d0 h1 h2 d out g reset req d' c :
  det_init ls f cs = Ok d0 -> up_to_new h1 -> none is_new h2 -> dhist d0 (h1 ++ h2) d out ->
  build_from_anc g reset req d = (d', Ok c) ->
  exists l, Permutation l ls /\
    Forall2 (fun a i => det_of d0 a (zq (n_rounds h2)) i /\
      (~ (wanted req a /\ dget a (active d) = Some true) -> tg i = [])) l c.
Proof.
  intros Hi Hu Hn H Hb. destruct (det_init_wf _ _ _ _ Hi) as [Hw El]. destruct (dhist_wf _ _ _ _ H Hw) as [Hw' (S1 & S2 & S3)].
  rewrite <- (C09_total_lemma _ _ _ _ _ _ _ _ Hi Hu Hn H).
  destruct (C04_anc_lemma _ _ _ _ _ _ Hw' Hb) as (l & P & F). exists l. split; [congruence|].
  eapply Forall2_impl'; [|exact F]. intros a i [(xs & A & B) C]. split; auto. exists xs. rewrite <- S3. auto.
Qed.
Lemma C04_data ls f cs d0 h1 h2 d out g sup reset recon req d' c :
  det_init ls f cs = Ok d0 -> up_to_new h1 -> none is_new h2 -> dhist d0 (h1 ++ h2) d out ->
  build_from_data g sup reset recon req d = (d', Ok c) ->
  exists l, Permutation l (filter (fun a => mem a recon) ls) /\
    Forall2 (fun a i => det_of d0 a (zq (n_rounds h2) - Q2Qc (1#2))%Qc i /\
      (~ (wanted req a /\ dget a (active d) = Some true) -> tg i = [])) l c.
Proof.
  intros Hi Hu Hn H Hb. destruct (det_init_wf _ _ _ _ Hi) as [Hw El]. destruct (dhist_wf _ _ _ _ H Hw) as [Hw' (S1 & S2 & S3)].
  rewrite <- (C09_total_lemma _ _ _ _ _ _ _ _ Hi Hu Hn H).
  destruct (C04_data_lemma _ _ _ _ _ _ _ _ Hw' Hb) as (l & P & F). exists l. split; [congruence|].
  eapply Forall2_impl'; [|exact F]. intros a i [(xs & A & B) C]. split; auto. exists xs. rewrite <- S3. auto.
Qed.
Lemma C08_step o d d' c : reachable d -> both_invertible d -> tidy d o -> call o d = (d', Ok c) -> both_invertible d'.
Proof.
  intros Hr Hb Ht H. apply reachable_wf in Hr. destruct (is_deact o) eqn:E.
  - destruct o; simpl in E; try discriminate. destruct Ht. eapply C08_deact_lemma; eauto.
  - eapply call_invertible; eauto.
Qed.
Lemma C08_nolin o d : reachable d -> both_invertible d -> rec_nolin o -> snd (call o d) <> Err LinAlgError.
Proof. intros Hr. apply call_nolin. now apply reachable_wf. Qed.
Lemma C05_general ls f cs d0 d1 d2 h gap last out1 out2 g reset req d3 c outcome o v1 v2 :
  det_init ls f cs = Ok d0 -> dhist d0 (h ++ [last]) d1 out1 -> is_build last = true ->
  dhist d1 gap d2 out2 -> Forall (fun o => gap_op o = true) gap ->
  dfr d0 <> GateIndep -> invertible ls (curr_gen d1) -> clean d2 -> involution ls (gap_map gap) ->
  build_from_anc g reset req d2 = (d3, Ok c) -> reads g outcome o ->
  (forall a, In a ls -> v1 a = gap_map gap v2 a) ->
  Forall2 (fun a i => forall n, dget a (num_rounds d3) = Some n -> noiseless reset n ls o v1 v2 ->
    (2 <= n -> parity outcome i = false) /\
    (n = 1 -> (forall b, In b ls -> v2 b = false) -> parity outcome i = false)) (dkeys (curr_gen d2)) c.
Proof.
  intros Hi H1 Hl H2 Hg Hf Hinv Hc Hv Hb Hr Hrel.
  destruct (hist_start _ _ _ _ _ _ _ _ Hi H1 Hl) as (Hw1 & El & Hs & Ef). rewrite <- El in *.
  eapply (C05_lemma d1 d2 gap out2 Hw1 Hs Hinv Hg H2 Hv); eauto. congruence.
Qed.
Lemma C06_general ls f cs d0 d1 d2 h gap last out1 out2 g sup reset recon req d3 c outcome o v1 v2 :
  det_init ls f cs = Ok d0 -> dhist d0 (h ++ [last]) d1 out1 -> is_build last = true ->
  dhist d1 gap d2 out2 -> Forall (fun o => gap_op o = true) gap ->
  dfr d0 <> GateIndep -> invertible ls (curr_gen d1) -> clean_data d2 -> involution ls (gap_map gap) ->
  build_from_data g sup reset recon req d2 = (d3, Ok c) -> reads g outcome o ->
  (forall a, In a ls -> v1 a = gap_map gap v2 a) -> reconstructs sup o recon v1 ->
  Forall2 (fun a i => forall n, dget a (num_rounds d2) = Some n -> noiseless_prev reset n ls o v2 -> 0 <= n ->
    (n = 0 -> forall b, In b ls -> v2 b = false) -> parity outcome i = false)
    (filter (fun a => mem a recon) (dkeys (curr_gen d2))) c.
Proof.
  intros Hi H1 Hl H2 Hg Hf Hinv Hc Hv Hb Hr Hrel Hrec.
  destruct (hist_start _ _ _ _ _ _ _ _ Hi H1 Hl) as (Hw1 & El & Hs & Ef). rewrite <- El in *.
  eapply (C06_lemma d1 d2 gap out2 Hw1 Hs Hinv Hg H2 Hv); eauto. congruence.
Qed.
Lemma C12_hist ls cs d0 h d out : det_init ls "gate-independent" cs = Ok d0 -> dhist d0 h d out ->
  exists d', dhist d0 (filter (fun o => negb (is_update o)) h) d'
     (map snd (filter (fun oc => negb (is_update (fst oc))) (combine h out))).
Proof.
  intros Hi H. destruct (det_init_wf _ _ _ _ Hi) as [Hw El].
  assert (Hf : dfr d0 = GateIndep).
  { unfold det_init in Hi. simpl in Hi. repeat match goal with H : (if ?b then _ else _) = _ |- _ => destruct b; try discriminate end.
    injection Hi as <-. reflexivity. }
  destruct (C12_lemma h d0 d0 d out Hf Hw Hw) as (d' & H' & _); auto. 2: eauto. repeat split; auto.
Qed.
Lemma remove_pairs_even {A} `{Eqb A} (x : A) l : Nat.even (count x l) = true <-> ~ In x (remove_pairs l).
Proof.
  rewrite <- Nat.negb_odd, negb_true_iff. rewrite <- (count_In x (remove_pairs l)), remove_pairs_count.
  destruct (Nat.odd (count x l)) eqn:E; split; intros H0; auto; try discriminate; try lia.
  exfalso. apply H0. destruct (count x l); [discriminate|lia].
Qed.
Lemma hist_clean ls f cs d0 h d out p :
  det_init ls f cs = Ok d0 -> dhist d0 h d out -> none is_deact h -> pairing ls p -> Forall (pair_gate p) h ->
  clean d /\ clean_data d.
Proof.
  intros Hi H Hn Hp Hg. destruct (det_init_wf _ _ _ _ Hi) as [Hw El]. destruct (dhist_wf _ _ _ _ H Hw) as [Hw' (S1 & _)].
  apply (paired_clean p); auto; [rewrite S1, El; auto| |].
  - exact (C08_lemma _ _ _ _ _ _ Hi (dhist_reach _ _ _ _ H) Hn).
  - apply (hist_paired p h d0 d out H); auto; [rewrite El; auto|].
    apply det_init_ok in Hi as [Hnd (d' & -> & E)]. split; simpl; rewrite E; apply identity_paired; auto.
Qed.
