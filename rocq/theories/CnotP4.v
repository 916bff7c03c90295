(** The detectors between two layouts joined by transversal CNOTs: generators are exchanged
    or multiplied only between a stabilizer and its partner in the other layout. *)
From Coq Require Import QArith Qcanon.
From Verif Require Import Base Lib StimM SetupM NoiseM SpecNoise NoiseP LayoutM SpecLayout LayoutP MatM MatP DetM SpecDet DetP DetCountP DetLinP DetDetP
  SpecGen GeomP BlockM LogM SpecLog ExpM SpecTrack SpecExp TrackP LiftP ExpDetP ExpP ExpP2 ExpP3 ExpP4 ActP RoundP RepP RepP2 RepP3 RepP5 LogP4.
Open Scope Z_scope.

Section Fam.
  Context (ls : list string) (mate : string -> string).
  Hypothesis N : NoDup ls.
  Hypothesis Hm : forall a, In a ls -> In (mate a) ls /\ mate (mate a) = a.
  Definition mmul (A B : string -> string -> bool) : string -> string -> bool := fun a x => xorl (map (fun b => A a b && B b x) ls).
  (* the generators in [s] are multiplied by their partners *)
  Definition shear (s : string -> bool) : string -> string -> bool := fun a x => eqb a x || (s a && eqb (mate a) x).
  Definition oks (s : string -> bool) : Prop := forall a, In a ls -> s a = true -> mate a <> a /\ s (mate a) = false.
  (* every generator is a nontrivial product of itself and its partner, and the two differ *)
  Record fam (A : string -> string -> bool) : Prop := {
    fm_in : forall a x, In a ls -> In x ls -> A a x = true -> x = a \/ x = mate a;
    fm_row : forall a, In a ls -> A a a = true \/ A a (mate a) = true;
    fm_two : forall a, In a ls -> mate a <> a -> A a a <> A (mate a) a \/ A a (mate a) <> A (mate a) (mate a) }.
  Lemma shear_xor s a x : oks s -> In a ls -> shear s a x = xorb (eqb a x) (s a && eqb (mate a) x).
  Proof.
    intros O Ha. unfold shear. destruct (s a) eqn:E; cbn [andb]; [|now rewrite orb_false_r, xorb_false_r]. destruct (O a Ha E) as [Ne _].
    destruct (eqb_spec a x) as [Ea|], (eqb_spec (mate a) x) as [Em|]; try reflexivity. congruence.
  Qed.
  Lemma mmul_shear s A a x : oks s -> In a ls -> mmul (shear s) A a x = xorb (A a x) (s a && A (mate a) x).
  Proof.
    intros O Ha. destruct (Hm a Ha) as [Hi _]. unfold mmul.
    rewrite (DetP.xorl_ext _ (fun b => xorb (eqb a b && A b x) (s a && (eqb (mate a) b && A b x)))).
    2:{ intros b _. rewrite shear_xor by assumption. destruct (eqb a b), (s a), (eqb (mate a) b), (A b x); reflexivity. }
    rewrite RoundP.xorl_map_xorb, <- RoundP.xorl_and, !xorl_pick by assumption. reflexivity.
  Qed.
  Lemma mmul_two s A a x : oks s -> In a ls -> mmul (shear s) (mmul (shear s) A) a x = A a x.
  Proof.
    intros O Ha. destruct (Hm a Ha) as [Hi Hb]. rewrite !mmul_shear, Hb by assumption. destruct (s a) eqn:E; cbn [andb]; [|now rewrite !xorb_false_r].
    destruct (O a Ha E) as [_ ->]. destruct (A a x), (A (mate a) x); reflexivity.
  Qed.
  Lemma shear_two s a x : oks s -> In a ls -> mmul (shear s) (shear s) a x = eqb a x.
  Proof.
    intros O Ha. destruct (Hm a Ha) as [Hi Hb]. rewrite mmul_shear, !shear_xor, Hb by assumption. destruct (s a) eqn:E; cbn [andb]; [|now rewrite !xorb_false_r].
    destruct (O a Ha E) as [_ ->]. destruct (eqb a x), (eqb (mate a) x); reflexivity.
  Qed.
  Lemma fam_shear s A : oks s -> fam A -> fam (mmul (shear s) A).
  Proof.
    intros O F. constructor.
    - intros a x Ha Hx. destruct (Hm a Ha) as [Hi Hb]. rewrite mmul_shear by assumption. intros E. destruct (A a x) eqn:E1; [now apply (fm_in A F a x)|].
      rewrite xorb_false_l in E. apply andb_prop in E as [_ E]. apply (fm_in A F (mate a) x) in E as [->| ->]; auto.
    - intros a Ha. destruct (Hm a Ha) as [Hi Hb]. rewrite !mmul_shear by assumption. destruct (s a) eqn:E; cbn [andb].
      + destruct (O a Ha E) as [Ne _]. pose proof (fm_two A F a Ha Ne) as T. destruct (A a a), (A (mate a) a), (A a (mate a)), (A (mate a) (mate a)); cbn in *; tauto.
      + rewrite !xorb_false_r. now apply F.
    - intros a Ha Ne. destruct (Hm a Ha) as [Hi Hb]. rewrite !mmul_shear, Hb by assumption.
      pose proof (fm_two A F a Ha Ne) as T. pose proof (fm_row A F a Ha) as R1. pose proof (fm_row A F (mate a) Hi) as R2. rewrite Hb in R2.
      assert (K : s a = true -> s (mate a) = false) by (intros E; now apply O).
      destruct (s a), (s (mate a)); cbn [andb]; try (specialize (K eq_refl); discriminate K);
        destruct (A a a), (A (mate a) a), (A a (mate a)), (A (mate a) (mate a)); cbn in *; clear K; intuition congruence.
  Qed.
  Lemma fam_eye : fam eqb.
  Proof.
    constructor.
    - intros a x _ _ E. left. destruct (eqb_spec a x); [auto|discriminate].
    - intros a _. left. apply eqb_refl.
    - intros a _ Ne. left. rewrite eqb_refl, (proj2 (eqb_neq (mate a) a) Ne). discriminate.
  Qed.
  (* over the rationals *)
  Definition coef (u1 u2 v1 v2 : bool) : Qc := if v1 && v2 then (if u1 && u2 then 1 else -(1))%Qc else 1%Qc.
  Definition ratm (s : string -> bool) (A : string -> string -> bool) (a k : string) : Qc :=
    (if s a then
      let m := mate a in
      coef (A a a) (A a m) (A m a) (A m m) * q_of_bool (eqb a k) + coef (A m a) (A m m) (A a a) (A a m) * q_of_bool (eqb m k)
    else q_of_bool (eqb a k))%Qc.
  Lemma ratm_ok s A : oks s -> fam A -> (forall a x, In a ls -> In x ls -> qsum (map (fun k => ratm s A a k * q_of_bool (A k x))%Qc ls) = q_of_bool (mmul (shear s) A a x)) /\
    forall a k, In a ls -> In k ls -> nz (ratm s A a k) = shear s a k.
  Proof.
    intros O F. split.
    - intros a x Ha Hx. destruct (Hm a Ha) as [Hi Hb]. rewrite mmul_shear by assumption. unfold ratm. cbv zeta. destruct (s a) eqn:E; cbn [andb].
      + destruct (O a Ha E) as [Ne _].
        set (c1 := coef (A a a) (A a (mate a)) (A (mate a) a) (A (mate a) (mate a))). set (c2 := coef (A (mate a) a) (A (mate a) (mate a)) (A a a) (A a (mate a))).
        rewrite (qsum_ext _ (fun k => q_of_bool (eqb a k) * (c1 * q_of_bool (A k x)) - q_of_bool (eqb (mate a) k) * (- c2 * q_of_bool (A k x)))%Qc) by (intros k _; ring).
        rewrite qsum_sub, (qsum_eye ls a (fun k => c1 * q_of_bool (A k x))%Qc), (qsum_eye ls (mate a) (fun k => - c2 * q_of_bool (A k x))%Qc) by assumption.
        pose proof (fm_two A F a Ha Ne) as T. pose proof (fm_row A F a Ha) as R1. pose proof (fm_row A F (mate a) Hi) as R2. rewrite Hb in R2.
        pose proof (fm_in A F a x Ha Hx) as I1. pose proof (fm_in A F (mate a) x Hi Hx) as I2. rewrite Hb in I2.
        assert (X : (x = a \/ x = mate a) \/ A a x = false /\ A (mate a) x = false).
        { destruct (A a x); [left; auto|]. destruct (A (mate a) x); [left; destruct I2; auto|now right]. }
        clear I1 I2. destruct X as [[->| ->]|[-> ->]].
        * unfold c1, c2. destruct (A a a), (A (mate a) a), (A a (mate a)), (A (mate a) (mate a)); cbn in *; try ring; exfalso; intuition congruence.
        * unfold c1, c2. destruct (A a a), (A (mate a) a), (A a (mate a)), (A (mate a) (mate a)); cbn in *; try ring; exfalso; intuition congruence.
        * cbn. ring.
      + rewrite xorb_false_r. now apply (qsum_eye ls a (fun k => q_of_bool (A k x))).
    - intros a k Ha _. unfold ratm, shear. cbv zeta. destruct (s a) eqn:E; cbn [andb]; [|now rewrite orb_false_r, nz_bool].
      destruct (O a Ha E) as [Ne _].
      destruct (eqb_spec a k) as [<-|Nk].
      + rewrite (proj2 (eqb_neq (mate a) a) Ne). unfold coef. destruct (_ && _), (_ && _); reflexivity.
      + destruct (eqb_spec (mate a) k) as [<-|]; unfold coef; destruct (_ && _), (_ && _); reflexivity.
  Qed.
  Lemma fam_linked s A prev curr : oks s -> fam A -> isgen ls prev A -> isgen ls curr (mmul (shear s) A) -> linked ls prev curr (shear s).
  Proof.
    intros O F Hp Hc. split.
    - destruct (ratm_ok s _ O (fam_shear s A O F)) as [R1 R2]. exists (ratm s (mmul (shear s) A)). split; [|exact R2].
      eapply isgen_basis; [exact Hc| |exact R1]. eapply isgen_ext; [|exact Hp]. intros a x Ha _. symmetry. now apply mmul_two.
    - destruct (ratm_ok s _ O F) as [R1 R2]. exists (ratm s A). split; [|exact R2]. eapply isgen_basis; [exact Hp|exact Hc|exact R1].
  Qed.
  (* composition *)
  Definition next (s t s' : string -> bool) : Prop := oks s /\ oks t /\ oks s' /\ forall a, In a ls -> s' a = xorb (t a) (s a) /\ t a && s (mate a) = false.
  Lemma next_mul s t s' A a x : next s t s' -> In a ls -> mmul (shear t) (mmul (shear s) A) a x = mmul (shear s') A a x.
  Proof.
    intros (O1 & O2 & O3 & E) Ha. destruct (Hm a Ha) as [Hi Hb]. destruct (E a Ha) as [E1 E2]. rewrite !mmul_shear, Hb, E1 by assumption.
    destruct (t a), (s a), (s (mate a)), (A a x), (A (mate a) x); cbn in *; try reflexivity; discriminate E2.
  Qed.
  Lemma next_shear s t s' a x : next s t s' -> In a ls -> mmul (shear t) (shear s) a x = shear s' a x.
  Proof.
    intros (O1 & O2 & O3 & E) Ha. destruct (Hm a Ha) as [Hi Hb]. destruct (E a Ha) as [E1 E2]. rewrite !mmul_shear, !shear_xor, Hb, E1 by assumption.
    destruct (t a), (s a), (s (mate a)), (eqb a x), (eqb (mate a) x); cbn in *; try reflexivity; discriminate E2.
  Qed.
  Lemma next_first t : oks t -> next (fun _ => false) t t.
  Proof. intros O. split; [intros a _ E; discriminate|]. split; [exact O|]. split; [exact O|]. intros a _. now rewrite xorb_false_r, andb_false_r. Qed.
  Lemma next_again t : oks t -> next t t (fun _ => false).
  Proof.
    intros O. split; [exact O|]. split; [exact O|]. split; [intros a _ E; discriminate|]. intros a Ha. rewrite xorb_nilpotent. split; [reflexivity|].
    destruct (t a) eqn:E; [|reflexivity]. now apply O.
  Qed.
  Lemma oks_none : oks (fun _ => false).
  Proof. intros a _ E. discriminate. Qed.
End Fam.

(** * The detectors *)
Record dst3 (d0 : detectors) (ancs : list string) (mate : string -> string) (n : nat) (s : string -> bool) (d : detectors) : Prop := {
  d3_wf : wf_det d;
  d3_same : same d0 d;
  d3_gens : exists A, fam (labels d0) mate A /\ isgen (labels d) (prev_gen d) A /\ isgen (labels d) (curr_gen d) (mmul (labels d0) (shear mate s) A);
  d3_act : forall a, dget a (active d) = Some true <-> In a ancs;
  d3_num : forall a, In a ancs -> dget a (num_rounds d) = Some (Z.of_nat n);
  d3_total : total d = Z.of_nat n;
  d3_nodup : NoDup ancs;
  d3_known : incl ancs (labels d) }.
Section Dst.
  Context (d0 : detectors) (ancs : list string) (mate : string -> string).
  Hypothesis N : NoDup (labels d0).
  Hypothesis Hm : forall a, In a (labels d0) -> In (mate a) (labels d0) /\ mate (mate a) = a.
  Lemma dst3_of D d : dst2 d0 ancs D 0 0 d -> isgen (labels d) (prev_gen d) eqb -> isgen (labels d) (curr_gen d) eqb -> dst3 d0 ancs mate 0 (fun _ => false) d.
  Proof using N Hm.
    clear -N Hm. intros [W S _ A Nu T Nd K] G1 G2. constructor; auto. exists eqb. split; [apply fam_eye|]. split; [exact G1|].
    eapply isgen_ext; [|exact G2]. intros a x Ha Hx. rewrite (proj1 S) in Ha. rewrite mmul_shear; auto; [now rewrite xorb_false_r|apply oks_none].
  Qed.
  Lemma dst3_linked n s d : oks (labels d0) mate s -> dst3 d0 ancs mate n s d -> linked (labels d) (prev_gen d) (curr_gen d) (shear mate s).
  Proof using N Hm.
    clear -N Hm. intros O [W S (A & F & G1 & G2) _ _ _ _ _]. rewrite (proj1 S) in *. eapply fam_linked; eauto.
  Qed.
  Lemma dst3_gate n s t s' d d' nd : next (labels d0) mate s t s' -> (forall a x, In a (labels d0) -> In x (labels d0) -> dmat nd a x = shear mate t a x) ->
    dst3 d0 ancs mate n s d -> update_from_dict nd d = (d', Ok tt) -> dst3 d0 ancs mate n s' d'.
  Proof using N Hm.
    clear -N Hm. intros Nx HD [W S (A & F & G1 & G2) Ac Nu T Nd K] H. pose proof (keeps_update_from_dict _ _ _ _ H W) as [W' S'].
    pose proof (update_from_dict_ok _ _ _ H) as Kn. destruct (C11_ok_lemma _ _ _ W Kn H) as (Ep & Ea & En & Et & _).
    pose proof (proj1 S) as EL. pose proof (proj1 S') as EL'.
    constructor; auto.
    - eapply same_trans; eauto.
    - exists A. split; [exact F|]. rewrite Ep, EL'. split; [exact G1|]. eapply isgen_ext; [|eapply isgen_update; [exact W|exact H|exact G2]].
      intros a x Ha Hx. rewrite EL in *. rewrite <- (next_mul (labels d0) mate N Hm s t s' A a x Nx Ha). unfold mmul at 2. apply DetP.xorl_ext. intros b Hb. now rewrite HD.
    - now rewrite Ea.
    - now rewrite En.
    - now rewrite Et.
    - now rewrite EL'.
  Qed.
  Lemma dst3_round n s d d' g reset req c : oks (labels d0) mate s -> dfr d0 <> GateIndep ->
    dst3 d0 ancs mate n s d -> build_from_anc g reset req d = (d', Ok c) -> dst3 d0 ancs mate (S n) (fun _ => false) d'.
  Proof using N Hm.
    clear -N Hm. intros O Fr X H. pose proof (dst3_linked _ _ _ O X) as Lk. destruct X as [W S0 (A & F & G1 & G2) Ac Nu T Nd K].
    pose proof (keeps_build_from_anc _ _ _ _ _ _ H W) as [W' S'].
    destruct (anc_content2 _ _ _ _ _ _ _ W Lk ltac:(rewrite (proj1 (proj2 S0)); exact Fr) H) as [(nr & E & ->) _]. constructor; auto.
    - exists (mmul (labels d0) (shear mate s) A). split; [now apply fam_shear|]. cbn [set_gens set_rounds prev_gen curr_gen labels]. split; [exact G2|].
      eapply isgen_ext; [|exact G2]. intros a x Ha Hx. rewrite (proj1 S0) in Ha. rewrite (mmul_shear (labels d0) mate N Hm (fun _ => false)); auto; [now rewrite xorb_false_r|apply oks_none].
    - intros a Ha. cbn [set_gens set_rounds num_rounds]. rewrite (DetDetP.next_rounds_get d nr a (Z.of_nat n) true W E); auto; [f_equal; lia|]. now apply Ac.
    - cbn [set_gens set_rounds total]. lia.
  Qed.
End Dst.
