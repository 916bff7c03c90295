(** The CSS rounds on the generated layouts. *)
From Coq Require Import QArith Qcanon.
From Verif Require Import Base Lib StimM SetupM NoiseM SpecNoise NoiseP LayoutM SpecLayout LayoutP LayoutP2 DetM
  GenM GenP SpecGen GeomP RotP RotP2 UnrotP BlockM SpecTrack TrackP RoundP ActP CssP.
Open Scope Z_scope.

Definition even4 (rc : Z * Z) : bool := eqb ((fst rc + snd rc) mod 4) 0.
Lemma here ps p : NoDup (map pos ps) -> In p ps -> fv ps (fun _ => true) (pos p) = true.
Proof. intros N H. now rewrite fv_at. Qed.

Section Rot.
  Context (a : gen_args) (l : layout).
  Hypothesis Hx : 1 <= ga_dx a.
  Hypothesis Hz : 2 <= ga_dz a.
  Local Notation ps := (rot_ps a).
  Hypothesis P : planar l rot_shifts rot_dirn (rot_pt a) ps.
  Lemma rot_Ns : NoDup [(1, 1); (1, -1); (-1, 1); (-1, -1)].
  Proof. repeat constructor; cbn; intuition congruence. Qed.
  Lemma rot_Ps : Permutation rot_shifts [(1, 1); (1, -1); (-1, 1); (-1, -1)].
  Proof. apply NoDup_Permutation; [apply rot_shifts_nodup|apply rot_Ns|]. intros s. unfold rot_shifts. cbn. tauto. Qed.
  Lemma rot_HR p q s : In p ps -> In q ps -> In s rot_shifts -> knd q = KD -> pos q = padd (pos p) s ->
    (knd p = KX -> even4 (pos q) = onR (1, 1) (-1, -1) s) /\ (knd p = KZ -> even4 (pos q) = negb (onR (1, 1) (-1, -1) s)).
  Proof.
    intros Hp Hq Hs K E. apply ps_kpos in Hp. rewrite E. unfold even4, padd. cbn [fst snd].
    assert (O : forall k, (fst (pos p) + snd (pos p)) mod 4 = k -> fst (pos p) mod 2 = 0 -> k = 2 \/ k = 0 ->
      eqb ((fst (pos p) + fst s + (snd (pos p) + snd s)) mod 4) 0 = if eqb k 2 then onR (1, 1) (-1, -1) s else negb (onR (1, 1) (-1, -1) s)).
    { intros k Ek Er Hk. revert Ek Er. generalize (fst (pos p)) as r, (snd (pos p)) as c. intros r c Ek Er.
      destruct Hs as [<-|[<-|[<-|[<-|[]]]]]; cbn [fst snd]; destruct Hk as [->| ->];
        match goal with |- eqb ?x 0 = ?b => let b' := eval vm_compute in b in change b with b' end;
        (apply eqb_eq; lia) || (apply eqb_neq; lia). }
    split; intros Kp; rewrite Kp in Hp; cbn [kpos] in Hp; unfold xpos, zpos in Hp; destruct Hp as (E1 & E2 & _).
    - exact (O 2 E2 E1 (or_introl eq_refl)).
    - exact (O 0 E2 E1 (or_intror eq_refl)).
  Qed.
  Lemma rot_HR3 q : In q ps -> knd q = KD -> even4 (pos q) = true ->
    exists p, In p ps /\ knd p = KX /\ (pos q = padd (pos p) (1, 1) \/ pos q = padd (pos p) (-1, -1)).
  Proof.
    intros Hq K R. apply ps_kpos in Hq. rewrite K in Hq. cbn [kpos] in Hq. unfold dpos in Hq. unfold even4 in R. apply eqb_true in R.
    destruct (pos q) as [r c]. cbn [fst snd] in *. destruct (Z.eq_dec c 1) as [->|N].
    - destruct (kpos_ps a KX (r + 1, 2)) as (p & Hp & Kp & E).
      { cbn [kpos]. unfold xpos. cbn [fst snd]. lia. }
      exists p. split; [exact Hp|]. split; [exact Kp|]. right. rewrite E. unfold padd. cbn [fst snd]. f_equal; lia.
    - destruct (kpos_ps a KX (r - 1, c - 1)) as (p & Hp & Kp & E).
      { cbn [kpos]. unfold xpos. cbn [fst snd]. lia. }
      exists p. split; [exact Hp|]. split; [exact Kp|]. left. rewrite E. unfold padd. cbn [fst snd]. f_equal; lia.
  Qed.
  Lemma rot_HG p q s : In p ps -> In q ps -> knd p <> KD -> knd q <> KD -> knd p <> knd q -> s = (1, -1) \/ s = (-1, 1) ->
    padd (pos q) (-1, -1) = padd (pos p) s ->
    fv ps (fun _ => true) (padd (pos p) s) = true /\ fv ps (fun _ => true) (padd (pos p) (1, 1)) = true.
  Proof.
    intros Hp Hq Kp Kq Kn Hs E. pose proof (pn_npos _ _ _ _ _ P) as N.
    apply ps_kpos in Hp, Hq.
    assert (G : forall rc, dpos (ga_dx a) (ga_dz a) rc -> fv ps (fun _ => true) rc = true).
    { intros rc D. destruct (kpos_ps a KD rc D) as (d & Hd & _ & <-). now apply here. }
    destruct (pos p) as [r c], (pos q) as [r' c']. unfold padd in E. cbn [fst snd] in E.
    split; apply G; unfold dpos, padd; cbn [fst snd];
      destruct Hs as [->| ->]; cbn [fst snd] in *; injection E as E1 E2;
      (destruct (knd p), (knd q); try congruence; cbn [kpos] in Hp, Hq; unfold xpos, zpos in Hp, Hq; cbn [fst snd] in Hp, Hq; lia).
  Qed.
End Rot.

Section Unrot.
  Context (a : gen_args) (l : layout).
  Hypothesis Hx : 1 <= ga_dx a.
  Hypothesis Hz : 2 <= ga_dz a.
  Local Notation ps := (unrot_ps a).
  Hypothesis P : planar l unrot_shifts unrot_dirn (ga_pt a) ps.
  Definition evenr (rc : Z * Z) : bool := eqb (fst rc mod 2) 0.
  Lemma unrot_Ns : NoDup [(0, 1); (-1, 0); (1, 0); (0, -1)].
  Proof. repeat constructor; cbn; intuition congruence. Qed.
  Lemma unrot_Ps : Permutation unrot_shifts [(0, 1); (-1, 0); (1, 0); (0, -1)].
  Proof. apply NoDup_Permutation; [repeat constructor; cbn; intuition congruence|apply unrot_Ns|]. intros s. unfold unrot_shifts. cbn. tauto. Qed.
  Lemma unrot_HR p q s : In p ps -> In q ps -> In s unrot_shifts -> knd q = KD -> pos q = padd (pos p) s ->
    (knd p = KX -> evenr (pos q) = onR (0, 1) (0, -1) s) /\ (knd p = KZ -> evenr (pos q) = negb (onR (0, 1) (0, -1) s)).
  Proof.
    intros Hp Hq Hs K E. apply ups_pos in Hp as [_ Hp]. rewrite E. unfold evenr, padd. cbn [fst snd].
    pose proof (ukind_spec (pos p)) as S. split; intros Kp; rewrite Kp in Hp; rewrite <- Hp in S; destruct S as [E1 _];
      (destruct Hs as [<-|[<-|[<-|[<-|[]]]]]; cbn [fst snd];
        match goal with |- eqb ?x 0 = ?b => let b' := eval vm_compute in b in change b with b' end;
        (apply eqb_eq; lia) || (apply eqb_neq; lia)).
  Qed.
  Lemma unrot_HR3 q : In q ps -> knd q = KD -> evenr (pos q) = true ->
    exists p, In p ps /\ knd p = KX /\ (pos q = padd (pos p) (0, 1) \/ pos q = padd (pos p) (0, -1)).
  Proof.
    intros Hq K R. apply ups_pos in Hq as [Hq Kq]. rewrite K in Kq. pose proof (ukind_spec (pos q)) as S. rewrite <- Kq in S.
    unfold evenr in R. apply eqb_true in R. unfold uin in Hq. destruct (pos q) as [r c]. cbn [fst snd] in *. destruct (Z.eq_dec c 0) as [->|N].
    - destruct (pos_ups a (r, 1)) as (p & Hp & Kp & E); [unfold uin; cbn [fst snd]; lia|].
      exists p. split; [exact Hp|]. split; [rewrite Kp; apply ukind_X; cbn [fst snd]; lia|]. right. rewrite E. unfold padd. cbn [fst snd]. f_equal; lia.
    - destruct (pos_ups a (r, c - 1)) as (p & Hp & Kp & E); [unfold uin; cbn [fst snd]; lia|].
      exists p. split; [exact Hp|]. split; [rewrite Kp; apply ukind_X; cbn [fst snd]; lia|]. left. rewrite E. unfold padd. cbn [fst snd]. f_equal; lia.
  Qed.
  Lemma unrot_HG p q s : In p ps -> In q ps -> knd p <> KD -> knd q <> KD -> knd p <> knd q -> s = (-1, 0) \/ s = (1, 0) ->
    padd (pos q) (0, -1) = padd (pos p) s ->
    fv ps (fun _ => true) (padd (pos p) s) = true /\ fv ps (fun _ => true) (padd (pos p) (0, 1)) = true.
  Proof.
    intros Hp Hq Kp Kq Kn Hs E. pose proof (pn_npos _ _ _ _ _ P) as N.
    apply ups_pos in Hp as [Hp _], Hq as [Hq _]. unfold uin in Hp, Hq.
    assert (G : forall rc, uin (ga_dx a) (ga_dz a) rc -> fv ps (fun _ => true) rc = true).
    { intros rc D. destruct (pos_ups a rc D) as (d & Hd & _ & <-). now apply here. }
    destruct (pos p) as [r c], (pos q) as [r' c']. unfold padd in E. cbn [fst snd] in *.
    split; apply G; unfold uin, padd; cbn [fst snd]; destruct Hs as [->| ->]; cbn [fst snd] in *; injection E as E1 E2; lia.
  Qed.
End Unrot.
