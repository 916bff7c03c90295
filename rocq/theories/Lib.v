(** General lemmas (no property, nothing specific to surface-sim). *)
From Verif Require Import Base.

Lemma Forall2_impl' {A B} (P Q : A -> B -> Prop) l r :
  (forall x y, P x y -> Q x y) -> Forall2 P l r -> Forall2 Q l r.
Proof. intros H; induction 1; constructor; auto. Qed.

Lemma bind_ok {A B} (x : res A) (f : A -> res B) b :
  bind x f = Ok b -> exists a, x = Ok a /\ f a = Ok b.
Proof. destruct x as [a|e]; simpl; [eauto|discriminate]. Qed.
Lemma sbind_ok {S A B} (x : ST S A) (f : A -> ST S B) s s' b :
  sbind x f s = (s', Ok b) -> exists s1 a, x s = (s1, Ok a) /\ f a s1 = (s', Ok b).
Proof.
  unfold sbind. destruct (x s) as [s1 [a|e]]; [eauto|discriminate].
Qed.
Lemma sread_ok {S A} (f : S -> res A) s s' a : sread f s = (s', Ok a) -> s' = s /\ f s = Ok a.
Proof. unfold sread. intros [= -> ->]; auto. Qed.
Lemma sret_ok {S A} (a b : A) (s s' : S) : sret a s = (s', Ok b) -> s' = s /\ a = b.
Proof. unfold sret. intros [= -> ->]; auto. Qed.

Lemma mapM_Forall2 {A B} (f : A -> res B) l r : mapM f l = Ok r -> Forall2 (fun x y => f x = Ok y) l r.
Proof.
  revert r; induction l as [|x l IH]; simpl; intros r H.
  - injection H as <-. constructor.
  - apply bind_ok in H as [y [E H]]. apply bind_ok in H as [ys [E' H]]. injection H as <-.
    constructor; auto.
Qed.
Lemma Forall2_mapM {A B} (f : A -> res B) l r : Forall2 (fun x y => f x = Ok y) l r -> mapM f l = Ok r.
Proof. induction 1 as [|x y l r H H' IH]; simpl; [reflexivity|]. rewrite H; simpl. now rewrite IH. Qed.

Lemma count_app {A} `{Eqb A} (x : A) l l' : count x (l ++ l') = (count x l + count x l')%nat.
Proof. induction l as [|y l IH]; simpl; [reflexivity|]. rewrite IH; lia. Qed.
Lemma Forall2_len {A B} (P : A -> B -> Prop) l r : Forall2 P l r -> length l = length r.
Proof. induction 1; simpl; congruence. Qed.
Lemma eqb_true {A} `{Eqb A} (x y : A) : eqb x y = true -> x = y.
Proof. apply eqb_eq. Qed.
