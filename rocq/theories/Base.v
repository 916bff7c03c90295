(** Shared vocabulary: exceptions as values, Python dictionaries (association
    lists in insertion order), Python set tests on lists. No property is stated
    here and nothing here is specific to surface-sim. *)
From Coq Require Export String ZArith Bool Arith Lia List Permutation.
From Coq Require Export ZifyBool ZifyNat.
Export ListNotations.
Open Scope string_scope.
Open Scope list_scope.
Open Scope Z_scope.
Ltac Zify.zify_post_hook ::= Z.div_mod_to_equations.

(** * Exceptions as values *)
Inductive exn :=
| ValueError | TypeError | KeyError | IndexError | AssertionError
| NotImplementedError | LinAlgError | RuntimeError | AttributeError
| ZeroDivisionError | StopIteration
| Unmodelled. (* input outside of the modelled fragment; never raised by Python *)

Inductive res (A : Type) := Ok (a : A) | Err (e : exn).
Arguments Ok {A} a.
Arguments Err {A} e.

Definition bind {A B} (x : res A) (f : A -> res B) : res B :=
  match x with Ok a => f a | Err e => Err e end.
Notation "'do' x <- a ; b" := (bind a (fun x => b))
  (at level 200, x pattern, a at level 100, b at level 200).

Definition is_ok {A} (x : res A) : bool := match x with Ok _ => true | Err _ => false end.

Fixpoint mapM {A B} (f : A -> res B) (l : list A) : res (list B) :=
  match l with
  | [] => Ok []
  | x :: r => do y <- f x; do ys <- mapM f r; Ok (y :: ys)
  end.

Definition of_opt {A} (e : exn) (o : option A) : res A :=
  match o with Some a => Ok a | None => Err e end.

(** * Decidable equality *)
Class Eqb (A : Type) := {
  eqb : A -> A -> bool;
  eqb_spec : forall x y, reflect (x = y) (eqb x y) }.
Arguments eqb : simpl never.

#[export] Instance Eqb_string : Eqb string := {| eqb := String.eqb; eqb_spec := String.eqb_spec |}.
#[export] Instance Eqb_Z : Eqb Z := {| eqb := Z.eqb; eqb_spec := Z.eqb_spec |}.
#[export] Instance Eqb_nat : Eqb nat := {| eqb := Nat.eqb; eqb_spec := Nat.eqb_spec |}.
#[export] Instance Eqb_bool : Eqb bool := {| eqb := Bool.eqb; eqb_spec := Bool.eqb_spec |}.

Definition pair_eqb {A B} `{Eqb A} `{Eqb B} (x y : A * B) : bool :=
  eqb (fst x) (fst y) && eqb (snd x) (snd y).
Lemma pair_eqb_spec {A B} `{Eqb A} `{Eqb B} (x y : A * B) : reflect (x = y) (pair_eqb x y).
Proof.
  destruct x as [a b], y as [a' b']; unfold pair_eqb; simpl.
  destruct (eqb_spec a a'), (eqb_spec b b'); simpl; constructor; congruence.
Qed.
#[export] Instance Eqb_pair {A B} `{Eqb A} `{Eqb B} : Eqb (A * B) :=
  {| eqb := pair_eqb; eqb_spec := pair_eqb_spec |}.

Fixpoint list_eqb {A} `{Eqb A} (x y : list A) : bool :=
  match x, y with
  | [], [] => true
  | a :: x', b :: y' => eqb a b && list_eqb x' y'
  | _, _ => false
  end.
Lemma list_eqb_spec {A} `{Eqb A} (x y : list A) : reflect (x = y) (list_eqb x y).
Proof.
  revert y; induction x as [|a x IH]; intros [|b y]; simpl;
    try (constructor; congruence).
  destruct (eqb_spec a b); simpl; [|constructor; congruence].
  destruct (IH y); constructor; congruence.
Qed.
#[export] Instance Eqb_list {A} `{Eqb A} : Eqb (list A) :=
  {| eqb := list_eqb; eqb_spec := list_eqb_spec |}.

Definition option_eqb {A} `{Eqb A} (x y : option A) : bool :=
  match x, y with
  | None, None => true | Some a, Some b => eqb a b | _, _ => false
  end.
Lemma option_eqb_spec {A} `{Eqb A} (x y : option A) : reflect (x = y) (option_eqb x y).
Proof.
  destruct x as [a|], y as [b|]; simpl; try (constructor; congruence).
  destruct (eqb_spec a b); constructor; congruence.
Qed.
#[export] Instance Eqb_option {A} `{Eqb A} : Eqb (option A) :=
  {| eqb := option_eqb; eqb_spec := option_eqb_spec |}.

Lemma eqb_refl {A} `{Eqb A} (x : A) : eqb x x = true.
Proof. destruct (eqb_spec x x); congruence. Qed.
Lemma eqb_eq {A} `{Eqb A} (x y : A) : eqb x y = true <-> x = y.
Proof. destruct (eqb_spec x y); split; congruence. Qed.
Lemma eqb_neq {A} `{Eqb A} (x y : A) : eqb x y = false <-> x <> y.
Proof. destruct (eqb_spec x y); split; congruence. Qed.
Lemma eqb_sym {A} `{Eqb A} (x y : A) : eqb x y = eqb y x.
Proof. destruct (eqb_spec x y), (eqb_spec y x); congruence. Qed.

(** * Lists and Python set tests *)
Section Lists.
  Context {A : Type} `{Eqb A}.

  Fixpoint mem (x : A) (l : list A) : bool :=
    match l with [] => false | y :: r => eqb x y || mem x r end.

  Lemma mem_In x l : mem x l = true <-> In x l.
  Proof.
    induction l as [|y l IH]; simpl; [split; [discriminate|tauto]|].
    rewrite orb_true_iff, eqb_eq, IH. split; intros [E|E]; auto.
  Qed.
  Lemma mem_not_In x l : mem x l = false <-> ~ In x l.
  Proof. rewrite <- mem_In. destruct (mem x l); split; congruence. Qed.
  Lemma mem_app x l l' : mem x (l ++ l') = mem x l || mem x l'.
  Proof. induction l as [|y l IH]; simpl; [reflexivity|rewrite IH; apply orb_assoc]. Qed.

  (* list.count *)
  Fixpoint count (x : A) (l : list A) : nat :=
    match l with [] => 0%nat | y :: r => ((if eqb x y then 1 else 0) + count x r)%nat end.

  (* list.index *)
  Fixpoint index (x : A) (l : list A) : option nat :=
    match l with
    | [] => None
    | y :: r => if eqb x y then Some 0%nat else option_map S (index x r)
    end.

  (* set(a) <= set(b) *)
  Definition subset (a b : list A) : bool := forallb (fun x => mem x b) a.
  (* set(a) > set(b): Python's *strict* superset test *)
  Definition strict_superset (a b : list A) : bool := subset b a && negb (subset a b).
  (* set(a) == set(b) *)
  Definition set_eq (a b : list A) : bool := subset a b && subset b a.

  Lemma subset_spec a b : subset a b = true <-> incl a b.
  Proof.
    unfold subset, incl. rewrite forallb_forall.
    split; intros Hs x Hx; apply mem_In; apply Hs; assumption.
  Qed.

  (* dict.fromkeys(l): first occurrences, in order *)
  Fixpoint dedup_acc (seen : list A) (l : list A) : list A :=
    match l with
    | [] => []
    | x :: r => if mem x seen then dedup_acc seen r else x :: dedup_acc (x :: seen) r
    end.
  Definition dedup (l : list A) : list A := dedup_acc [] l.

  (* set difference a - b on duplicate-free lists *)
  Definition diff (a b : list A) : list A := filter (fun x => negb (mem x b)) a.
  (* set intersection *)
  Definition inter (a b : list A) : list A := filter (fun x => mem x b) a.

  Fixpoint nodupb (l : list A) : bool :=
    match l with [] => true | x :: r => negb (mem x r) && nodupb r end.
  Lemma nodupb_spec l : nodupb l = true <-> NoDup l.
  Proof.
    induction l as [|x l IH]; simpl; [split; [constructor|reflexivity]|].
    rewrite andb_true_iff, negb_true_iff, IH, mem_not_In.
    split; [intros [? ?]; constructor; assumption|inversion 1; auto].
  Qed.
End Lists.

(** * Python dictionaries *)
Section Dict.
  Context {K V : Type} `{Eqb K}.
  Definition dict := list (K * V).

  Fixpoint dget (k : K) (d : dict) : option V :=
    match d with
    | [] => None
    | (k', v) :: r => if eqb k k' then Some v else dget k r
    end.
  Definition dmem (k : K) (d : dict) : bool :=
    match dget k d with Some _ => true | None => false end.
  (* d[k] = v : in place if present, else appended *)
  Fixpoint dset (k : K) (v : V) (d : dict) : dict :=
    match d with
    | [] => [(k, v)]
    | (k', v') :: r => if eqb k k' then (k', v) :: r else (k', v') :: dset k v r
    end.
  Definition dkeys (d : dict) : list K := map fst d.
  Definition dvals (d : dict) : list V := map snd d.
  (* d.update(d') *)
  Definition dupdate (d d' : dict) : dict :=
    fold_left (fun acc kv => dset (fst kv) (snd kv) acc) d' d.
  (* d.pop(k) / del d[k] *)
  Definition ddel (k : K) (d : dict) : dict :=
    filter (fun kv => negb (eqb k (fst kv))) d.
  (* d[k] with KeyError *)
  Definition dget_err (k : K) (d : dict) : res V := of_opt KeyError (dget k d).

  Lemma dget_dset_same k v d : dget k (dset k v d) = Some v.
  Proof.
    induction d as [|[k' v'] d IH]; simpl; [now rewrite eqb_refl|].
    destruct (eqb k k') eqn:E; simpl; rewrite E; [reflexivity|exact IH].
  Qed.
  Lemma dget_dset_other k k' v d : k <> k' -> dget k' (dset k v d) = dget k' d.
  Proof.
    intros Hne; induction d as [|[k1 v1] d IH]; simpl.
    - destruct (eqb_spec k' k); [congruence|reflexivity].
    - destruct (eqb_spec k k1) as [->|N]; simpl.
      + destruct (eqb_spec k' k1); [congruence|reflexivity].
      + destruct (eqb k' k1); [reflexivity|exact IH].
  Qed.
  Lemma dget_dset k k' v d :
    dget k' (dset k v d) = if eqb k k' then Some v else dget k' d.
  Proof.
    destruct (eqb_spec k k') as [->|N]; [apply dget_dset_same|now apply dget_dset_other].
  Qed.
  Lemma dget_In k v d : dget k d = Some v -> In (k, v) d.
  Proof.
    induction d as [|[k' v'] d IH]; simpl; [discriminate|].
    destruct (eqb_spec k k') as [->|N]; [intros [= ->]; now left|right; auto].
  Qed.
  Lemma dget_None k d : dget k d = None <-> ~ In k (dkeys d).
  Proof.
    induction d as [|[k' v'] d IH]; simpl; [tauto|].
    destruct (eqb_spec k k') as [->|N]; [split; [discriminate|intuition]|].
    rewrite IH; split; [intros Hn [E|E]; congruence || tauto|tauto].
  Qed.
  Lemma dget_Some_key k v d : dget k d = Some v -> In k (dkeys d).
  Proof. intros E; apply dget_In in E. apply (in_map fst) in E; exact E. Qed.
  Lemma dmem_In k d : dmem k d = true <-> In k (dkeys d).
  Proof.
    unfold dmem. destruct (dget k d) eqn:E.
    - split; [intros _; eapply dget_Some_key; eauto|reflexivity].
    - split; [discriminate|]. apply dget_None in E. tauto.
  Qed.
  Lemma In_dget k v d : NoDup (dkeys d) -> In (k, v) d -> dget k d = Some v.
  Proof.
    induction d as [|[k' v'] d IH]; simpl; [tauto|].
    inversion 1 as [|? ? Hni Hnd]; subst. intros [[= -> ->]|Hin].
    - now rewrite eqb_refl.
    - destruct (eqb_spec k k') as [->|N]; [|auto].
      apply (in_map fst) in Hin; simpl in Hin; contradiction.
  Qed.
  Lemma dkeys_dset k v d :
    dkeys (dset k v d) = if dmem k d then dkeys d else dkeys d ++ [k].
  Proof.
    unfold dmem; induction d as [|[k' v'] d IH]; simpl; [reflexivity|].
    destruct (eqb_spec k k') as [->|N]; simpl; [reflexivity|].
    rewrite IH. destruct (dget k d); reflexivity.
  Qed.
  Lemma NoDup_dset k v d : NoDup (dkeys d) -> NoDup (dkeys (dset k v d)).
  Proof.
    intros Hnd; rewrite dkeys_dset. destruct (dmem k d) eqn:E; [exact Hnd|].
    assert (~ In k (dkeys d)) by (rewrite <- dmem_In; congruence).
    apply (Permutation_NoDup (l := k :: dkeys d)).
    - apply Permutation_cons_append.
    - constructor; assumption.
  Qed.
  Lemma dget_ddel k k' d : dget k (ddel k' d) = if eqb k' k then None else dget k d.
  Proof.
    induction d as [|[k1 v1] d IH]; simpl; [destruct (eqb k' k); reflexivity|].
    destruct (eqb_spec k' k1) as [->|N]; simpl.
    - rewrite IH. destruct (eqb_spec k1 k) as [->|N']; [reflexivity|].
      destruct (eqb_spec k k1); [congruence|reflexivity].
    - rewrite IH. destruct (eqb_spec k k1) as [->|N'].
      + destruct (eqb_spec k' k1); [congruence|reflexivity].
      + reflexivity.
  Qed.
End Dict.
Arguments dict K V : clear implicits.

(** * Ranges *)
(* range(a, b, s) for s > 0 *)
Definition zrange (a b s : Z) : list Z :=
  map (fun k => a + s * Z.of_nat k) (seq 0 (Z.to_nat ((b - a + s - 1) / s))).
(* range(n) *)
Definition range (n : Z) : list Z := map Z.of_nat (seq 0 (Z.to_nat n)).
Fixpoint enumerate_from {A} (n : nat) (l : list A) : list (nat * A) :=
  match l with [] => [] | x :: r => (n, x) :: enumerate_from (S n) r end.
Definition enumerate {A} (l : list A) : list (nat * A) := enumerate_from 0 l.
(* xor of a list of bits *)
Definition xorl (l : list bool) : bool := fold_right xorb false l.

(** * State and exceptions: a method that mutates an object *)
Definition ST (S A : Type) := S -> S * res A.
Definition sret {S A} (a : A) : ST S A := fun s => (s, Ok a).
Definition sfail {S A} (e : exn) : ST S A := fun s => (s, Err e).
Definition sbind {S A B} (x : ST S A) (f : A -> ST S B) : ST S B :=
  fun s => match x s with (s', Ok a) => f a s' | (s', Err e) => (s', Err e) end.
Definition slift {S A} (x : res A) : ST S A := fun s => (s, x).
Definition sread {S A} (f : S -> res A) : ST S A := fun s => (s, f s).
Notation "'sdo' x <- a ; b" := (sbind a (fun x => b))
  (at level 200, x pattern, a at level 100, b at level 200).
(* a for loop that threads an accumulator *)
Fixpoint sfold {S A B} (f : B -> A -> ST S B) (l : list A) (b : B) : ST S B :=
  match l with
  | [] => sret b
  | x :: r => sdo b' <- f b x; sfold f r b'
  end.
(* the same without state *)
Fixpoint foldM {A B} (f : B -> A -> res B) (l : list A) (b : B) : res B :=
  match l with
  | [] => Ok b
  | x :: r => do b' <- f b x; foldM f r b'
  end.
