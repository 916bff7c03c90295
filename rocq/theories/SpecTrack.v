(** Vocabulary for the semantic properties of circuits (C34-C40): backward
    propagation of Pauli operators, without signs, through the noiseless content of
    a circuit. Nothing here is used by the model of the code. *)
From Coq Require Import QArith Qcanon.
From Verif Require Import Base StimM NoiseM SpecNoise LayoutM SpecGen BlockM.
Open Scope Z_scope.

(* one application of a gate, reset or measurement *)
Inductive gate (Q : Type) := G1 (g : gname) (q : Q) | G2 (g : gname) (a b : Q).
Arguments G1 {Q}. Arguments G2 {Q}.

(* a Pauli operator up to sign: where it has an X factor and where a Z factor (both: Y) *)
Record pauli (Q : Type) := Pauli { px : Q -> bool; pz : Q -> bool }.
Arguments Pauli {Q}. Arguments px {Q}. Arguments pz {Q}.

Section Track.
  Context {Q : Type} `{Eqb Q}.

  Definition put (f : Q -> bool) (q : Q) (b : bool) : Q -> bool := fun x => if eqb q x then b else f x.
  Definition put2 (P : pauli Q) (q : Q) (x z : bool) : pauli Q := Pauli (put (px P) q x) (put (pz P) q z).
  Definition identity_op : pauli Q := Pauli (fun _ => false) (fun _ => false).

  (* The operator before a one-qubit operation whose product with what was selected
     is the operator [P] after it. A measurement and a reset need an operator that
     commutes with their basis; [s] tells if the outcome is selected, which
     multiplies by the measured operator; a reset absorbs the operator. *)
  Definition back1 (g : gname) (q : Q) (s : bool) (P : pauli Q) : option (pauli Q) :=
    let x := px P q in let z := pz P q in
    match g with
    | GX | GZ | GI => Some P
    | GH => Some (put2 P q z x)
    | GS | GSDAG => Some (put2 P q x (xorb z x))
    | GM => if x then None else Some (put2 P q x (xorb z s))
    | GMX => if z then None else Some (put2 P q (xorb x s) z)
    | GMY => if xorb x z then None else Some (put2 P q (xorb x s) (xorb z s))
    | GR => if x then None else Some (put2 P q false false)
    | GRX => if z then None else Some (put2 P q false false)
    | GRY => if xorb x z then None else Some (put2 P q false false)
    | _ => None
    end.
  Definition back2 (g : gname) (a b : Q) (P : pauli Q) : option (pauli Q) :=
    match g with
    | GCZ => Some (Pauli (px P) (put (put (pz P) a (xorb (pz P a) (px P b))) b (xorb (pz P b) (px P a))))
    | GCX => Some (Pauli (put (px P) b (xorb (px P b) (px P a))) (put (pz P) a (xorb (pz P a) (pz P b))))
    | GSWAP => Some (put2 (put2 P a (px P b) (pz P b)) b (px P a) (pz P a))
    | _ => None
    end.
  Definition measures_gate (g : gate Q) : bool := match g with G1 n _ => is_meas n | _ => false end.
  Definition num_meas (l : list (gate Q)) : nat := length (filter measures_gate l).

  (* [sel k] tells if the k-th last measurement outcome (k = 1 is the last one) is
     selected. [None]: the product of the selected outcomes and [P] is random. *)
  Fixpoint back (l : list (gate Q)) (sel : nat -> bool) (P : pauli Q) : option (pauli Q) :=
    match l with
    | [] => Some P
    | g :: r =>
        match back r sel P with
        | None => None
        | Some R => match g with
                    | G1 n q => back1 n q (sel (S (num_meas r))) R
                    | G2 n a b => back2 n a b R
                    end
        end
    end.

  (* is the k-th last outcome one of a measurement of [q]? *)
  Definition outcome (l : list (gate Q)) (q : Q) (k : nat) : bool :=
    match nth_error (rev (filter measures_gate l)) (k - 1) with
    | Some (G1 _ q') => eqb q q'
    | _ => false
    end.
End Track.
Arguments put : simpl never.

(* the gates, resets and measurements of a circuit; noise, idling and annotations are left out *)
Definition gate_of_atom (a : atom) : list (gate Z) :=
  match a with
  | A1 g (TQ i) => [G1 g i]
  | A2 g (TQ i) (TQ j) => [G2 g i j]
  | _ => []
  end.
Definition gates (c : circuit) : list (gate Z) := flat_map gate_of_atom (ideal c).

(* the operator [P] on the qubit indices of a model is the one with X factors on the
   labels [xs] and Z factors on the labels [zs] *)
Definition represents (qi : dict string Z) (xs zs : string -> bool) (P : pauli Z) : Prop :=
  (forall q i, dget q qi = Some i -> px P i = xs q /\ pz P i = zs q) /\
  (forall i, ~ In i (dvals qi) -> px P i = false /\ pz P i = false).

(* the qubits given to the calls of a block *)
Definition operands (b : list call) : list string :=
  flat_map (fun c => match c with Call _ qs => qs | CTick => [] end) b.

(* the stabilizer generators that the ancillas of a layout stand for: the data qubits
   where the generator has an X factor and a Z factor *)
Definition of_type (l : layout) (t a : string) : bool :=
  match get_stabs l t with Ok s => mem a s | Err _ => false end.
Definition stabilizers : Type := string -> list string * list string.
(* the code is CSS: X or Z on all the neighbours *)
Definition css (l : layout) : stabilizers := fun a =>
  (if of_type l "x_type" a then support l a else [], if of_type l "z_type" a then support l a else []).
(* X on the north-west and south-east neighbours, Z on the others *)
Definition xzzx (l : layout) : stabilizers := fun a =>
  (get_neighbors l [a] (Some "north_west") ++ get_neighbors l [a] (Some "south_east"),
   get_neighbors l [a] (Some "north_east") ++ get_neighbors l [a] (Some "south_west")).
(* a Pauli operator, given by its X and Z factors, commutes with the generator of [a] *)
Definition commutes_with (st : stabilizers) (xs zs : string -> bool) (a : string) : Prop :=
  Nat.even (weight zs (fst (st a)) + weight xs (snd (st a))) = true.

(** * What a QEC round is for *)
Section Rounds.
  (* a round that runs in a state of which the noise model is a part *)
  Context {W : Type} (noise_model : W -> model).
  (* The outcome of every ancilla is the generator of the ancilla, times Z on the
     ancilla before the round if [pre]. *)
  Definition measures_with (pre : bool) (l : layout) (st : stabilizers) (f : ST W circuit) : Prop :=
    forall w w' c ancs a i, get_role l "anc" = Ok ancs -> wf_inds (inds (noise_model w)) ->
    f w = (w', Ok c) -> In a ancs -> dget a (inds (noise_model w)) = Some i ->
    exists P, back (gates c) (outcome (gates c) i) identity_op = Some P /\
      represents (inds (noise_model w)) (fun q => mem q (fst (st a))) (fun q => mem q (snd (st a)) || (pre && eqb q a)) P.
  (* Operators away from the ancillas that commute with all the generators are the same
     before and after the round, whatever the outcomes. *)
  Definition preserves (l : layout) (st : stabilizers) (f : ST W circuit) : Prop :=
    forall w w' c ancs xs zs P, get_role l "anc" = Ok ancs -> wf_inds (inds (noise_model w)) ->
    f w = (w', Ok c) ->
    (forall a, In a ancs -> xs a = false /\ zs a = false) -> (forall a, In a ancs -> commutes_with st xs zs a) ->
    represents (inds (noise_model w)) xs zs P ->
    exists P', back (gates c) (fun _ => false) P = Some P' /\ represents (inds (noise_model w)) xs zs P'.
  (* The other operators are random after the round. *)
  Definition destroys (l : layout) (st : stabilizers) (f : ST W circuit) : Prop :=
    forall w w' c ancs a xs zs P, get_role l "anc" = Ok ancs -> wf_inds (inds (noise_model w)) ->
    f w = (w', Ok c) ->
    (forall a, In a ancs -> xs a = false /\ zs a = false) -> In a ancs -> ~ commutes_with st xs zs a ->
    represents (inds (noise_model w)) xs zs P -> back (gates c) (fun _ => false) P = None.
End Rounds.

(* The operations of a round: a step with only the incoming noise, then steps, each
   followed by a TICK, in which every qubit of the layout is in one operation. *)
Definition is_operation (c : call) : Prop := match c with Call OINC _ => False | Call _ _ => True | CTick => False end.
Definition one_each (l : layout) (bl : blocks) : Prop :=
  exists qs inc steps, get_qubits l [] = Ok qs /\ NoDup qs /\
    bl = flat_map (fun b => [Ok b; Ok [CTick]]) ([Call OINC inc] :: steps) /\
    Forall (fun b => Forall is_operation b /\ Permutation (operands b) qs) steps.
