(** The fragment of the external library stim used by surface-sim.  This file
    states what is assumed about stim; it models no line of /repo.

    - an instruction is a name, a list of targets and a list of arguments;
    - [Circuit.append] merges the new instruction into the last one when both
      have the same name and arguments, except for annotations;
    - [Circuit + Circuit] and [+=] concatenate without merging;
    - a measurement instruction appends the outcomes of its targets to the
      record, in order;
    - two-qubit gates need an even number of targets and no pair (q, q);
      probabilities must be in [0, 1] and sum to at most 1. *)
From Coq Require Import QArith Qcanon.
From Verif Require Import Base.
Open Scope Z_scope.

(* canonical names: MZ is M, RZ is R, CNOT is CX *)
Inductive gname :=
| GX | GZ | GH | GS | GSDAG | GI
| GCX | GCZ | GSWAP
| GM | GMX | GMY
| GR | GRX | GRY
| DEPOLARIZE1 | DEPOLARIZE2 | X_ERROR | Z_ERROR | PAULI_CHANNEL_1 | PAULI_CHANNEL_2
| TICK | QUBIT_COORDS | DETECTOR | OBSERVABLE_INCLUDE | SHIFT_COORDS.

Scheme Equality for gname.
Lemma gname_eqb_spec x y : reflect (x = y) (gname_beq x y).
Proof.
  destruct (gname_beq x y) eqn:E; constructor.
  - now apply internal_gname_dec_bl.
  - intros ->. rewrite internal_gname_dec_lb in E by reflexivity. discriminate.
Qed.
#[export] Instance Eqb_gname : Eqb gname := {| eqb := gname_beq; eqb_spec := gname_eqb_spec |}.

(* the name as printed by stim *)
Definition gname_str (g : gname) : string :=
  match g with
  | GX => "X" | GZ => "Z" | GH => "H" | GS => "S" | GSDAG => "S_DAG" | GI => "I"
  | GCX => "CX" | GCZ => "CZ" | GSWAP => "SWAP"
  | GM => "M" | GMX => "MX" | GMY => "MY"
  | GR => "R" | GRX => "RX" | GRY => "RY"
  | DEPOLARIZE1 => "DEPOLARIZE1" | DEPOLARIZE2 => "DEPOLARIZE2"
  | X_ERROR => "X_ERROR" | Z_ERROR => "Z_ERROR"
  | PAULI_CHANNEL_1 => "PAULI_CHANNEL_1" | PAULI_CHANNEL_2 => "PAULI_CHANNEL_2"
  | TICK => "TICK" | QUBIT_COORDS => "QUBIT_COORDS" | DETECTOR => "DETECTOR"
  | OBSERVABLE_INCLUDE => "OBSERVABLE_INCLUDE" | SHIFT_COORDS => "SHIFT_COORDS"
  end.

Inductive target := TQ (q : Z) | TR (r : Z).  (* a qubit, rec[r] *)
Definition target_eqb (x y : target) : bool :=
  match x, y with TQ a, TQ b => Z.eqb a b | TR a, TR b => Z.eqb a b | _, _ => false end.
Lemma target_eqb_spec x y : reflect (x = y) (target_eqb x y).
Proof.
  destruct x as [a|a], y as [b|b]; simpl; try (constructor; congruence);
    destruct (Z.eqb_spec a b); constructor; congruence.
Qed.
#[export] Instance Eqb_target : Eqb target := {| eqb := target_eqb; eqb_spec := target_eqb_spec |}.

(* [AIdle k t1 t2 d] is the k-th number returned by idle_error_probs(t1, t2, d),
   kept symbolic because of exp (see ProbM.v) *)
Inductive arg := ANum (x : Qc) | AIdle (k : nat) (t1 t2 d : Qc).
Definition Qc_eqb (x y : Qc) : bool := if Qc_eq_dec x y then true else false.
Lemma Qc_eqb_spec x y : reflect (x = y) (Qc_eqb x y).
Proof. unfold Qc_eqb; destruct (Qc_eq_dec x y); now constructor. Qed.
#[export] Instance Eqb_Qc : Eqb Qc := {| eqb := Qc_eqb; eqb_spec := Qc_eqb_spec |}.
Definition arg_eqb (x y : arg) : bool :=
  match x, y with
  | ANum a, ANum b => eqb a b
  | AIdle k a b c, AIdle k' a' b' c' => eqb k k' && eqb a a' && eqb b b' && eqb c c'
  | _, _ => false
  end.
Lemma arg_eqb_spec x y : reflect (x = y) (arg_eqb x y).
Proof.
  destruct x as [a|k a b c], y as [a'|k' a' b' c']; unfold arg_eqb;
    try (constructor; congruence).
  - destruct (eqb_spec a a'); constructor; congruence.
  - destruct (eqb_spec k k'), (eqb_spec a a'), (eqb_spec b b'), (eqb_spec c c');
      simpl; constructor; congruence.
Qed.
#[export] Instance Eqb_arg : Eqb arg := {| eqb := arg_eqb; eqb_spec := arg_eqb_spec |}.

Record instr := Instr { nm : gname; tg : list target; ar : list arg }.
Definition circuit := list instr.

Definition is_noise (g : gname) : bool :=
  match g with
  | DEPOLARIZE1 | DEPOLARIZE2 | X_ERROR | Z_ERROR | PAULI_CHANNEL_1 | PAULI_CHANNEL_2 => true
  | _ => false
  end.
Definition is_meas (g : gname) : bool := match g with GM | GMX | GMY => true | _ => false end.
Definition is_reset (g : gname) : bool := match g with GR | GRX | GRY => true | _ => false end.
Definition is_two (g : gname) : bool :=
  match g with GCX | GCZ | GSWAP | DEPOLARIZE2 | PAULI_CHANNEL_2 => true | _ => false end.
Definition is_annotation (g : gname) : bool :=
  match g with
  | TICK | QUBIT_COORDS | DETECTOR | OBSERVABLE_INCLUDE | SHIFT_COORDS => true
  | _ => false
  end.
(* instructions that are never merged with the previous one *)
Definition not_fusable (g : gname) : bool :=
  match g with TICK | DETECTOR | OBSERVABLE_INCLUDE | SHIFT_COORDS => true | _ => false end.

Fixpoint pairs_ok (l : list target) : bool :=
  match l with
  | [] => true
  | [_] => false
  | a :: b :: r => negb (eqb a b) && pairs_ok r
  end.
Definition prob_ok (x : Qc) : bool := Qle_bool 0 x && Qle_bool x 1.
Definition num_args (l : list arg) : list Qc :=
  flat_map (fun a => match a with ANum x => [x] | AIdle _ _ _ _ => [] end) l.
Definition sumQ (l : list Qc) : Qc := fold_right Qcplus (Q2Qc 0) l.

(* CircuitInstruction(...) followed by the validation done when it is appended *)
Definition instr_ok (i : instr) : bool :=
  (negb (is_two (nm i)) || pairs_ok (tg i)) &&
  (negb (is_noise (nm i) || is_meas (nm i)) ||
     (forallb prob_ok (num_args (ar i)) && prob_ok (sumQ (num_args (ar i))))).
Definition mk (g : gname) (t : list target) (a : list arg) : res instr :=
  let i := Instr g t a in if instr_ok i then Ok i else Err ValueError.

(* Circuit.append *)
Fixpoint append (c : circuit) (i : instr) : circuit :=
  match c with
  | [] => [i]
  | [j] => if eqb (nm i) (nm j) && eqb (ar i) (ar j) && negb (not_fusable (nm i))
           then [Instr (nm j) (tg j ++ tg i) (ar j)] else [j; i]
  | j :: r => j :: append r i
  end.
Definition appends (c : circuit) (l : list instr) : circuit := fold_left append l c.

(** * What an experimentalist reads off a circuit *)
(* the qubits measured, in record order *)
Definition instr_meas (i : instr) : list target := if is_meas (nm i) then tg i else [].
Definition measured (c : circuit) : list target := flat_map instr_meas c.

(* One gate application per atom: insensitive to how targets are grouped. *)
Inductive atom :=
| A1 (g : gname) (q : target)
| A2 (g : gname) (q q' : target)
| AN (g : gname) (t : list target) (a : list arg).  (* annotation *)

Fixpoint pair_atoms (g : gname) (l : list target) : list atom :=
  match l with
  | a :: b :: r => A2 g a b :: pair_atoms g r
  | _ => []
  end.
(* the noiseless content of an instruction: noise and idling disappear, readout
   flip probabilities are dropped *)
Definition instr_atoms (i : instr) : list atom :=
  let g := nm i in
  if is_noise g || eqb g GI then []
  else if is_annotation g then [AN g (tg i) (ar i)]
  else if is_two g then pair_atoms g (tg i)
  else map (A1 g) (tg i).
Definition ideal (c : circuit) : list atom := flat_map instr_atoms c.
