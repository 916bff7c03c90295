(** Vocabulary of the statements about faults (C74-C76): how a Pauli error placed
    somewhere in a circuit moves forward through the gates and which outcomes, detectors
    and observables it flips. Nothing here is used by the model of the code. *)
From Coq Require Import QArith Qcanon.
From Verif Require Import Base StimM NoiseM SpecNoise LayoutM SpecTrack SpecExp.
Open Scope Z_scope.

Section Forward.
  Context {Q : Type} `{Eqb Q}.
  (* the error after a gate, when it was [E] before; a reset removes it *)
  Definition moved (g : gate Q) (E : pauli Q) : pauli Q :=
    match g with
    | G1 n q =>
        match n with
        | GH => put2 E q (pz E q) (px E q)
        | GS | GSDAG => put2 E q (px E q) (xorb (pz E q) (px E q))
        | GR | GRX | GRY => put2 E q false false
        | _ => E
        end
    | G2 n a b =>
        match n with
        | GCZ => Pauli (px E) (put (put (pz E) a (xorb (pz E a) (px E b))) b (xorb (pz E b) (px E a)))
        | GCX => Pauli (put (px E) b (xorb (px E b) (px E a))) (put (pz E) a (xorb (pz E a) (pz E b)))
        | GSWAP => put2 (put2 E a (px E b) (pz E b)) b (px E a) (pz E a)
        | _ => E
        end
    end.
  (* does the error change the outcome of the measurement? *)
  Definition seen (g : gate Q) (E : pauli Q) : bool :=
    match g with
    | G1 GM q => px E q
    | G1 GMX q => pz E q
    | G1 GMY q => xorb (px E q) (pz E q)
    | _ => false
    end.
  (* the outcomes of the measurements that are flipped, in order *)
  Fixpoint flips (l : list (gate Q)) (E : pauli Q) : list bool :=
    match l with
    | [] => []
    | g :: r => (if measures_gate g then [seen g E] else []) ++ flips r (moved g E)
    end.
End Forward.

(* A fault: a Pauli operator on one qubit before instruction number [n]; one on the two
   qubits of a gate; or a wrong readout of outcome number [m]. *)
Inductive fault :=
| Single (n : nat) (q : Z) (x z : bool)
| Double (n : nat) (a : Z) (xa za : bool) (b : Z) (xb zb : bool)
| Readout (m : nat).
(* the last operation on both qubits was a gate between them *)
Definition just_coupled (l : list (gate Z)) (a b : Z) : Prop :=
  exists p g s, l = p ++ g :: s /\ (exists n, g = G2 n a b \/ g = G2 n b a) /\
    Forall (fun h => touches a h = false /\ touches b h = false) s.
Definition possible (c : circuit) (f : fault) : Prop :=
  match f with
  | Double n a _ _ b _ _ => a <> b /\ just_coupled (gates (firstn n c)) a b
  | _ => True
  end.
Definition single (q : Z) (x z : bool) : pauli Z := put2 identity_op q x z.
(* the outcomes flipped by an error before instruction number [n] *)
Definition flips_from (c : circuit) (n : nat) (E : pauli Z) (m : nat) : bool :=
  let before := num_meas (gates (firstn n c)) in
  if (m <? before)%nat then false else nth (m - before) (flips (gates (skipn n c)) E) false.
Definition flips_outcome (c : circuit) (f : fault) (m : nat) : bool :=
  match f with
  | Single n q x z => flips_from c n (single q x z) m
  | Double n a xa za b xb zb => flips_from c n (put2 (single a xa za) b xb zb) m
  | Readout m' => Nat.eqb m m'
  end.
(* outcome number [m] is flipped by an odd number of the faults *)
Definition outcome_flipped (c : circuit) (fs : list fault) (m : nat) : bool :=
  Nat.odd (length (filter (fun f => flips_outcome c f m) fs)).
(* the check [i] after [pre] refers to an odd number of flipped outcomes *)
Definition check_flipped (c : circuit) (fs : list fault) (pre : circuit) (i : instr) : bool :=
  let n := num_meas (gates pre) in
  Nat.odd (length (filter (fun k => lists i k && outcome_flipped c fs (n - k)) (seq 1 n))).
Definition undetected (c : circuit) (fs : list fault) : Prop :=
  forall pre i post, c = pre ++ i :: post -> nm i = DETECTOR -> check_flipped c fs pre i = false.
Definition logical_error (c : circuit) (fs : list fault) : Prop :=
  exists pre i post, c = pre ++ i :: post /\ nm i = OBSERVABLE_INCLUDE /\ check_flipped c fs pre i = true.
(* [dets], the ancillas whose detectors are wanted, has the stabilizers that are measured
   with the data qubits *)
Definition watched (l : layout) (rot : bool) (dets : option (list string)) : Prop :=
  forall stabs ds, get_stabs l (if rot then "x_type" else "z_type") = Ok stabs -> dets = Some ds -> incl stabs ds.

(* the faults that the noise in a circuit can cause: an error in a channel on one qubit,
   an error in a channel on two qubits, a wrong outcome of a measurement with a flip
   probability *)
Definition produces (g : gname) (x z : bool) : bool := match g with X_ERROR => negb z | Z_ERROR => negb x | _ => true end.
Inductive caused (c : circuit) : fault -> Prop :=
| by_channel n i q x z : nth_error c n = Some i -> is_noise (nm i) = true -> is_two (nm i) = false -> In (TQ q) (tg i) ->
    produces (nm i) x z = true -> caused c (Single n q x z)
| by_channel2 n i a xa za b xb zb : nth_error c n = Some i -> is_noise (nm i) = true -> is_two (nm i) = true ->
    In [TQ a; TQ b] (pairs_of (tg i)) -> caused c (Double n a xa za b xb zb)
| by_readout n i k : nth_error c n = Some i -> is_meas (nm i) = true -> ar i <> [] -> (k < length (tg i))%nat ->
    caused c (Readout (num_meas (gates (firstn n c)) + k)).
