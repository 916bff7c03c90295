(** Vocabulary for the transversal gates with signs (C70, C72): Pauli operators with a
    power of i, pulled back through unitary gates. Nothing here is used by the model of
    the code. *)
From Coq Require Import QArith Qcanon.
From Verif Require Import Base StimM NoiseM SpecNoise LayoutM SpecGen DetM BlockM SpecTrack SpecLog.
Open Scope Z_scope.

Definition b2z (b : bool) : Z := if b then 1 else 0.
(* [(k, P)] is the operator i^k times the product over the qubits of X^(px P) Z^(pz P), in
   this order: (0, X), (0, Z), Y is (1, both). *)
Section Sign.
  Context {Q : Type} `{Eqb Q}.
  (* the power of i that a unitary gate U gives to U^-1 P U, where P has the factors X^x
     Z^z on the qubit: S^-1 X S = -Y = i^-1 X Z, H (X Z) H = Z X = i^2 X Z *)
  Definition phase1 (g : gname) (x z : bool) : option Z :=
    match g with
    | GX => Some (2 * b2z z) | GZ => Some (2 * b2z x) | GI => Some 0
    | GH => Some (2 * b2z (x && z))
    | GS => Some (- b2z x) | GSDAG => Some (b2z x)
    | _ => None
    end.
  (* CZ (X X) CZ = X Z Z X = i^2 (X Z) (X Z) *)
  Definition phase2 (g : gname) (xa xb : bool) : option Z :=
    match g with
    | GCZ => Some (2 * b2z (xa && xb)) | GCX | GSWAP => Some 0
    | _ => None
    end.
  Fixpoint sback (l : list (gate Q)) (kP : Z * pauli Q) : option (Z * pauli Q) :=
    match l with
    | [] => Some kP
    | g :: r =>
        match sback r kP with
        | None => None
        | Some (k, R) =>
            match g with
            | G1 n q => match phase1 n (px R q) (pz R q), back1 n q false R with Some d, Some R' => Some (k + d, R') | _, _ => None end
            | G2 n a b => match phase2 n (px R a) (px R b), back2 n a b R with Some d, Some R' => Some (k + d, R') | _, _ => None end
            end
        end
    end.
End Sign.

(* The operator i^k X^xs Z^zs before the circuit is the operator i^k' X^xs' Z^zs' after it. *)
Definition becomes (qi : dict string Z) (c : circuit) (k : Z) (xs zs : string -> bool) (k' : Z) (xs' zs' : string -> bool) : Prop :=
  forall P, represents qi xs' zs' P ->
  exists k0 P', sback (gates c) (k', P) = Some (k0, P') /\ k0 mod 4 = k mod 4 /\ represents qi xs zs P'.

(* the power of i of the product of generators, in the order of the list: (X^x Z^z) (X^x' Z^z')
   is i^(2 z.x') X^(x+x') Z^(z+z') *)
Definition shared (a b : list string) : Z := Z.of_nat (length (filter (fun q => mem q b) a)).
Definition sum_of (l : list Z) : Z := fold_right Z.add 0 l.
Fixpoint prod_phase (st : stabilizers) (gens : list string) : Z :=
  match gens with
  | [] => 0
  | a :: r => 2 * sum_of (map (fun b => shared (snd (st a)) (fst (st b))) r) + prod_phase st r
  end.
(* The circuit turns [sign] times the generator of [a] (sign: i^k) into the product of the
   generators of [new], exactly. *)
Definition carries (qi : dict string Z) (st : stabilizers) (c : circuit) (k : Z) (a : string) (new : list string) : Prop :=
  becomes qi c k (prod_x st [a]) (prod_z st [a]) (prod_phase st new) (prod_x st new) (prod_z st new).

(* the single-qubit gate of a data qubit in the attribute of a transversal gate *)
Definition local_gate (l : layout) (gate q : string) : option pyv :=
  match lparam l gate q with Ok (PDict d) => dget "local" d | _ => None end.
