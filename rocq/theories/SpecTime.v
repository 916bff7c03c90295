(** Vocabulary of the statements about the rounds of a memory experiment as a repeated
    block (C83). *)
From Coq Require Import QArith Qcanon.
From Verif Require Import Base StimM.
Open Scope Z_scope.

(* k added to the last number *)
Fixpoint later_args (k : Z) (l : list arg) : list arg :=
  match l with
  | [] => []
  | [ANum x] => [ANum (x + Q2Qc (inject_Z k))%Qc]
  | a :: r => a :: later_args k r
  end.
(* the instruction k rounds later: only the time of a DETECTOR changes *)
Definition later (k : Z) (i : instr) : instr :=
  match nm i with DETECTOR => Instr DETECTOR (tg i) (later_args k (ar i)) | _ => i end.
(* REPEAT n { b; SHIFT_COORDS of one round }, unrolled *)
Definition tiles (n : nat) (b : circuit) : circuit :=
  concat (map (fun j => map (later (Z.of_nat j)) b) (seq 0 n)).
