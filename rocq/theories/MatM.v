(** Exact linear algebra standing for numpy/galois in detectors.py:
    [np.linalg.inv] (over the rationals), [np.linalg.det(GF2(..)) == 0] and matrix
    products. Floating point is not modelled. Gaussian elimination is written once
    for any field and used for the rationals and for GF(2). *)
From Coq Require Import QArith Qcanon.
From Verif Require Import Base.

Record fops (F : Type) := {
  f0 : F; f1 : F; fadd : F -> F -> F; fmul : F -> F -> F; fopp : F -> F; finv : F -> F;
  feqb0 : F -> bool (* x = 0 *) }.
Arguments f0 {F}. Arguments f1 {F}. Arguments fadd {F}. Arguments fmul {F}.
Arguments fopp {F}. Arguments finv {F}. Arguments feqb0 {F}.

Definition GF2 : fops bool :=
  {| f0 := false; f1 := true; fadd := xorb; fmul := andb; fopp := fun x => x;
     finv := fun x => x; feqb0 := negb |}.
Definition QF : fops Qc :=
  {| f0 := Q2Qc 0; f1 := Q2Qc 1; fadd := Qcplus; fmul := Qcmult; fopp := Qcopp; finv := Qcinv;
     feqb0 := fun x => if Qc_eq_dec x (Q2Qc 0) then true else false |}.

Section Field.
  Context {F : Type} (K : fops F).

  (* scalar product *)
  Fixpoint dot (a x : list F) : F :=
    match a, x with
    | c :: a', y :: x' => fadd K (fmul K c y) (dot a' x')
    | _, _ => f0 K
    end.
  (* a + c*b *)
  Fixpoint axpy (c : F) (b a : list F) : list F :=
    match a, b with
    | y :: a', z :: b' => fadd K y (fmul K c z) :: axpy c b' a'
    | _, _ => a
    end.
  (* the first row with a non-zero leading entry, and the other rows *)
  Fixpoint pivot (rows : list (list F * F)) : option (F * list F * F * list (list F * F)) :=
    match rows with
    | [] => None
    | (h :: t, b) :: r =>
        if feqb0 K h
        then match pivot r with
             | Some (h', t', b', r') => Some (h', t', b', (h :: t, b) :: r')
             | None => None
             end
        else Some (h, t, b, r)
    | ([], b) :: r => None
    end.
  (* use the pivot row (pt, pb), whose leading entry is 1, on a row *)
  Definition eliminate (pt : list F) (pb : F) (row : list F * F) : list F * F :=
    match row with
    | (h :: t, b) => (axpy (fopp K h) pt t, fadd K b (fmul K (fopp K h) pb))
    | ([], b) => ([], b)
    end.
  (* the solution of the equations a.x = b, None if there is no pivot *)
  Fixpoint solve (n : nat) (rows : list (list F * F)) : option (list F) :=
    match n with
    | O => Some []
    | S n' =>
        match pivot rows with
        | None => None
        | Some (h, t, b, rest) =>
            let pt := map (fmul K (finv K h)) t in
            let pb := fmul K (finv K h) b in
            match solve n' (map (eliminate pt pb) rest) with
            | None => None
            | Some x => Some (fadd K pb (fopp K (dot pt x)) :: x)
            end
        end
    end.
  (* unit vector *)
  Definition unitv (n k : nat) : list F := map (fun i => if Nat.eqb i k then f1 K else f0 K) (seq 0 n).
  (* the columns of the inverse of a square matrix given by its rows *)
  Fixpoint all_some {A} (l : list (option A)) : option (list A) :=
    match l with
    | [] => Some []
    | Some x :: r => match all_some r with Some y => Some (x :: y) | None => None end
    | None :: _ => None
    end.
  Definition inverse_cols (B : list (list F)) : option (list (list F)) :=
    let n := length B in
    all_some (map (fun k => solve n (combine B (unitv n k))) (seq 0 n)).
  Definition singular (B : list (list F)) : bool :=
    match inverse_cols B with Some _ => false | None => true end.
End Field.

Definition q_of_bool (b : bool) : Qc := if b then Q2Qc 1 else Q2Qc 0.
Definition qmat (B : list (list bool)) : list (list Qc) := map (map q_of_bool) B.
