(** Vocabulary of the statements about the initial bitstring of an experiment (C87). *)
From Coq Require Import QArith Qcanon.
From Verif Require Import Base StimM SpecFresh.

(* the same experiment with another data_init *)
Definition starting (di : dict string Z) (e : experiment) : experiment :=
  match e with
  | EMemory k l n _ r a d g => EMemory k l n di r a d g
  | EGoogle l n _ r d g => EGoogle l n di r d g
  | EGates k l n m _ r a d g => EGates k l n m di r a d g
  | ECnots b l l' n m _ o r a d g => ECnots b l l' n m di o r a d g
  end.
(* no detectors and observables *)
Definition checkless (c : circuit) : Prop := Forall (fun i => nm i <> DETECTOR /\ nm i <> OBSERVABLE_INCLUDE) c.
(* the detectors and observables, in order *)
Definition checks (c : circuit) : circuit := filter (fun i => eqb (nm i) DETECTOR || eqb (nm i) OBSERVABLE_INCLUDE) c.
