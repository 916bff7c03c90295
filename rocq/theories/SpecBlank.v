(** Vocabulary of the statements about the detectors requested from an experiment (C86). *)
From Coq Require Import QArith Qcanon.
From Verif Require Import Base StimM LayoutM SpecFresh.
Open Scope Z_scope.

(* the arguments anc_detectors, gauge_detectors and rot_basis of an experiment *)
Definition dets_of (e : experiment) : option (list string) :=
  match e with
  | EMemory _ _ _ _ _ _ d _ => d | EGoogle _ _ _ _ d _ => d | EGates _ _ _ _ _ _ _ d _ => d
  | ECnots _ _ _ _ _ _ _ _ _ d _ => d
  end.
Definition gauge_of (e : experiment) : bool :=
  match e with
  | EMemory _ _ _ _ _ _ _ g => g | EGoogle _ _ _ _ _ g => g | EGates _ _ _ _ _ _ _ _ g => g
  | ECnots _ _ _ _ _ _ _ _ _ _ g => g
  end.
Definition rot_of (e : experiment) : bool :=
  match e with
  | EMemory _ _ _ _ r _ _ _ => r | EGoogle _ _ _ r _ _ => r | EGates _ _ _ _ _ r _ _ _ => r
  | ECnots _ _ _ _ _ _ _ r _ _ _ => r
  end.
(* the same experiment with other values of anc_detectors and gauge_detectors *)
Definition asking (d : option (list string)) (g : bool) (e : experiment) : experiment :=
  match e with
  | EMemory k l n di r a _ _ => EMemory k l n di r a d g
  | EGoogle l n di r _ _ => EGoogle l n di r d g
  | EGates k l n m di r a _ _ => EGates k l n m di r a d g
  | ECnots b l l' n m di o r a _ _ => ECnots b l l' n m di o r a d g
  end.
(* for every layout of the experiment, the qubits that [f] gives *)
Definition of_layouts (f : layout -> res (list string)) (e : experiment) : res (list string) :=
  match e with
  | EMemory _ l _ _ _ _ _ _ | EGoogle l _ _ _ _ _ | EGates _ l _ _ _ _ _ _ _ => f l
  | ECnots _ l l' _ _ _ _ _ _ _ _ => do a <- f l; do b <- f l'; Ok (a ++ b)
  end.
(* all ancillas if none are named *)
Definition asks_for (e : experiment) (D : list string) : Prop :=
  match dets_of e with Some l => D = l | None => of_layouts (fun l => get_role l "anc") e = Ok D end.
(* the ancillas whose stabilizers have the type of the measured basis *)
Definition stabs_of (e : experiment) : res (list string) :=
  of_layouts (fun l => get_stabs l (if rot_of e then "x_type" else "z_type")) e.

(* a DETECTOR of the ancilla a at some time *)
Definition detector_of (coords : dict string (list Qc)) (a : string) (i : instr) : Prop :=
  nm i = DETECTOR /\ exists xs t, dget a coords = Some xs /\ ar i = map ANum (xs ++ [t]).
(* j is i; but if i is the detector of an ancilla that is not in D, j has no targets *)
Definition kept_only (D : list string) (coords : dict string (list Qc)) (i j : instr) : Prop :=
  (nm i <> DETECTOR /\ j = i) \/
  exists a, detector_of coords a i /\ j = Instr DETECTOR (if mem a D then tg i else []) (ar i).
