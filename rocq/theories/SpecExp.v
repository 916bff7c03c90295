(** Vocabulary of the statements about whole experiments (C38-C41, C60). *)
From Coq Require Import QArith Qcanon.
From Verif Require Import Base StimM NoiseM SpecNoise DetM LayoutM SpecTrack.
Open Scope Z_scope.

(* DETECTOR or OBSERVABLE_INCLUDE *)
Definition is_check (i : instr) : Prop := nm i = DETECTOR \/ nm i = OBSERVABLE_INCLUDE.
(* the k-th last outcome contributes to the parity of a check (k = 1 is the last one) *)
Definition lists (i : instr) (k : nat) : bool := Nat.odd (count (TR (- Z.of_nat k)) (tg i)).
(* The check [i] after the circuit [pre] is deterministic: it refers to existing
   outcomes, and the product of their operators, propagated back to the beginning of
   the circuit, is the identity: the resets have absorbed all of it. *)
Definition deterministic (pre : circuit) (i : instr) : Prop :=
  Forall (fun t => exists k, t = TR (- Z.of_nat k) /\ (1 <= k <= num_meas (gates pre))%nat) (tg i) /\
  exists P, back (gates pre) (lists i) identity_op = Some P /\ forall q, px P q = false /\ pz P q = false.
Definition all_deterministic (c : circuit) : Prop :=
  forall pre i post, c = pre ++ i :: post -> is_check i -> deterministic pre i.

(* the indices of a list of labels *)
Definition at_inds (qi : dict string Z) (qs : list string) (ts : list target) : Prop :=
  Forall2 (fun q t => exists i, dget q qi = Some i /\ t = TQ i) qs ts.
(* n times the list *)
Fixpoint times {A} (n : nat) (l : list A) : list A := match n with O => [] | S n => l ++ times n l end.
(* number of instructions *)
Definition number (g : gname) (c : circuit) : nat := length (filter (fun i => eqb (nm i) g) c).

(** * Contents of the checks (C60) *)
(* the k-th last outcome of the record is the j-th last one of the qubit q *)
Definition outcome_of (qi : dict string Z) (rec : list target) (q : string) (j k : nat) : Prop :=
  exists i, dget q qi = Some i /\ kth_last rec (TQ i) (Z.of_nat j) (Z.of_nat k).
(* c has the detector i of ancilla a at time t, after the measurements of the qubits ms *)
Definition detector_in (c : circuit) (d : detectors) (qi : dict string Z) (ms : list string) (a : string) (t : Qc)
    (pre : circuit) (i : instr) : Prop :=
  (exists post, c = pre ++ i :: post) /\ nm i = DETECTOR /\
  (exists xs, dget a (dcoords d) = Some xs /\ ar i = map ANum (xs ++ [t])) /\
  at_inds qi ms (measured pre).
(* the detector of an ancilla in a round: its last outcome, and the one before (with
   resets) or the second one before (without) if there is one *)
Definition round_parity (qi : dict string Z) (reset : bool) (a : string) (pre : circuit) (i : instr) : Prop :=
  forall k, (1 <= k)%nat -> lists i k = true <->
    outcome_of qi (measured pre) a 1 k \/ outcome_of qi (measured pre) a (if reset then 2 else 3) k.
(* the detector of an ancilla after the measurement of the data qubits s *)
Definition final_parity (qi : dict string Z) (reset : bool) (s : list string) (a : string) (pre : circuit) (i : instr) : Prop :=
  forall k, (1 <= k)%nat -> lists i k = true <->
    (exists q, In q s /\ outcome_of qi (measured pre) q 1 k) \/
    outcome_of qi (measured pre) a 1 k \/ reset = false /\ outcome_of qi (measured pre) a 2 k.
(* the detector of ancilla a in round r is requested: a is in anc_detectors (if given)
   and, in the first round without gauge detectors, of the type of the basis *)
Definition shown (l : layout) (rot gauge : bool) (dets : option (list string)) (a : string) (r : nat) : Prop :=
  (exists anc, get_role l "anc" = Ok anc /\ In a anc) /\ (forall ds, dets = Some ds -> In a ds) /\
  (r = 0%nat -> gauge = false -> exists s, get_stabs l (if rot then "x_type" else "z_type") = Ok s /\ In a s).

(** * Preparation and measurement of a qubit (C61, C62) *)
Definition touches {Q} `{Eqb Q} (i : Q) (g : gate Q) : bool :=
  match g with G1 _ q => eqb i q | G2 _ a b => eqb i a || eqb i b end.
(* the gates, resets and measurements that act on qubit i, in order *)
Definition acting {Q} `{Eqb Q} (i : Q) (l : list (gate Q)) : list (gate Q) := filter (touches i) l.
Definition on_qubit {Q} (i : Q) (gs : list gname) : list (gate Q) := map (fun g => G1 g i) gs.
Definition has_role (l : layout) (role q : string) : Prop := exists s, get_role l role = Ok s /\ In q s.
(* q is measured (prepared) in the X basis: in a CSS code all the data qubits with
   rot_basis; in an XZZX code the data qubits where the generators of the basis have an
   X factor *)
Definition turned (l : layout) (xz rot : bool) (q : string) : Prop :=
  if xz then exists s a, get_stabs l (if rot then "x_type" else "z_type") = Ok s /\ In a s /\ In q (fst (xzzx l a))
  else rot = true /\ has_role l "data" q.
(* initialization: reset, X if the entry of data_init is not 0, H if turned *)
Definition preparation (l : layout) (xz rot : bool) (data_init : dict string Z) (q : string) (gs : list gname) : Prop :=
  exists r x h : bool, gs = (if r then [GR] else []) ++ (if x then [GX] else []) ++ (if h then [GH] else []) /\
    (r = true <-> has_role l "anc" q \/ has_role l "data" q) /\
    (x = true <-> exists v, In (q, v) data_init /\ v <> 0) /\
    (h = true <-> turned l xz rot q).
(* measurement of the data qubits: H if turned, measurement *)
Definition readout (l : layout) (xz rot : bool) (q : string) (gs : list gname) : Prop :=
  exists h m : bool, gs = (if h then [GH] else []) ++ (if m then [GM] else []) /\
    (h = true <-> turned l xz rot q) /\ (m = true <-> has_role l "data" q).
(* neither Pauli gate, reset nor measurement *)
Definition clifford {Q} (g : gate Q) : Prop := match g with G1 n _ => n = GH | G2 _ _ _ => True end.

(** * Experiments with repeated transversal gates (C67) *)
(* neither Pauli gate, reset nor measurement *)
Definition unitary {Q} (g : gate Q) : Prop := match g with G1 n _ => In n [GH; GS; GSDAG] | G2 _ _ _ => True end.
