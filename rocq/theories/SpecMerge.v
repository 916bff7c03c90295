(** Vocabulary of the statements about merged circuits (C42-C45, C63-C65). Nothing here is
    used by the model of the code. *)
From Coq Require Import QArith Qcanon.
From Coq Require Export Sorted.
From Verif Require Import Base StimM SetupM NoiseM SpecNoise DetM LayoutM BlockM MergeM.
Open Scope Z_scope.

(* the instructions between the k-th TICK and the next one *)
Fixpoint at_tick (k : nat) (c : circuit) : circuit :=
  match c with
  | [] => []
  | i :: r =>
      if eqb (nm i) TICK then match k with O => [] | S k => at_tick k r end
      else match k with O => i :: at_tick O r | S _ => at_tick k r end
  end.
(* One application of an instruction to a qubit or a pair; a DETECTOR or an
   OBSERVABLE_INCLUDE with all its targets. *)
Definition application : Type := gname * list target * list arg.
Definition uses (i : instr) : list application :=
  map (fun t => (nm i, t, ar i))
      (if not_fusable (nm i) then [tg i] else if is_two (nm i) then pairs_of (tg i) else map (fun t => [t]) (tg i)).
Definition applications (c : circuit) : list application := flat_map uses c.
(* the arguments after printing and parsing *)
Definition printed (show : arg -> arg) (a : application) : application :=
  match a with (g, t, x) => (g, t, map show x) end.
(* as stim requires: a two-qubit instruction has an even number of targets *)
Definition even_targets (c : circuit) : Prop :=
  Forall (fun i => is_two (nm i) = true -> Nat.even (length (tg i)) = true) c.
(* there is a measurement instruction after exactly k TICKs *)
Definition measures_at (c : circuit) (k : nat) : Prop := exists i, In i (at_tick k c) /\ is_meas (nm i) = true.
(* the applications to the qubit q, in order *)
Definition on_index (q : Z) (l : list application) : list application := filter (fun a => mem (TQ q) (snd (fst a))) l.
Definition name_of (a : application) : gname := fst (fst a).
(* the alphabetical order of the names *)
Definition alphabetical (a b : application) : Prop := String.leb (gname_str (name_of a)) (gname_str (name_of b)) = true.
(* no SHIFT_COORDS *)
Definition no_shift (cs : list circuit) : Prop := Forall (Forall (fun i => nm i <> SHIFT_COORDS)) cs.

(** * Merged generators (C44, C64) *)
(* a block of operations without measurements *)
Definition quiet_calls (b : list call) : Prop :=
  Forall (fun c => match c with Call (OM | OMX | OMY | OMZ) _ => False | Call _ _ => True | CTick => False end) b.
(* a block that measures: some qubits are measured, others idle *)
Definition readout_calls (b : list call) : Prop := exists a d, b = [Call OM a; Call OIDLE d].
(* The generators have the same number of blocks; TICKs and measurements are at the same
   places. *)
Definition lockstep (bls : list blocks) : Prop := exists n,
  Forall (fun bl => length bl = n) bls /\
  forall j, (forall bl b, In bl bls -> nth_error bl j = Some (Ok b) -> b = [CTick]) \/
            (forall bl b, In bl bls -> nth_error bl j = Some (Ok b) -> quiet_calls b) \/
            (forall bl b, In bl bls -> nth_error bl j = Some (Ok b) -> readout_calls b).
(* the parameters of single qubits are the same for all qubits *)
Definition uniform (s : setup) : Prop := forall p q q', param s p [q] = param s p [q'].
(* two states of the same model *)
Definition same_model (m m' : model) : Prop := kind m = kind m' /\ stp m = stp m' /\ inds m = inds m'.
(* What a model has been used for since new_circuit: operations, merged QEC rounds and
   merged measurements of generators in lockstep; [c] is the circuit so far. *)
Inductive past (fuse : bool) : model -> circuit -> Prop :=
| past_new m : wf_inds (inds m) -> past fuse (new_circuit m) []
| past_op m c o qs m' c1 : past fuse m c -> apply o qs m = (m', Ok c1) -> past fuse m' (c ++ c1)
| past_round w c it ls reset dets w' c1 : past fuse (fst w) c ->
    lockstep (map (fun kl => it (fst kl) (snd kl) reset) (enumerate ls)) ->
    merge_qec_rounds fuse it ls reset dets w = (w', Ok c1) -> past fuse (fst w') (c ++ c1)
| past_meas w c it ls rots reset dets w' c1 : past fuse (fst w) c ->
    lockstep (map (fun klr => it (fst klr) (fst (snd klr)) (snd (snd klr))) (enumerate (combine ls rots))) ->
    merge_log_meas fuse it ls rots reset dets w = (w', Ok c1) -> past fuse (fst w') (c ++ c1).
(** * Logical observables (C45) *)
(* the arguments of the OBSERVABLE_INCLUDE instructions, in order *)
Definition observable_args (c : circuit) : list (list arg) :=
  flat_map (fun i => if eqb (nm i) OBSERVABLE_INCLUDE then [ar i] else []) c.

(* the labels of the qubits of different layouts are different *)
Definition apart (ls : list layout) : Prop := forall k k' l l' q qs qs',
  nth_error ls k = Some l -> nth_error ls k' = Some l' -> get_qubits l [] = Ok qs -> get_qubits l' [] = Ok qs' ->
  In q qs -> In q qs' -> k = k'.
