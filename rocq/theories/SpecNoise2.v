(** Vocabulary of the statements about noise channels (properties C53 to C57).
    Nothing here is used by the model of the code. *)
From Coq Require Import QArith Qcanon.
From Verif Require Import Base SetupM StimM NoiseM SpecNoise.
Open Scope Z_scope.

(* stim's order of the arguments of PAULI_CHANNEL_1 and PAULI_CHANNEL_2 *)
Definition pauli1 : list (list string) := [["X"]; ["Y"]; ["Z"]].
Definition pauli2 : list (list string) :=
  [["I"; "X"]; ["I"; "Y"]; ["I"; "Z"];
   ["X"; "I"]; ["X"; "X"]; ["X"; "Y"]; ["X"; "Z"];
   ["Y"; "I"]; ["Y"; "X"]; ["Y"; "Y"]; ["Y"; "Z"];
   ["Z"; "I"]; ["Z"; "X"]; ["Z"; "Y"]; ["Z"; "Z"]].

(* the Pauli product contains the biased Pauli *)
Definition biased (bp : pval) (op : list string) : bool :=
  match bp with VStr s => if in_dec string_dec s op then true else false | _ => false end.

(* a channel on exactly these qubits, of total probability the parameter p of these
   qubits, where the biased Paulis are eta times as likely as the others; the bias
   is the one of these qubits *)
Definition biased_for (m : model) (g : gname) (ops : list (list string)) (p : string)
  (qs : list string) (a : gname * list target * list arg) : Prop :=
  exists is v x bp bf eta (u : Qc),
    get_inds m qs = Ok is /\
    param (stp m) p qs = Ok v /\ as_num v = Ok x /\
    param (stp m) "biased_pauli" qs = Ok bp /\
    param (stp m) "biased_factor" qs = Ok bf /\ as_num bf = Ok eta /\
    let probs := map (fun op => if biased bp op then (eta * u)%Qc else u) ops in
    a = (g, map TQ is, map ANum probs) /\ sumQ probs = x.

(* an idling channel: X, Y, Z probabilities of this qubit's T1, T2 and the duration *)
Definition idle_for (m : model) (d : Qc) (q : string) (a : gname * list target * list arg) : Prop :=
  exists i v1 t1 v2 t2,
    dget q (inds m) = Some i /\
    param (stp m) "T1" [q] = Ok v1 /\ as_num v1 = Ok t1 /\
    param (stp m) "T2" [q] = Ok v2 /\ as_num v2 = Ok t2 /\
    (Q2Qc 0 < t1)%Qc /\ (Q2Qc 0 < t2)%Qc /\ (t2 < Q2Qc 2 * t1)%Qc /\ (Q2Qc 0 < d)%Qc /\
    a = (PAULI_CHANNEL_1, [TQ i], [AIdle 0 t1 t2 d; AIdle 1 t1 t2 d; AIdle 2 t1 t2 d]).

(* the name under which the setup stores the duration of an operation *)
Definition duration_name (o : op) : option string :=
  match o with
  | OX => Some "X" | OZ => Some "Z" | OH => Some "H" | OS => Some "S" | OSDAG => Some "S_DAG"
  | OCX => Some "CNOT" | OCZ => Some "CZ" | OSWAP => Some "SWAP"
  | OM | OMZ => Some "M" | OMX => Some "MX" | OMY => Some "MY"
  | OR | ORZ => Some "R" | ORX => Some "RX" | ORY => Some "RY"
  | _ => None
  end.

(* the measurements with their readout flip probability *)
Definition instr_readout (i : instr) : list (gname * target * list arg) :=
  if is_meas (nm i) then map (fun t => (nm i, t, ar i)) (tg i) else [].
Definition readouts (c : circuit) : list (gname * target * list arg) := flat_map instr_readout c.
Definition readout_for (m : model) (q : string) (a : gname * target * list arg) : Prop :=
  exists g i f, a = (g, TQ i, snd a) /\ dget q (inds m) = Some i /\
    param (stp m) "assign_error_flag" [q] = Ok f /\
    if truthy f
    then exists v x, param (stp m) "assign_error_prob" [q] = Ok v /\ as_num v = Ok x /\ snd a = [ANum x]
    else snd a = [].

(* gates and noise in the order in which they act *)
Inductive event := Gate (a : atom) | Noise (n : gname * list target * list arg).
Definition instr_events (i : instr) : list event :=
  map Gate (instr_atoms i) ++ map Noise (instr_noise i).
Definition events (c : circuit) : list event := flat_map instr_events c.

(* the channel changes the outcome of the measurement, resp. the state prepared *)
Definition flips (e g : gname) : bool :=
  match e, g with
  | X_ERROR, (GM | GMY | GR | GRY) => true
  | Z_ERROR, (GMX | GMY | GRX | GRY) => true
  | _, _ => false
  end.

(* the channels of ExperimentalNoiseModel *)
Definition channel1x (o : op) : option (gname * string) :=
  match o with
  | OX => Some (DEPOLARIZE1, "x_error_prob")
  | OZ => Some (DEPOLARIZE1, "z_error_prob")
  | OH => Some (DEPOLARIZE1, "h_error_prob")
  | OR | ORZ | ORY => Some (X_ERROR, "reset_error_prob")
  | ORX => Some (Z_ERROR, "reset_error_prob")
  | OM | OMZ | OMY => Some (X_ERROR, "meas_error_prob")
  | OMX => Some (Z_ERROR, "meas_error_prob")
  | _ => None
  end.
Definition measures (o : op) : bool := match o with OM | OMX | OMY | OMZ => true | _ => false end.
Definition prepares (o : op) : bool := match o with OR | ORX | ORY | ORZ => true | _ => false end.

(* every qubit idles for half of the duration before and after the gate, resp. for
   the whole duration after it *)
Definition sym_noise (m : model) (n : string) (qs : list string) (c : circuit) : Prop :=
  exists v x n1 n2, gate_duration (stp m) n = Ok v /\ as_num v = Ok x /\
    events c = map Noise n1 ++ map Gate (ideal c) ++ map Noise n2 /\
    Forall2 (idle_for m (Q2Qc (1 # 2) * x)%Qc) qs n1 /\
    Forall2 (idle_for m (Q2Qc (1 # 2) * x)%Qc) qs n2.
Definition asym_noise (m : model) (n : string) (qs : list string) (c : circuit) : Prop :=
  qs = [] \/ exists v x n2, gate_duration (stp m) n = Ok v /\ as_num v = Ok x /\
    events c = map Gate (ideal c) ++ map Noise n2 /\ Forall2 (idle_for m x) qs n2.
