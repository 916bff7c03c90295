(** Vocabulary of the statements about Setup (C13-C16), in terms of the
    configuration dictionary given by the user. *)
From Coq Require Import QArith Qcanon.
From Verif Require Import Base SetupM.

(* the qubits an entry is about; [] for a global entry *)
Definition entry_qubits (e : dict string pval) : list string :=
  match dget "qubit" e, dget "qubits" e with
  | Some (VStr q), _ => [q]
  | None, Some (VList qs) => qs
  | _, _ => []
  end.
(* value given for exactly these qubits *)
Definition specific (es : list (dict string pval)) (p : string) (qs : list string) : option pval :=
  match qs, find (fun e => eqb (entry_qubits e) qs) es with
  | _ :: _, Some e => dget p e
  | _, _ => None
  end.
(* the last global entry that mentions p *)
Definition global (es : list (dict string pval)) (p : string) : option pval :=
  match find (fun e => eqb (entry_qubits e) [] && dmem p e) (rev es) with
  | Some e => dget p e
  | None => None
  end.
Definition or_else {A} (x y : option A) : option A := match x with Some _ => x | None => y end.
(* the generic parameter each error probability inherits from *)
Definition generic_of (p : string) : option string :=
  if mem p ["cz_error_prob"; "cnot_error_prob"; "swap_error_prob"] then Some "tq_error_prob"
  else if mem p ["h_error_prob"; "s_error_prob"; "sdag_error_prob"; "x_error_prob"; "z_error_prob";
                 "reset_error_prob"; "meas_error_prob"; "idle_error_prob"]
  then Some "sq_error_prob" else None.
Definition chosen (es : list (dict string pval)) (p : string) (qs : list string) : option pval :=
  or_else (specific es p qs)
    (or_else (global es p)
       (match generic_of p with Some g => global es g | None => None end)).

(* dictionaries have distinct keys *)
Definition wf_entries (es : list (dict string pval)) : Prop := Forall (fun e => NoDup (dkeys e)) es.

(* set_var_param calls, in order *)
Definition assign (s : setup) (avs : list (string * pval)) : setup :=
  fold_left (fun s a => set_var_param s (fst a) (snd a)) avs s.
Definition assigned (avs : list (string * pval)) (n : string) : option pval :=
  match find (fun a => eqb (fst a) n) (rev avs) with Some a => Some (snd a) | None => None end.

(* the value of a stored parameter value, given the assignments *)
Definition resolved (free : list string) (avs : list (string * pval)) (v : pval) : res pval :=
  match v with
  | VStr n => match assigned avs n with
              | Some VNone => Err ValueError
              | Some x => Ok x
              | None => if mem n free then Err ValueError else Ok v
              end
  | VList _ => Err TypeError
  | _ => Ok v
  end.

(* a str value that is also a parameter name is only used for that parameter:
   excludes the case in which Setup forgets to register a free parameter *)
Definition vars_clear (es : list (dict string pval)) : Prop :=
  forall e p v e' p', In e es -> In (p, VStr v) e -> p <> "qubit" ->
    In e' es -> In (p', VStr p) e' -> p' <> "qubit" -> v = p.
Definition is_qkey (p : string) : bool := eqb p "qubit" || eqb p "qubits".

(* what the object stores for a parameter and a tuple of qubits *)
Definition stored (s : setup) (p : string) (qs : list string) : option pval :=
  match qs with
  | [] => dget p (s_global s)
  | _ => match dget qs (s_qubit s) with Some d => dget p d | None => None end
  end.
