(** Model of surface_sim/setup/setup.py (class Setup) and setup/library.py.

    Simplifications: parameter values are None, bool, exact rational, str or a
    list of str (the only use of lists is the value of the "qubits" key);
    "qubit" must be a str and "qubits" a list of str (anything else is reported
    as [Unmodelled]); YAML files and aliasing of returned dictionaries are not
    modelled. *)
From Coq Require Import QArith Qcanon.
From Verif Require Import Base.
Open Scope Z_scope.

Inductive pval := VNone | VBool (b : bool) | VNum (q : Qc) | VStr (s : string)
                | VList (l : list string).

(* a configuration dictionary {"name":..., "setup": [...]} ; setup.py:23-44.
   [None] is an absent key. *)
Record raw_setup := {
  r_name : pval; r_desc : pval;
  r_durations : option (dict string pval);
  r_params : option (list (dict string pval)) }.

(* instance attributes of Setup, setup.py:35-43 *)
Record setup := {
  s_name : pval; s_desc : pval;
  s_durations : dict string pval;
  s_qubit : dict (list string) (dict string pval);
  s_global : dict string pval;
  s_var : dict string pval (* VNone = unset *) }.

(* Setup.PARENTS, setup.py:9-21 *)
Definition parents : dict string string := [
  ("cz_error_prob", "tq_error_prob");
  ("cnot_error_prob", "tq_error_prob");
  ("swap_error_prob", "tq_error_prob");
  ("h_error_prob", "sq_error_prob");
  ("s_error_prob", "sq_error_prob");
  ("sdag_error_prob", "sq_error_prob");
  ("x_error_prob", "sq_error_prob");
  ("z_error_prob", "sq_error_prob");
  ("reset_error_prob", "sq_error_prob");
  ("meas_error_prob", "sq_error_prob");
  ("idle_error_prob", "sq_error_prob")].

(* setup.py:52-58: the qubits of an entry and the entry without that key *)
Definition pop_qubits (e : dict string pval) : res (option (list string) * dict string pval) :=
  match dget "qubit" e with
  | Some (VStr q) => Ok (Some [q], ddel "qubit" e)
  | Some _ => Err Unmodelled
  | None =>
      match dget "qubits" e with
      | Some (VList qs) => Ok (Some qs, ddel "qubits" e)
      | Some _ => Err Unmodelled
      | None => Ok (None, e)
      end
  end.

(* setup.py:67-69 *)
Definition register_vars (e : dict string pval) (vars : dict string pval) : dict string pval :=
  fold_left (fun vs pv =>
    match snd pv with
    | VStr v => if dmem (fst pv) vs then vs else dset v VNone vs
    | _ => vs
    end) e vars.

(* one iteration of the loop setup.py:51-69 *)
Definition load_entry (s : setup) (e : dict string pval) : res setup :=
  do (qs, e') <- pop_qubits e;
  do s' <- match qs with
           | Some (q :: r) =>
               if dmem (q :: r) (s_qubit s) then Err ValueError
               else Ok {| s_name := s_name s; s_desc := s_desc s; s_durations := s_durations s;
                          s_qubit := dset (q :: r) e' (s_qubit s);
                          s_global := s_global s; s_var := s_var s |}
           | _ => (* None or the empty tuple: both falsy *)
               Ok {| s_name := s_name s; s_desc := s_desc s; s_durations := s_durations s;
                     s_qubit := s_qubit s;
                     s_global := dupdate (s_global s) e'; s_var := s_var s |}
           end;
  Ok {| s_name := s_name s'; s_desc := s_desc s'; s_durations := s_durations s';
        s_qubit := s_qubit s'; s_global := s_global s';
        s_var := register_vars e' (s_var s') |}.

Fixpoint load_entries (s : setup) (es : list (dict string pval)) : res setup :=
  match es with
  | [] => Ok s
  | e :: r => do s' <- load_entry s e; load_entries s' r
  end.

(* Setup.__init__ and _load_setup, setup.py:23-69 *)
Definition setup_init (raw : raw_setup) : res setup :=
  let s0 := {| s_name := r_name raw; s_desc := r_desc raw;
               s_durations := match r_durations raw with Some d => d | None => [] end;
               s_qubit := []; s_global := []; s_var := [] |} in
  match r_params raw with
  | None | Some [] => Err ValueError
  | Some es => load_entries s0 es
  end.

(* free_params, setup.py:71-74 *)
Definition free_params (s : setup) : list string :=
  map fst (filter (fun kv => match snd kv with VNone => true | _ => false end) (s_var s)).

(* to_dict, setup.py:95-118: entries of one or two qubits keep their qubits *)
Definition entry_to_dict (kv : list string * dict string pval) : dict string pval :=
  match fst kv with
  | [q] => dset "qubit" (VStr q) (snd kv)
  | [q; q'] => dset "qubits" (VList [q; q']) (snd kv)
  | _ => snd kv
  end.
Definition to_dict (s : setup) : raw_setup :=
  {| r_name := s_name s; r_desc := s_desc s; r_durations := Some (s_durations s);
     r_params := Some ((match s_global s with [] => [] | g => [g] end)
                       ++ map entry_to_dict (s_qubit s)) |}.

(* var_param, setup.py:135-153. No parent has itself a parent, so the recursion
   stops after one step. *)
Definition var_param (s : setup) (v : string) : res pval :=
  let get v := match dget v (s_var s) with Some VNone | None => None | Some x => Some x end in
  match get v with
  | Some x => Ok x
  | None => match dget v parents with
            | Some p => of_opt ValueError (get p)
            | None => Err ValueError
            end
  end.

(* set_var_param, setup.py:155-170 *)
Definition set_var_param (s : setup) (v : string) (x : pval) : setup :=
  {| s_name := s_name s; s_desc := s_desc s; s_durations := s_durations s;
     s_qubit := s_qubit s; s_global := s_global s; s_var := dset v x (s_var s) |}.

(* set_param, setup.py:172-199 *)
Definition set_param (s : setup) (p : string) (x : pval) (qs : list string) : res setup :=
  match x with
  | VNone | VList _ => Err TypeError
  | _ =>
    match qs with
    | [] => Ok {| s_name := s_name s; s_desc := s_desc s; s_durations := s_durations s;
                  s_qubit := s_qubit s; s_global := dset p x (s_global s); s_var := s_var s |}
    | _ => do d <- dget_err qs (s_qubit s);
           Ok {| s_name := s_name s; s_desc := s_desc s; s_durations := s_durations s;
                 s_qubit := dset qs (dset p x d) (s_qubit s);
                 s_global := s_global s; s_var := s_var s |}
    end
  end.

(* _eval_param_val, setup.py:236-244. Only str values can be keys of _var_params;
   a list is not hashable. *)
Definition eval_val (s : setup) (x : pval) : res pval :=
  match x with
  | VStr v => match dget v (s_var s) with
              | None => Ok x
              | Some VNone => Err ValueError
              | Some y => Ok y
              end
  | VList _ => Err TypeError
  | _ => Ok x
  end.

(* lines setup.py:221-226: the stored value for these qubits, or the global one *)
Definition lookup (s : setup) (p : string) (qs : list string) : option pval :=
  match (match dget qs (s_qubit s) with Some d => dget p d | None => None end) with
  | Some x => Some x
  | None => dget p (s_global s)
  end.

(* param, setup.py:201-234. The recursive call on the parent passes no qubits;
   no parent has itself a parent. *)
Definition param (s : setup) (p : string) (qs : list string) : res pval :=
  match lookup s p qs with
  | Some x => eval_val s x
  | None =>
      match dget p parents with
      | Some p' => match lookup s p' [] with
                   | Some x => eval_val s x
                   | None => Err KeyError
                   end
      | None => Err KeyError
      end
  end.

(* gate_duration, setup.py:246-261 *)
Definition gate_duration (s : setup) (g : string) : res pval :=
  of_opt ValueError (dget g (s_durations s)).

(* CircuitNoiseSetup, setup/library.py:4-26 *)
Definition circuit_noise_raw : raw_setup :=
  {| r_name := VStr "Circuit-level noise setup";
     r_desc := VStr "Setup for a circuit-level noise model that can be used for any distance.";
     r_durations := None;
     r_params := Some [[ ("sq_error_prob", VStr "prob"); ("tq_error_prob", VStr "prob");
                         ("meas_error_prob", VStr "prob"); ("reset_error_prob", VStr "prob");
                         ("idle_error_prob", VStr "prob"); ("assign_error_flag", VBool true);
                         ("assign_error_prob", VStr "prob") ]] |}.

(* NoiselessModel's setup, models/library.py:894-896 *)
Definition empty_raw : raw_setup :=
  {| r_name := VNone; r_desc := VNone; r_durations := None; r_params := Some [[]] |}.
