(** Properties of Setup: C13, C14, C15, C16. *)
From Coq Require Import QArith Qcanon.
From Verif Require Import Base SetupM SpecSetup SetupP.

(* concrete configuration for the examples *)
Definition ex_entries : list (dict string pval) :=
  [[("sq_error_prob", VStr "p"); ("assign_error_flag", VBool true)];
   [("qubit", VStr "D1"); ("sq_error_prob", VNum (Q2Qc (1#7))); ("meas_error_prob", VStr "m")];
   [("qubits", VList ["D1"; "X1"]); ("cz_error_prob", VNum (Q2Qc (1#5)))]].
Definition ex_raw (es : list (dict string pval)) : raw_setup :=
  {| r_name := VStr "s"; r_desc := VNone; r_durations := Some [("X", VNum (Q2Qc 20))]; r_params := Some es |}.

(** C13. The answer of param after loading any dictionary and after any list of
    set_var_param calls: value for exactly these qubits, else the last global
    value, else the global value of the generic parameter. *)
Theorem C13_param_precedence raw s es avs p qs :
  setup_init raw = Ok s -> r_params raw = Some es -> wf_entries es -> is_qkey p = false ->
  param (assign s avs) p qs =
  match chosen es p qs with
  | Some v => resolved (free_params s) avs v
  | None => Err KeyError
  end.
Proof. exact (C13_lemma raw s es avs p qs). Qed.
Print Assumptions C13_param_precedence.
Example C13_nonvacuous : exists s,
  setup_init (ex_raw ex_entries) = Ok s /\ free_params s = ["p"; "m"] /\
  wf_entries ex_entries /\
  param s "x_error_prob" ["D2"] = Err ValueError /\
  param (assign s [("p", VNum (Q2Qc (1#3)))]) "x_error_prob" ["D2"] = Ok (VNum (Q2Qc (1#3))) /\
  param s "cz_error_prob" ["D1"; "X1"] = Ok (VNum (Q2Qc (1#5))) /\
  param s "cz_error_prob" ["X1"; "D1"] = Err KeyError.
Proof.
  eexists. split; [vm_compute; reflexivity|].
  split; [vm_compute; reflexivity|]. split.
  - repeat constructor; simpl; intuition discriminate.
  - vm_compute. auto.
Qed.

(** C14. Wanted: if sq_error_prob is given for D1, then x_error_prob asked for D1
    falls back to it. What holds: without a value for exactly these qubits the
    answer is the one for no qubits at all. *)
Theorem C14_fallback_is_global_partial raw s es avs p qs :
  setup_init raw = Ok s -> r_params raw = Some es -> wf_entries es -> is_qkey p = false ->
  specific es p qs = None -> param (assign s avs) p qs = param (assign s avs) p [].
Proof. exact (C14_lemma raw s es avs p qs). Qed.
Print Assumptions C14_fallback_is_global_partial.
Theorem C14_qubit_generic_refuted : exists es s a,
  setup_init (ex_raw es) = Ok s /\ generic_of "x_error_prob" = Some "sq_error_prob" /\
  specific es "x_error_prob" ["D1"] = None /\ global es "x_error_prob" = None /\
  specific es "sq_error_prob" ["D1"] = Some (VNum a) /\
  param s "sq_error_prob" ["D1"] = Ok (VNum a) /\ param s "x_error_prob" ["D1"] = Err KeyError.
Proof.
  exists [[("qubit", VStr "D1"); ("sq_error_prob", VNum (Q2Qc (1#7)))]].
  eexists; eexists. split; [vm_compute; reflexivity|]. vm_compute. auto 8.
Qed.
Print Assumptions C14_qubit_generic_refuted.

(** C15. Round trip of a loaded setup (whatever its free parameters have been set
    to) for entries about at most two qubits, when some parameter is given and
    no variable is forgotten by Setup itself (vars_clear). *)
Theorem C15_round_trip_partial raw s es avs :
  setup_init raw = Ok s -> r_params raw = Some es -> wf_entries es -> vars_clear es ->
  (forall e, In e es -> (length (entry_qubits e) <= 2)%nat) ->
  (exists e, In e es /\ (entry_qubits e <> [] \/ exists p v, is_qkey p = false /\ dget p e = Some v)) ->
  exists s', setup_init (to_dict (assign s avs)) = Ok s' /\
    (forall p qs, is_qkey p = false -> param s' p qs = param s p qs) /\
    (forall g, gate_duration s' g = gate_duration s g).
Proof. exact (C15_lemma' raw s es avs). Qed.
Print Assumptions C15_round_trip_partial.
Example C15_nonvacuous : exists s,
  setup_init (ex_raw ex_entries) = Ok s /\ wf_entries ex_entries /\ vars_clear ex_entries /\
  (forall e, In e ex_entries -> (length (entry_qubits e) <= 2)%nat) /\
  (exists e, In e ex_entries /\ entry_qubits e <> []).
Proof.
  eexists. split; [vm_compute; reflexivity|]. split; [|split; [|split]].
  - repeat constructor; simpl; intuition discriminate.
  - intros e p v e' p' He Hp Hq He' Hp' Hq'. unfold ex_entries in *. simpl in He, He'.
    intuition (subst; simpl in *; intuition congruence).
  - intros e He. simpl in He. intuition (subst; simpl; lia).
  - exists [("qubits", VList ["D1"; "X1"]); ("cz_error_prob", VNum (Q2Qc (1#5)))]. split; [simpl; auto|discriminate].
Qed.
(* parameters of three qubits become global ones *)
Theorem C15_three_qubits_refuted : exists es s s' v,
  setup_init (ex_raw es) = Ok s /\ setup_init (to_dict s) = Ok s' /\
  param s "sq_error_prob" [] = Err KeyError /\ param s' "sq_error_prob" [] = Ok v.
Proof.
  exists [[("qubits", VList ["A"; "B"; "C"]); ("sq_error_prob", VNum (Q2Qc (1#7)))]].
  do 3 eexists. split; [vm_compute; reflexivity|]. split; [vm_compute; reflexivity|]. vm_compute. auto.
Qed.
Print Assumptions C15_three_qubits_refuted.
(* the setup of NoiselessModel cannot be reloaded *)
Theorem C15_empty_setup_refuted : exists s,
  setup_init empty_raw = Ok s /\ setup_init (to_dict s) = Err ValueError.
Proof. eexists. split; [vm_compute; reflexivity|]. vm_compute. auto. Qed.
Print Assumptions C15_empty_setup_refuted.
(* a free parameter with the name of a parameter hides later free parameters,
   and the order of the entries is not kept: here the reloaded setup answers
   with the text "z" a query that raised *)
Theorem C15_hidden_variable_refuted : exists es s s',
  setup_init (ex_raw es) = Ok s /\ setup_init (to_dict s) = Ok s' /\
  (forall e, In e es -> (length (entry_qubits e) <= 2)%nat) /\
  param s "a" ["D1"] = Err ValueError /\ param s' "a" ["D1"] = Ok (VStr "z").
Proof.
  exists [[("qubit", VStr "D1"); ("a", VStr "z")]; [("b", VStr "a")]].
  do 2 eexists. split; [vm_compute; reflexivity|]. split; [vm_compute; reflexivity|].
  split; [|vm_compute; auto]. intros e He. simpl in He. intuition (subst; simpl; lia).
Qed.
Print Assumptions C15_hidden_variable_refuted.

(** C16. set_param and set_var_param. *)
Theorem C16_set_param_frame s p v qs s' :
  dmem [] (s_qubit s) = false -> set_param s p v qs = Ok s' ->
  param s' p qs = eval_val s v /\
  (forall p' qs', (p', qs') <> (p, qs) -> stored s p' qs' <> None -> param s' p' qs' = param s p' qs') /\
  (qs <> [] -> forall p' qs', (p', qs') <> (p, qs) -> param s' p' qs' = param s p' qs').
Proof. exact (C16_set_param s p v qs s'). Qed.
Print Assumptions C16_set_param_frame.
Theorem C16_set_param_stored s p v qs s' :
  dmem [] (s_qubit s) = false -> set_param s p v qs = Ok s' ->
  stored s' p qs = Some v /\
  (forall p' qs', (p', qs') <> (p, qs) -> stored s' p' qs' = stored s p' qs') /\
  s_var s' = s_var s /\ s_durations s' = s_durations s /\ dmem [] (s_qubit s') = false.
Proof. exact (set_param_stored s p v qs s'). Qed.
Print Assumptions C16_set_param_stored.
Theorem C16_loaded_ok raw s es :
  setup_init raw = Ok s -> r_params raw = Some es -> wf_entries es -> dmem [] (s_qubit s) = false.
Proof. exact (loaded_nokey raw s es). Qed.
Print Assumptions C16_loaded_ok.
Theorem C16_set_var_param_frame s n x p qs :
  let v := or_else (or_else (stored s p qs) (stored s p []))
             (match generic_of p with Some g => stored s g [] | None => None end) in
  dmem [] (s_qubit s) = false ->
  (v = Some (VStr n) -> x <> VNone -> param (set_var_param s n x) p qs = Ok x) /\
  (v <> Some (VStr n) -> param (set_var_param s n x) p qs = param s p qs).
Proof. exact (C16_set_var' s n x p qs). Qed.
Print Assumptions C16_set_var_param_frame.
Example C16_nonvacuous : exists s s',
  setup_init (ex_raw ex_entries) = Ok s /\ dmem [] (s_qubit s) = false /\
  set_param s "sq_error_prob" (VNum (Q2Qc (1#2))) ["D1"] = Ok s' /\
  stored s "sq_error_prob" ["D1"] <> None /\
  stored s "sq_error_prob" [] = Some (VStr "p").
Proof.
  do 2 eexists. split; [vm_compute; reflexivity|]. split; [vm_compute; reflexivity|].
  split; [vm_compute; reflexivity|]. split; [vm_compute; discriminate|vm_compute; reflexivity].
Qed.
