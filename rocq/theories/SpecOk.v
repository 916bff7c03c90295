(** Vocabulary of the statements about experiments that are built without an exception
    (properties C73 and C80). Nothing here is used by the model of the code. *)
From Coq Require Import QArith Qcanon.
From Verif Require Import Base SetupM NoiseM LayoutM DetM GenM LogM ExpM.
Open Scope Z_scope.

(* the setup gives a probability for the parameter of these qubits *)
Definition gives_prob (s : setup) (p : string) (qs : list string) : Prop :=
  exists x, param s p qs = Ok (VNum x) /\ (Q2Qc 0 <= x)%Qc /\ (x <= Q2Qc 1)%Qc.
Definition gives_flag (s : setup) (q : string) : Prop :=
  exists b, param s "assign_error_flag" [q] = Ok (VBool b) /\ (b = true -> gives_prob s "assign_error_prob" [q]).
Definition gives_bias (s : setup) (qs : list string) : Prop :=
  exists P f, In P ["X"; "Y"; "Z"] /\ param s "biased_pauli" qs = Ok (VStr P) /\
    param s "biased_factor" qs = Ok (VNum f) /\ (Q2Qc 0 <= f)%Qc.
Definition one_qubit_params : list string :=
  ["x_error_prob"; "z_error_prob"; "h_error_prob"; "s_error_prob"; "sdag_error_prob"; "idle_error_prob"].
Definition two_qubit_params : list string := ["cz_error_prob"; "cnot_error_prob"; "swap_error_prob"].

(* the setup defines what the noise model reads for its qubits. A model whose idling
   needs a duration is never ready: the circuit blocks do not give one. *)
Definition ready (m : model) : Prop :=
  let s := stp m in
  let every (P : string -> Prop) : Prop := forall q, In q (dkeys (inds m)) -> P q in
  let readout := every (fun q => gives_prob s "meas_error_prob" [q] /\ gives_flag s q) in
  let gates := every (fun q => (forall p, In p one_qubit_params -> gives_prob s p [q]) /\ gives_prob s "reset_error_prob" [q]) /\
    (forall q q', In q (dkeys (inds m)) -> In q' (dkeys (inds m)) -> forall p, In p two_qubit_params -> gives_prob s p [q; q']) in
  match kind m with
  | Noiseless => True
  | Incoming => every (fun q => gives_prob s "idle_error_prob" [q])
  | Phenom => every (fun q => gives_prob s "idle_error_prob" [q]) /\ readout
  | Circ => gates /\ readout
  | Biased => gates /\ readout /\ every (fun q => gives_bias s [q]) /\
      (forall q q', In q (dkeys (inds m)) -> In q' (dkeys (inds m)) -> gives_bias s [q; q'])
  | Exper | Decoh _ => False
  end.

(* idle needs a duration: ExperimentalNoiseModel and DecoherenceNoiseModel *)
Definition timed (m : model) : Prop := match kind m with Exper | Decoh _ => True | _ => False end.

(* the object was made by Detectors(...), whatever has been done with it since *)
Definition made (d : detectors) : Prop :=
  exists ls f cs d0, det_init ls f cs = Ok d0 /\ labels d = labels d0 /\ dfr d = dfr d0 /\ dcoords d = dcoords d0.

(* the generator of the layouts of a memory experiment *)
Definition generates (k : memory_kind) : gen_args -> res layout :=
  match k with UnrotCss => unrot_surface_code_rectangle | _ => rot_surface_code_rectangle end.

(* the generator of the layouts of an experiment with repeated gates, the function that
   adds its gate to a layout and the label of this gate *)
Definition rep_generates (k : repeated_kind) : gen_args -> res layout :=
  match k with SRot | SPipelined => rot_surface_code_rectangle | _ => unrot_surface_code_rectangle end.
Definition rep_sets (k : repeated_kind) : layout -> string -> res layout :=
  match k with SRot | SPipelined => set_trans_s_rot | SUnrot => set_trans_s_unrot | HUnrot => set_trans_h end.
Definition rep_label (k : repeated_kind) (a : gen_args) : string :=
  ((match k with HUnrot => "trans-h_" | _ => "trans-s_" end) ++ ga_log a)%string.
(* the numbers of gates the experiments accept: the S gates need an even number *)
Definition gates_ok (k : repeated_kind) (n : Z) : Prop :=
  0 <= n /\ match k with HUnrot => True | _ => Z.even n = true end.

(* arguments of a memory experiment on [l] that fit together *)
Record fits (l : layout) (data_init : dict string Z) (dets : option (list string)) (m : model) (d : detectors) : Prop := {
  ft_inds : NoDup (dkeys (inds m)) /\ NoDup (dvals (inds m));
  ft_qubits : incl (dkeys (l_nodes l)) (dkeys (inds m));
  ft_ready : ready m;
  ft_made : made d;
  ft_labels : exists ancs, get_role l "anc" = Ok ancs /\ incl ancs (labels d) /\
    forall ds, dets = Some ds -> incl ds ancs;
  ft_init : forall q b, In (q, b) data_init -> In q (dkeys (inds m)) }.

Definition raises {S A} (x : S * res A) : Prop := exists e, snd x = Err e.
Definition returns {S A} (x : S * res A) : Prop := exists a, snd x = Ok a.
