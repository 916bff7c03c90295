(** Model of surface_sim/experiments: memory_experiment of the six files,
    repeated_s_experiment and repeated_h_experiment; and of the split of the outcomes in
    util/data_gen.py.

    Argument types are as annotated (the isinstance checks pass). An experiment runs
    many blocks, each of which iterates over sets: [ordt t] is the order of iteration
    in the t-th block (0: the experiment itself, 1: initialization, 2: final
    measurement, 3 + r: round r), so that no order is assumed to be the same in two
    blocks. *)
From Coq Require Import QArith Qcanon.
From Verif Require Import Base StimM SetupM NoiseM DetM LayoutM BlockM.
Open Scope Z_scope.

Section Exp.
  Context (ordt : nat -> nat -> list string -> list string).

  (* the stabilizer type of the measured basis *)
  Definition basis_type (rot_basis : bool) : string := if rot_basis then "x_type" else "z_type".
  (* set(anc_detectors).intersection(stab_qubits), rot_surface_code_css.py:82-85 *)
  Definition first_dets (l : layout) (rot_basis : bool) (dets : list string) : res (list string) :=
    do s <- get_stabs l (basis_type rot_basis);
    Ok (ordt 0%nat 0%nat (inter (dedup dets) s)).
  (* anc_detectors = layout.get_qubits(role="anc") if None, rot_surface_code_css.py:71-72 *)
  Definition default_dets (l : layout) (dets : option (list string)) : res (list string) :=
    match dets with Some d => Ok d | None => get_role l "anc" end.
  (* model.new_circuit(); detectors.new_circuit(); qubit_coords(model, *layouts),
     rot_surface_code_css.py:74-78 *)
  Definition exp_start (ls : list layout) : ST world circuit :=
    sdo _ <- onm (fun m => (new_circuit m, Ok tt));
    sdo _ <- ond (fun _ d => (det_new d, Ok tt));
    onm (sread (block_coords ls)).
  (* the loop over the rounds, rot_surface_code_css.py:81-89 *)
  Definition exp_rounds (round : nat -> list string -> ST world circuit) (l : layout) (rot_basis gauge : bool)
             (dets : list string) (n : nat) : ST world circuit :=
    sfold (fun acc r =>
        sdo ds <- slift (if Nat.eqb r 0 && negb gauge then first_dets l rot_basis dets else Ok dets);
        sdo c <- round r ds;
        sret (acc ++ c)) (seq 0 n) [].

  (* memory_experiment, rot_surface_code_css.py:20-95; the same in the other files but
     Google's, with other blocks *)
  Definition memory_with (init : layout -> dict string Z -> bool -> ST world circuit)
             (round : nat -> layout -> bool -> option (list string) -> ST world circuit)
             (meas : layout -> bool -> bool -> option (list string) -> ST world circuit)
             (l : layout) (num_rounds : Z) (data_init : dict string Z) (rot_basis anc_reset : bool)
             (dets : option (list string)) (gauge : bool) : ST world circuit :=
    if num_rounds <? 0 then sfail ValueError else
    sdo dets <- slift (default_dets l dets);
    sdo c0 <- exp_start [l];
    sdo c1 <- init l data_init rot_basis;
    sdo c2 <- exp_rounds (fun r ds => round r l anc_reset (Some ds)) l rot_basis gauge dets (Z.to_nat num_rounds);
    sdo c3 <- meas l rot_basis anc_reset (Some dets);
    sret (c0 ++ c1 ++ c2 ++ c3).

  Definition memory_css (it : (nat -> list string -> list string) -> layout -> bool -> blocks) :=
    memory_with (init_qubits (ordt 1)) (fun r => qec_round (it (ordt (3 + r)%nat))) log_meas.
  Definition memory_xzzx_with (it : (nat -> list string -> list string) -> layout -> bool -> blocks) :=
    memory_with (init_qubits_xzzx (ordt 1)) (fun r => qec_round (it (ordt (3 + r)%nat))) (log_meas_xzzx (ordt 2)).
  (* rot_surface_code_css.py:20-95 *)
  Definition memory_rot_css := memory_css (fun ord => css_round ord "rotated_surface_code").
  (* unrot_surface_code_css.py:21-96 *)
  Definition memory_unrot_css := memory_css (fun ord => css_round ord "unrotated_surface_code").
  (* rot_surface_code_css_pipelined.py:16-89 *)
  Definition memory_css_pipelined := memory_css css_pipe_round.
  (* rot_surface_code_xzzx.py:14-87 *)
  Definition memory_xzzx := memory_xzzx_with xzzx_round.
  (* rot_surface_code_xzzx_pipelined.py:14-87 *)
  Definition memory_xzzx_pipelined := memory_xzzx_with xzzx_pipe_round.
  (* rot_surface_code_xzzx_google.py:15-96 *)
  Definition memory_google (l : layout) (num_rounds : Z) (data_init : dict string Z) (rot_basis : bool)
             (dets : option (list string)) (gauge : bool) : ST world circuit :=
    if num_rounds <=? 0 then sfail ValueError else
    sdo dets <- slift (default_dets l dets);
    sdo c0 <- exp_start [l];
    sdo c1 <- init_qubits_xzzx (ordt 1) l data_init rot_basis;
    if num_rounds =? 1 then
      sdo ds <- slift (if negb gauge then first_dets l rot_basis dets else Ok dets);
      sdo c2 <- google_log_meas (ordt 2) l rot_basis (Some ds);
      sret (c0 ++ c1 ++ c2)
    else
      sdo c2 <- exp_rounds (fun r ds => google_qec_round (ordt (3 + r)%nat) l (Some ds)) l rot_basis gauge dets
                  (Z.to_nat (num_rounds - 1));
      sdo c3 <- google_log_meas (ordt 2) l rot_basis (Some dets);
      sret (c0 ++ c1 ++ c2 ++ c3).

  (* repeated_s_experiment, rot_surface_code_css.py:98-187, unrot_surface_code_css.py:99-188,
     rot_surface_code_css_pipelined.py:92-181, and repeated_h_experiment,
     unrot_surface_code_css.py:191-282: [gate] is the logical gate, [swaps] tells if it
     exchanges the bases (the H experiment has no test for an even number of gates and
     measures in the other basis if it is odd). Block 3 is the first round, block 3 + k
     the k-th block after it. *)
  Definition repeated_with (it : (nat -> list string -> list string) -> layout -> bool -> blocks)
             (gate : nat -> layout -> ST world circuit) (swaps : bool)
             (l : layout) (num_gates rounds_per_gate : Z) (data_init : dict string Z) (rot_basis anc_reset : bool)
             (dets : option (list string)) (gauge : bool) : ST world circuit :=
    if rounds_per_gate <? 0 then sfail ValueError else
    if (num_gates <? 0) || (negb swaps && (num_gates mod 2 =? 1)) then sfail ValueError else
    sdo dets <- slift (default_dets l dets);
    sdo c0 <- exp_start [l];
    sdo c1 <- init_qubits (ordt 1) l data_init rot_basis;
    sdo ds <- slift (if negb gauge then first_dets l rot_basis dets else Ok dets);
    sdo c2 <- qec_round (it (ordt 3)) l anc_reset (Some ds);
    let n := Z.to_nat rounds_per_gate in
    sdo c3 <- sfold (fun acc k =>
        let t := (4 + k * S n)%nat in
        sdo c <- gate t l;
        sdo d <- sfold (fun acc r => sdo c <- qec_round (it (ordt (t + 1 + r)%nat)) l anc_reset (Some dets); sret (acc ++ c)) (seq 0 n) [];
        sret (acc ++ c ++ d)) (seq 0 (Z.to_nat num_gates)) [];
    sdo c4 <- log_meas l (if swaps && negb (num_gates mod 2 =? 0) then negb rot_basis else rot_basis) anc_reset (Some dets);
    sret (c0 ++ c1 ++ c2 ++ c3 ++ c4).
  Context (ordp : nat -> nat -> list (string * string) -> list (string * string)).
  Definition repeated_s_rot_css :=
    repeated_with (fun ord => css_round ord "rotated_surface_code") (fun t => log_trans_s (ordt t) (ordp t)) false.
  Definition repeated_s_css_pipelined := repeated_with css_pipe_round (fun t => log_trans_s (ordt t) (ordp t)) false.
  Definition repeated_s_unrot_css :=
    repeated_with (fun ord => css_round ord "unrotated_surface_code") (fun t => log_trans_s (ordt t) (ordp t)) false.
  Definition repeated_h_unrot_css :=
    repeated_with (fun ord => css_round ord "unrotated_surface_code") (fun t => log_trans_h (ordt t) (ordp t)) true.
End Exp.

(** * util/data_gen.py *)
(* x.reshape(n, m) of a flat list, [None] if the sizes do not fit *)
Fixpoint rows {A} (n m : nat) (x : list A) : list (list A) :=
  match n with O => [] | S n => firstn m x :: rows n m (skipn m x) end.
Definition reshape {A} (n m : nat) (x : list A) : option (list (list A)) :=
  if Nat.eqb (length x) (n * m) then Some (rows n m x) else None.
(* anc_meas and data_meas of one shot, data_gen.py:37-52, with the coordinates
   anc_qubit and data_qubit, data_gen.py:75-81: a DataArray with a labelled dimension of
   another length than its coordinate is rejected. *)
Definition split_outcomes {A} (l : layout) (num_rounds : nat) (outcomes : list A)
  : res (list (list (string * A)) * list (string * A)) :=
  do anc <- get_role l "anc";
  do data <- get_role l "data";
  let k := (num_rounds * length anc)%nat in
  do a <- of_opt ValueError (reshape num_rounds (length anc) (firstn k outcomes));
  let d := skipn k outcomes in
  if negb (Nat.eqb (length d) (length data)) then Err ValueError else
  Ok (map (combine anc) a, combine data d).

(* the memory experiments with the same arguments *)
Inductive memory_kind := RotCss | UnrotCss | CssPipelined | Xzzx | XzzxPipelined.
Definition memory ordt (k : memory_kind) :=
  match k with
  | RotCss => memory_rot_css ordt | UnrotCss => memory_unrot_css ordt | CssPipelined => memory_css_pipelined ordt
  | Xzzx => memory_xzzx ordt | XzzxPipelined => memory_xzzx_pipelined ordt
  end.
(* the experiments with repeated gates of one layout *)
Inductive repeated_kind := SRot | SPipelined | SUnrot | HUnrot.
Definition repeated ordt ordp (k : repeated_kind) :=
  match k with
  | SRot => repeated_s_rot_css ordt ordp | SPipelined => repeated_s_css_pipelined ordt ordp
  | SUnrot => repeated_s_unrot_css ordt ordp | HUnrot => repeated_h_unrot_css ordt ordp
  end.
