(** Model of surface_sim/models/model.py, models/library.py and models/util.py.

    Simplifications: an Iterable[str] argument is a list that can be iterated
    several times (a one-shot generator is not modelled); floating point numbers
    are exact rationals; numpy integer overflow is not modelled. *)
From Coq Require Import QArith Qcanon.
From Verif Require Import Base SetupM StimM.
Open Scope Z_scope.

(** * models/util.py *)

(* num_biased_ops, util.py:9-12 *)
Definition num_biased_ops (n : nat) : Z :=
  fold_right Z.add 0
    (map (fun i => 4 ^ Z.of_nat i * 3 ^ (Z.of_nat n - 1 - Z.of_nat i)) (seq 0 n)).

(* grouper(l, 2), util.py:15-19: zip(strict=True) of an odd list is a ValueError *)
Fixpoint grouper2 {A} (l : list A) : res (list (A * A)) :=
  match l with
  | [] => Ok []
  | [_] => Err ValueError
  | a :: b :: r => do t <- grouper2 r; Ok ((a, b) :: t)
  end.

(* itertools.product(paulis, repeat=n), util.py:48-50 *)
Definition paulis : list string := ["I"; "X"; "Y"; "Z"].
Fixpoint product_rep (n : nat) : list (list string) :=
  match n with
  | O => [[]]
  | S k => flat_map (fun p => map (cons p) (product_rep k)) paulis
  end.
Definition operators (n : nat) : list (list string) := tl (product_rep n).

(* biased_prefactors, util.py:22-67.  [in_op op] is the test "biased_pauli in op". *)
Definition prefactors (in_op : list string -> bool) (factor : Qc) (n : nat) : res (list Qc) :=
  let ops := operators n in
  let num_ops := Q2Qc (inject_Z (Z.of_nat (length ops))) in
  let num_biased := Q2Qc (inject_Z (Z.of_nat (length (filter in_op ops)))) in
  let den := (num_biased * (factor - 1) + num_ops)%Qc in
  if eqb den (Q2Qc 0) then Err ZeroDivisionError
  else
    let nonbias := (/ den)%Qc in
    let bias := (factor * nonbias)%Qc in
    Ok (map (fun op => if in_op op then bias else nonbias) ops).
(* only a str can be equal to an element of op *)
Definition in_op (p : pval) (op : list string) : bool :=
  match p with VStr s => mem s op | _ => false end.

(* a parameter used as a number / as a condition *)
Definition as_num (v : pval) : res Qc :=
  match v with
  | VNum x => Ok x
  | VBool b => Ok (if b then Q2Qc 1 else Q2Qc 0)
  | _ => Err TypeError
  end.
Definition truthy (v : pval) : bool :=
  match v with
  | VNone => false | VBool b => b | VNum x => negb (eqb x (Q2Qc 0))
  | VStr s => negb (eqb s "") | VList l => match l with [] => false | _ => true end
  end.
Definition Qpos (x : Qc) : bool := negb (Qle_bool x 0).

(** * models/model.py *)

(* the classes of models/library.py; Decoh carries symmetric_noise *)
Inductive mkind := Circ | Biased | Decoh (sym : bool) | Exper | Noiseless | Incoming | Phenom.

(* attributes of Model, model.py:9-14 *)
Record model := {
  kind : mkind; stp : setup; inds : dict string Z;
  order : dict string (list Z); num : Z }.

(* Model.__init__, model.py:9-14 *)
Definition model_init (k : mkind) (s : setup) (qi : dict string Z) : model :=
  {| kind := k; stp := s; inds := qi; order := map (fun kv => (fst kv, [])) qi; num := 0 |}.

(* new_circuit, model.py:95-100 *)
Definition new_circuit (m : model) : model :=
  {| kind := kind m; stp := stp m; inds := inds m;
     order := map (fun kv => (fst kv, [])) (inds m); num := 0 |}.

(* get_inds, model.py:27-31 *)
Definition get_inds (m : model) (qs : list string) : res (list Z) :=
  mapM (fun q => dget_err q (inds m)) qs.

(* param / gate_duration, model.py:24-25, 33-34 *)
Definition mparam (m : model) (p : string) (qs : list string) : res pval := param (stp m) p qs.
Definition mdur (m : model) (g : string) : res pval := gate_duration (stp m) g.

(* add_meas, model.py:37-46 *)
Definition add_meas (q : string) : ST model unit := fun m =>
  if negb (dmem q (inds m)) then (m, Err ValueError)
  else match dget q (order m) with
       | None => (m, Err KeyError)
       | Some l => ({| kind := kind m; stp := stp m; inds := inds m;
                       order := dset q (l ++ [num m]) (order m); num := num m + 1 |}, Ok tt)
       end.

(* Python list indexing l[k] *)
Definition py_nth {A} (l : list A) (k : Z) : res A :=
  let n := Z.of_nat (length l) in
  let k' := if k <? 0 then k + n else k in
  if (k' <? 0) || (n <=? k') then Err IndexError
  else of_opt IndexError (nth_error l (Z.to_nat k')).

(* meas_target, model.py:48-93 *)
Definition meas_target (m : model) (q : string) (k : Z) : res target :=
  do l <- dget_err q (order m);
  let n := Z.of_nat (length l) in
  if (n <? k) || (k <? - n) then Err ValueError
  else do a <- py_nth l k; Ok (TR (a - num m)).

(* tick, model.py:103-106 *)
Definition tick : circuit := append [] (Instr TICK [] []).

(* qubit_coords, model.py:108-121 *)
Definition qubit_coords (m : model) (coords : dict string (list Qc)) : res circuit :=
  if strict_superset (dkeys coords) (dkeys (inds m)) then Err ValueError
  else foldM (fun c kv => do i <- dget_err (fst kv) (inds m);
                          Ok (append c (Instr QUBIT_COORDS [TQ i] (map ANum (snd kv)))))
             coords [].

(** * models/library.py *)

(* X_ERROR / Z_ERROR / DEPOLARIZE1 with a parameter, e.g. library.py:20-22, 116-118 *)
Definition chan1 (m : model) (g : gname) (p : string) (q : string) (i : Z) : res instr :=
  do v <- mparam m p [q]; do x <- as_num v; mk g [TQ i] [ANum x].
(* DEPOLARIZE2, library.py:78-80 *)
Definition chan2 (m : model) (g : gname) (p : string) (qq : string * string) (ii : Z * Z)
  : res instr :=
  do v <- mparam m p [fst qq; snd qq]; do x <- as_num v;
  mk g [TQ (fst ii); TQ (snd ii)] [ANum x].
(* prob * biased_prefactors(...), library.py:225-231 and 313-319 *)
Definition biased_probs (m : model) (p : string) (qs : list string) (n : nat) : res (list arg) :=
  do v <- mparam m p qs;
  do bp <- mparam m "biased_pauli" qs;
  do bf <- mparam m "biased_factor" qs;
  do f <- as_num bf;
  do pre <- prefactors (in_op bp) f n;
  do x <- as_num v;
  Ok (map (fun y => ANum (x * y)%Qc) pre).
Definition bchan1 (m : model) (p : string) (q : string) (i : Z) : res instr :=
  do a <- biased_probs m p [q] 1; mk PAULI_CHANNEL_1 [TQ i] a.
Definition bchan2 (m : model) (p : string) (qq : string * string) (ii : Z * Z) : res instr :=
  do a <- biased_probs m p [fst qq; snd qq] 2;
  mk PAULI_CHANNEL_2 [TQ (fst ii); TQ (snd ii)] a.

(* the loop "for qubit, ind in zip(qubits, inds): circ.append(channel)" *)
Definition chans (f : string -> Z -> res instr) (l : list (string * Z)) (c : circuit) : res circuit :=
  foldM (fun c qi => do i <- f (fst qi) (snd qi); Ok (append c i)) l c.
Definition chans2 (f : string * string -> Z * Z -> res instr)
  (l : list ((string * string) * (Z * Z))) (c : circuit) : res circuit :=
  foldM (fun c qi => do i <- f (fst qi) (snd qi); Ok (append c i)) l c.

(* one-qubit gates and resets: gate on all the qubits, then one channel per qubit;
   library.py:14-67, 168-199 (and the same lines of the other classes) *)
Definition gate1 (m : model) (g : gname) (f : string -> Z -> res instr) (qs : list string)
  : res circuit :=
  do is <- get_inds m qs;
  do i <- mk g (map TQ is) [];
  chans f (combine qs is) (append [] i).

(* two-qubit gates, library.py:69-109 *)
Definition gate2 (m : model) (g : gname) (f : string * string -> Z * Z -> res instr)
  (qs : list string) : res circuit :=
  if Nat.odd (length qs) then Err ValueError
  else
    do is <- get_inds m qs;
    do i <- mk g (map TQ is) [];
    do qp <- grouper2 qs;
    do ip <- grouper2 is;
    chans2 f (combine qp ip) (append [] i).

(* idle of Circ/Biased, library.py:201-208, 453-466 *)
Definition idle1 (m : model) (f : string -> Z -> res instr) (qs : list string) : res circuit :=
  do is <- get_inds m qs; chans f (combine qs is) [].

(* NoiselessModel gates, library.py:898-977 *)
Definition gate0 (m : model) (g : gname) (qs : list string) : res circuit :=
  do is <- get_inds m qs; do i <- mk g (map TQ is) []; Ok (append [] i).

(* the measurement with an optional readout flip, library.py:122-126 *)
Definition meas_instr (m : model) (g : gname) (q : string) (i : Z) : res instr :=
  do fl <- mparam m "assign_error_flag" [q];
  if truthy fl
  then do v <- mparam m "assign_error_prob" [q]; do x <- as_num v; mk g [TQ i] [ANum x]
  else mk g [TQ i] [].

(* measure, measure_x, measure_y of Circ/Biased/Exper/Phenom, library.py:111-166 *)
Definition measure1 (e g : gname) (qs : list string) : ST model circuit :=
  sdo is <- sread (fun m => get_inds m qs);
  sdo c <- sread (fun m => chans (chan1 m e "meas_error_prob") (combine qs is) []);
  sfold (fun c qi =>
           sdo _ <- add_meas (fst qi);
           sdo i <- sread (fun m => meas_instr m g (fst qi) (snd qi));
           sret (append c i)) (combine qs is) c.

(* measure* of NoiselessModel, library.py:938-957 *)
Definition measure0 (g : gname) (qs : list string) : ST model circuit :=
  sfold (fun c q =>
           sdo _ <- add_meas q;
           sdo i <- sread (fun m => do is <- get_inds m [q]; mk g (map TQ is) []);
           sret (append c i)) qs [].

(* idle of Decoh/Exper with a duration, library.py:641-674, 853-885;
   idle_error_probs, util.py:70-111, whose result stays symbolic *)
Definition idle_chan (m : model) (d : pval) (q : string) : res instr :=
  do v1 <- mparam m "T1" [q];
  do v2 <- mparam m "T2" [q];
  do t1 <- as_num v1;
  do t2 <- as_num v2;
  if negb (Qpos t1 && Qpos t2 && Qpos (Q2Qc 2 * t1 - t2)%Qc) then Err AssertionError
  else
    do x <- as_num d;
    if negb (Qpos x) then Err ValueError
    else
      do is <- get_inds m [q];
      mk PAULI_CHANNEL_1 (map TQ is) [AIdle 0 t1 t2 x; AIdle 1 t1 t2 x; AIdle 2 t1 t2 x].
Definition idle_dur (m : model) (d : pval) (qs : list string) : res circuit :=
  foldM (fun c q => do i <- idle_chan m d q; Ok (append c i)) qs [].

(* 0.5 * self.gate_duration(name) *)
Definition half_dur (m : model) (name : string) : res pval :=
  do d <- mdur m name; do x <- as_num d; Ok (VNum (Q2Qc (1#2) * x)%Qc).

(* DecoherenceNoiseModel.generic_op, library.py:481-510 *)
Definition generic_op (m : model) (sym : bool) (name : string) (g : gname) (qs : list string)
  : res circuit :=
  if sym then
    do d <- half_dur m name;
    do c1 <- idle_dur m d qs;
    do is <- get_inds m qs;
    do i <- mk g (map TQ is) [];
    do c2 <- idle_dur m d qs;
    Ok (append c1 i ++ c2)
  else
    do d <- mdur m name;
    do is <- get_inds m qs;
    do i <- mk g (map TQ is) [];
    do c2 <- idle_dur m d qs;
    Ok (append [] i ++ c2).

(* DecoherenceNoiseModel.measure*, library.py:536-630.  In the asymmetric case the
   label itself is given to stim as a target (line 564): outside the model as soon
   as there is a qubit to measure. *)
Definition measure_decoh (sym : bool) (name : string) (g : gname) (qs : list string)
  : ST model circuit :=
  if sym then
    sdo d <- sread (fun m => half_dur m name);
    sdo c1 <- sread (fun m => idle_dur m d qs);
    sdo c <- sfold (fun c q =>
               sdo _ <- add_meas q;
               sdo i <- sread (fun m => do is <- get_inds m [q];
                                        meas_instr m g q (nth 0 is 0));
               sret (append c i)) qs c1;
    sdo c2 <- sread (fun m => idle_dur m d qs);
    sret (c ++ c2)
  else
    sdo d <- sread (fun m => mdur m name);
    match qs with
    | [] => sret []
    | q :: _ => sdo _ <- add_meas q; sfail Unmodelled
    end.

(* incoming_noise of Incoming/Phenom, library.py:991-1004 *)
Definition incoming1 (m : model) (qs : list string) : res circuit :=
  do is <- get_inds m qs;
  do c <- chans (chan1 m X_ERROR "idle_error_prob") (combine qs is) [];
  chans (chan1 m Z_ERROR "idle_error_prob") (combine qs is) c.

(* the operations of the Model interface, model.py:124-176; measure_z and reset_z
   are measure and reset *)
Inductive op :=
| OX | OZ | OH | OS | OSDAG | OCX | OCZ | OSWAP
| OM | OMX | OMY | OMZ | OR | ORX | ORY | ORZ
| OIDLE                 (* idle(qubits) *)
| OIDLED (d : Qc)       (* idle(qubits, duration) *)
| OINC.                 (* incoming_noise(qubits) *)

Definition circ_op (m : model) (o : op) (qs : list string) : res circuit :=
  match o with
  | OX => gate1 m GX (chan1 m DEPOLARIZE1 "x_error_prob") qs           (* 14-23 *)
  | OZ => gate1 m GZ (chan1 m DEPOLARIZE1 "z_error_prob") qs           (* 25-34 *)
  | OH => gate1 m GH (chan1 m DEPOLARIZE1 "h_error_prob") qs           (* 36-45 *)
  | OS => gate1 m GS (chan1 m DEPOLARIZE1 "s_error_prob") qs           (* 47-56 *)
  | OSDAG => gate1 m GSDAG (chan1 m DEPOLARIZE1 "sdag_error_prob") qs  (* 58-67 *)
  | OCZ => gate2 m GCZ (chan2 m DEPOLARIZE2 "cz_error_prob") qs        (* 69-81 *)
  | OCX => gate2 m GCX (chan2 m DEPOLARIZE2 "cnot_error_prob") qs      (* 83-95 *)
  | OSWAP => gate2 m GSWAP (chan2 m DEPOLARIZE2 "swap_error_prob") qs  (* 97-109 *)
  | OR | ORZ => gate1 m GR (chan1 m X_ERROR "reset_error_prob") qs     (* 168-177 *)
  | ORX => gate1 m GRX (chan1 m Z_ERROR "reset_error_prob") qs         (* 179-188 *)
  | ORY => gate1 m GRY (chan1 m Z_ERROR "reset_error_prob") qs         (* 190-199 *)
  | OIDLE => idle1 m (chan1 m DEPOLARIZE1 "idle_error_prob") qs        (* 201-208 *)
  | OIDLED _ => Err TypeError
  | OINC => Ok []                                                      (* 210-211 *)
  | OM | OMZ | OMX | OMY => Err Unmodelled (* see [apply] *)
  end.

Definition biased_op (m : model) (o : op) (qs : list string) : res circuit :=
  match o with
  | OX => gate1 m GX (bchan1 m "x_error_prob") qs                      (* 218-233 *)
  | OZ => gate1 m GZ (bchan1 m "z_error_prob") qs                      (* 235-250 *)
  | OH => gate1 m GH (bchan1 m "h_error_prob") qs                      (* 252-267 *)
  | OS => gate1 m GS (bchan1 m "s_error_prob") qs                      (* 269-284 *)
  | OSDAG => gate1 m GSDAG (bchan1 m "sdag_error_prob") qs             (* 286-301 *)
  | OCZ => gate2 m GCZ (bchan2 m "cz_error_prob") qs                   (* 303-321 *)
  | OCX => gate2 m GCX (bchan2 m "cnot_error_prob") qs                 (* 323-341 *)
  | OSWAP => gate2 m GSWAP (bchan2 m "swap_error_prob") qs             (* 343-361 *)
  | OR | ORZ => gate1 m GR (chan1 m X_ERROR "reset_error_prob") qs     (* 420-429 *)
  | ORX => gate1 m GRX (chan1 m Z_ERROR "reset_error_prob") qs         (* 431-440 *)
  | ORY => gate1 m GRY (chan1 m Z_ERROR "reset_error_prob") qs         (* 442-451 *)
  | OIDLE => idle1 m (bchan1 m "idle_error_prob") qs                   (* 453-466 *)
  | OIDLED _ => Err TypeError
  | OINC => Ok []                                                      (* 468-469 *)
  | OM | OMZ | OMX | OMY => Err Unmodelled
  end.

Definition exper_op (m : model) (o : op) (qs : list string) : res circuit :=
  match o with
  | OX => gate1 m GX (chan1 m DEPOLARIZE1 "x_error_prob") qs           (* 686-696 *)
  | OZ => gate1 m GZ (chan1 m DEPOLARIZE1 "z_error_prob") qs           (* 698-708 *)
  | OH => gate1 m GH (chan1 m DEPOLARIZE1 "h_error_prob") qs           (* 710-719 *)
  | OS | OSDAG => Err NotImplementedError                              (* model.py:133-137 *)
  | OCZ => gate2 m GCZ (chan2 m DEPOLARIZE2 "cz_error_prob") qs        (* 721-733 *)
  | OCX => gate2 m GCX (chan2 m DEPOLARIZE2 "cnot_error_prob") qs      (* 735-747 *)
  | OSWAP => gate2 m GSWAP (chan2 m DEPOLARIZE2 "swap_error_prob") qs  (* 749-761 *)
  | OR | ORZ => gate1 m GR (chan1 m X_ERROR "reset_error_prob") qs     (* 820-829 *)
  | ORX => gate1 m GRX (chan1 m Z_ERROR "reset_error_prob") qs         (* 831-840 *)
  | ORY => gate1 m GRY (chan1 m X_ERROR "reset_error_prob") qs         (* 842-851 *)
  | OIDLE => Err TypeError (* missing argument 'duration' *)
  | OIDLED d => idle_dur m (VNum d) qs                                 (* 853-885 *)
  | OINC => Ok []                                                      (* 887-888 *)
  | OM | OMZ | OMX | OMY => Err Unmodelled
  end.

Definition decoh_op (m : model) (sym : bool) (o : op) (qs : list string) : res circuit :=
  match o with
  | OX => generic_op m sym "X" GX qs          (* 512-513 *)
  | OZ => generic_op m sym "Z" GZ qs
  | OH => generic_op m sym "H" GH qs
  | OS => generic_op m sym "S" GS qs
  | OSDAG => generic_op m sym "S_DAG" GSDAG qs
  | OCZ => generic_op m sym "CZ" GCZ qs
  | OCX => generic_op m sym "CNOT" GCX qs
  | OSWAP => generic_op m sym "SWAP" GSWAP qs (* 533-534 *)
  | OR | ORZ => generic_op m sym "R" GR qs    (* 632-633 *)
  | ORX => generic_op m sym "RX" GRX qs
  | ORY => generic_op m sym "RY" GRY qs       (* 638-639 *)
  | OIDLE => Err TypeError (* missing argument 'duration' *)
  | OIDLED d => idle_dur m (VNum d) qs        (* 641-674 *)
  | OINC => Ok []                             (* 676-677 *)
  | OM | OMZ | OMX | OMY => Err Unmodelled
  end.

(* NoiselessModel; [inc] is IncomingNoiseModel.incoming_noise *)
Definition noiseless_op (m : model) (inc : bool) (o : op) (qs : list string) : res circuit :=
  match o with
  | OX => gate0 m GX qs | OZ => gate0 m GZ qs | OH => gate0 m GH qs     (* 898-911 *)
  | OS => gate0 m GS qs | OSDAG => gate0 m GSDAG qs                     (* 913-921 *)
  | OCZ => gate0 m GCZ qs | OCX => gate0 m GCX qs | OSWAP => gate0 m GSWAP qs (* 923-936 *)
  | OR | ORZ => gate0 m GR qs | ORX => gate0 m GRX qs | ORY => gate0 m GRY qs (* 959-972 *)
  | OIDLE => gate0 m GI qs                                              (* 974-977 *)
  | OIDLED _ => Err TypeError
  | OINC => if inc then incoming1 m qs else Ok []                       (* 979-980, 991-1004 *)
  | OM | OMZ | OMX | OMY => Err Unmodelled
  end.

(* any operation of any model; the state is returned even when the call raises *)
Definition apply (o : op) (qs : list string) : ST model circuit := fun m =>
  match kind m, o with
  | (Circ | Exper | Biased | Phenom), (OM | OMZ) => measure1 X_ERROR GM qs m (* 111-128, 363-380, 763-780, 1008-1025 *)
  | (Circ | Exper | Biased | Phenom), OMX => measure1 Z_ERROR GMX qs m (* 130-147, 382-399, 782-799, 1027-1044 *)
  | Circ, OMY => measure1 Z_ERROR GMY qs m               (* 149-166 *)
  | Biased, OMY => measure1 X_ERROR GMX qs m             (* 401-418: "MX", as in the code *)
  | (Exper | Phenom), OMY => measure1 X_ERROR GMY qs m   (* 801-818, 1046-1063 *)
  | Decoh sym, (OM | OMZ) => measure_decoh sym "M" GM qs m
  | Decoh sym, OMX => measure_decoh sym "MX" GMX qs m
  | Decoh sym, OMY => measure_decoh sym "MY" GMY qs m
  | (Noiseless | Incoming), (OM | OMZ) => measure0 GM qs m
  | (Noiseless | Incoming), OMX => measure0 GMX qs m
  | (Noiseless | Incoming), OMY => measure0 GMY qs m
  | Circ, _ => (m, circ_op m o qs)
  | Biased, _ => (m, biased_op m o qs)
  | Exper, _ => (m, exper_op m o qs)
  | Decoh sym, _ => (m, decoh_op m sym o qs)
  | Noiseless, _ => (m, noiseless_op m false o qs)
  | (Incoming | Phenom), _ => (m, noiseless_op m true o qs)
  end.
