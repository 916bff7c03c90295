(** Model of surface_sim/circuit_blocks: util.py and the QEC rounds of
    rot_surface_code_css.py, unrot_surface_code_css.py,
    rot_surface_code_css_pipelined.py, rot_surface_code_xzzx.py,
    rot_surface_code_xzzx_pipelined.py and rot_surface_code_xzzx_google.py.

    A generator of circuits is the list of what it yields; an element is [Err e] if
    computing it raises, which ends the generator. A yielded circuit is given by the
    method calls on the noise model whose results are added, in order; the calls are
    run by NoiseM.apply. Circuit addition is list concatenation (whether stim merges
    equal neighbouring instructions is not visible to any statement).

    A Python set is a list without repetitions; [ord k s] is the order in which the
    set [s] is iterated at the place numbered [k]: an unknown permutation. [ordp] is
    the same for sets of pairs. Layout queries of one loop are done before its calls
    of the model, which have no side effects there. *)
From Coq Require Import QArith Qcanon.
From Verif Require Import Base StimM SetupM NoiseM DetM LayoutM.
Open Scope Z_scope.

Inductive call := Call (o : op) (qs : list string) | CTick.
Notation block := (list call).
Notation blocks := (list (res (list call))).

Definition run_call (c : call) : ST model circuit :=
  match c with Call o qs => apply o qs | CTick => sret tick end.
Fixpoint run_block (b : block) : ST model circuit :=
  match b with
  | [] => sret []
  | c :: r => sdo x <- run_call c; sdo y <- run_block r; sret (x ++ y)
  end.
(* sum(iterator, start=Circuit()) *)
Fixpoint run_blocks (l : blocks) : ST model circuit :=
  match l with
  | [] => sret []
  | b :: r => sdo b <- slift b; sdo x <- run_block b; sdo y <- run_blocks r; sret (x ++ y)
  end.

(* a generator whose preamble may raise *)
Definition generator (x : res blocks) : blocks := match x with Ok l => l | Err e => [Err e] end.
Definition tick_block : res block := Ok [CTick].

(* set union, set(a).symmetric_difference(b) *)
Definition union (a b : list string) : list string := dedup (a ++ b).
Definition symdiff (a b : list string) : list string := diff a b ++ diff b a.
(* list(chain.from_iterable(pairs)) *)
Definition flat_pairs (l : list (string * string)) : list string := flat_map (fun p => [fst p; snd p]) l.
(* int_order[t][k] *)
Definition order_at (l : layout) (t : string) (k : nat) : res string :=
  do o <- dget_err t (l_order l); of_opt IndexError (nth_error o k).

Section Blocks.
  Context (ord : nat -> list string -> list string) (ordp : nat -> list (string * string) -> list (string * string)).

  (** * QEC rounds *)

  (* rot_qubits of steps a and h, rot_surface_code_css.py:134-138, 216-220 *)
  Definition css_rot (l : layout) (anc xs : list string) : res (list string) :=
    do d0 <- order_at l "x_type" 0;
    do d3 <- order_at l "x_type" 3;
    Ok (union (union (dedup anc) (get_neighbors l xs (Some d0))) (get_neighbors l xs (Some d3))).
  (* steps a and h: H on a set, idling of the others, rot_surface_code_css.py:138-140 *)
  Definition had_block (k : nat) (qubits rot : list string) : block :=
    [Call OH (ord k rot); Call OIDLE (ord (k + 1) (diff qubits rot))].
  (* the pairs of the loops of steps b, d, e and g, rot_surface_code_css.py:146-150 *)
  Definition cz_lists (l : layout) (k : nat) : res (list (list string)) :=
    mapM (fun t => do s <- get_stabs l t; do d <- order_at l t k; Ok (flat_pairs (get_pairs l s (Some d))))
         (dkeys (l_order l)).
  (* rot_surface_code_css.py:144-156, 164-176, 180-192, 200-212 *)
  Definition cz_block (site : nat) (l : layout) (qubits : list string) (k : nat) : res block :=
    do c <- cz_lists l k;
    Ok (map (Call OCZ) c ++ [Call OIDLE (ord site (diff qubits (dedup (concat c))))]).

  (* the blocks before and after the interactions, rot_surface_code_css.py:126-131, 226-227;
     rot_surface_code_css_pipelined.py:119-124, 155-156 *)
  Definition round_start (data anc : list string) (anc_reset : bool) : blocks :=
    [Ok [Call OINC data]; tick_block] ++
    (if anc_reset then [Ok [Call OR anc; Call OIDLE data]; tick_block] else []).
  Definition round_end (data anc : list string) : blocks :=
    [Ok [Call OM anc; Call OIDLE data]; tick_block].

  (* qec_round_iterator, rot_surface_code_css.py:88-227 with code
     "rotated_surface_code", unrot_surface_code_css.py:90-229 with code
     "unrotated_surface_code" *)
  Definition css_round (code : string) (l : layout) (anc_reset : bool) : blocks := generator (
    if negb (eqb (l_code l) code) then Err TypeError else
    do data <- get_role l "data";
    do anc <- get_role l "anc";
    do xs <- get_stabs l "x_type";
    let qubits := dedup (data ++ anc) in
    let rot k := do r <- css_rot l anc xs; Ok (had_block k qubits r) in
    let had := Ok [Call OH data; Call OIDLE anc] in
    Ok (round_start data anc anc_reset ++
        [rot 0%nat; tick_block;                     (* a *)
         cz_block 2 l qubits 0; tick_block;   (* b *)
         had; tick_block;                           (* c *)
         cz_block 3 l qubits 1; tick_block;   (* d *)
         cz_block 4 l qubits 2; tick_block;   (* e *)
         had; tick_block;                           (* f *)
         cz_block 5 l qubits 3; tick_block;   (* g *)
         rot 6%nat; tick_block] ++                  (* h *)
        round_end data anc)).

  (* one stabilizer type of the pipelined rounds, rot_surface_code_css_pipelined.py:126-153;
     [rot] are the rotated qubits, [ind] the position of the type *)
  Definition pipe_part (l : layout) (qubits : list string) (rot : string -> list string -> list string)
             (ind : nat) (t : string) : blocks := generator (
    do s <- get_stabs l t;
    do dirs <- dget_err t (l_order l);
    let k := (100 * ind)%nat in
    let had := Ok (had_block k qubits (rot t s)) in
    Ok ((match ind with O => [had; tick_block] | _ => [] end) ++
        concat (map (fun nd => let ps := flat_pairs (get_pairs l s (Some (snd nd))) in
                     [Ok [Call OCZ ps; Call OIDLE (ord (k + 2 + fst nd)%nat (diff qubits (dedup ps)))]; tick_block])
                    (enumerate dirs)) ++
        (match ind with O => [Ok [Call OH (ord (k + 98)%nat qubits)]; tick_block] | _ => [had; tick_block] end))).
  Definition pipe_round (rot : list string -> string -> list string -> list string) (l : layout) (anc_reset : bool)
    : blocks := generator (
    if negb (eqb (l_code l) "rotated_surface_code") then Err TypeError else
    do data <- get_role l "data";
    do anc <- get_role l "anc";
    let qubits := dedup (data ++ anc) in
    Ok (round_start data anc anc_reset ++
        concat (map (fun it => pipe_part l qubits (rot data) (fst it) (snd it)) (enumerate (dkeys (l_order l)))) ++
        round_end data anc)).
  (* rot_surface_code_css_pipelined.py:128-130 *)
  Definition css_pipe_rot (data : list string) (t : string) (s : list string) : list string :=
    union (dedup s) (if eqb t "x_type" then data else []).
  (* qec_round_iterator, rot_surface_code_css_pipelined.py:88-156 *)
  Definition css_pipe_round : layout -> bool -> blocks := pipe_round css_pipe_rot.

  (* the neighbours in the directions "north_west" and "south_east", util.py:565-568,
     rot_surface_code_xzzx.py:131-135 *)
  Definition nw_se (l : layout) (s : list string) : list string :=
    dedup (get_neighbors l s (Some "north_west") ++ get_neighbors l s (Some "south_east")).
  (* rot_surface_code_xzzx_pipelined.py:123-126 *)
  Definition xzzx_pipe_rot (l : layout) (data : list string) (t : string) (s : list string) : list string :=
    union (dedup s) (nw_se l s).
  (* qec_round_iterator, rot_surface_code_xzzx_pipelined.py:82-152 *)
  Definition xzzx_pipe_round (l : layout) : bool -> blocks := pipe_round (xzzx_pipe_rot l) l.

  (* rot_qubits of steps a and h, rot_surface_code_xzzx.py:127-136, 215-224 *)
  Definition xzzx_rot (l : layout) (anc xs : list string) : res (list string) :=
    do r <- css_rot l anc xs;
    do zs <- get_stabs l "z_type";
    Ok (symdiff r (nw_se l zs)).
  (* step g, rot_surface_code_xzzx.py:199-212: the empty circuit is bound to a
     misspelt name, so the circuit of step e is extended *)
  Definition xzzx_g (site : nat) (l : layout) (qubits : list string) : res block :=
    do e <- cz_lists l 2;
    do g <- cz_lists l 3;
    Ok (map (Call OCZ) (e ++ g) ++ [Call OIDLE (ord site (diff qubits (dedup (concat g))))]).
  (* qec_round_iterator, rot_surface_code_xzzx.py:81-232 (the calls repeated in step
     g return the circuits they returned in step e: cphase does not change the model) *)
  Definition xzzx_round (l : layout) (anc_reset : bool) : blocks := generator (
    if negb (eqb (l_code l) "rotated_surface_code") then Err TypeError else
    do data <- get_role l "data";
    do anc <- get_role l "anc";
    do xs <- get_stabs l "x_type";
    let qubits := dedup (data ++ anc) in
    let rot k := do r <- xzzx_rot l anc xs; Ok (had_block k qubits r) in
    let had := Ok [Call OH data; Call OIDLE anc] in
    Ok (round_start data anc anc_reset ++
        [rot 0%nat; tick_block;                     (* a *)
         cz_block 2 l qubits 0; tick_block;   (* b *)
         had; tick_block;                           (* c *)
         cz_block 3 l qubits 1; tick_block;   (* d *)
         cz_block 4 l qubits 2; tick_block;   (* e *)
         had; tick_block;                           (* f *)
         xzzx_g 5 l qubits; tick_block;         (* g *)
         rot 6%nat; tick_block] ++                  (* h *)
        round_end data anc)).

  (* coherent_qec_part, rot_surface_code_xzzx_google.py:125-214 *)
  Definition google_cz (site : nat) (l : layout) (qubits xs zs : list string) (dx dz : string) : block :=
    let ps := flat_pairs (get_pairs l xs (Some dx) ++ get_pairs l zs (Some dz)) in
    [Call OCZ ps; Call OIDLE (ord site (diff qubits (dedup ps)))].
  Definition google_cz1 (site : nat) (l : layout) (qubits anc : list string) (d : string) : block :=
    let ps := flat_pairs (get_pairs l anc (Some d)) in
    [Call OCZ ps; Call OIDLE (ord site (diff qubits (dedup ps)))].
  Definition google_coherent (l : layout) : blocks := generator (
    do data <- get_role l "data";
    do xs <- get_stabs l "x_type";
    do zs <- get_stabs l "z_type";
    let anc := xs ++ zs in
    let qubits := dedup (data ++ anc) in
    Ok [Ok [Call OINC data]; tick_block;
        Ok [Call OH (ord 0%nat (dedup anc)); Call OX (ord 1%nat (dedup data))]; tick_block;  (* a *)
        Ok (google_cz1 2 l qubits anc "north_east"); tick_block;                             (* b *)
        Ok [Call OH (ord 3%nat (dedup data)); Call OX (ord 4%nat (dedup anc))]; tick_block;  (* c *)
        Ok (google_cz 5 l qubits xs zs "north_west" "south_east"); tick_block;               (* d *)
        Ok [Call OX (ord 6%nat qubits)]; tick_block;                                         (* e *)
        Ok (google_cz 7 l qubits xs zs "south_east" "north_west"); tick_block;               (* f *)
        Ok [Call OH (ord 8%nat (dedup data)); Call OX (ord 9%nat (dedup anc))]; tick_block;  (* g *)
        Ok (google_cz1 10 l qubits anc "south_west"); tick_block]).                          (* h *)
  (* the circuit of qec_round without the detectors, rot_surface_code_xzzx_google.py:240-267 *)
  Definition google_round (l : layout) : blocks := generator (
    if negb (eqb (l_code l) "rotated_surface_code") then Err TypeError else
    do data <- get_role l "data";
    do anc <- get_role l "anc";
    Ok (google_coherent l ++
        [Ok [Call OH (ord 11%nat (dedup anc)); Call OX data]; tick_block;  (* i *)
         Ok [Call OM anc; Call OIDLE data]; tick_block;                    (* j *)
         Ok [Call OR anc; Call OIDLE data]; tick_block])).
  (* the circuit of qec_round_with_log_meas without the detectors and the
     observable, rot_surface_code_xzzx_google.py:69-94 *)
  Definition google_meas (l : layout) (rot_basis : bool) : blocks := generator (
    do anc <- get_role l "anc";
    do data <- get_role l "data";
    let qubits := dedup (data ++ anc) in
    Ok (google_coherent l ++
        [do stabs <- get_stabs l (if rot_basis then "x_type" else "z_type");
         Ok (had_block 11 qubits (union (dedup anc) (nw_se l stabs))); tick_block; (* i *)
         Ok [Call OM anc; Call OM data]])).                                        (* j *)

  (** * Logical operations of util.py *)

  (* log_meas_iterator, util.py:93-124 *)
  Definition log_meas_blocks (l : layout) (rot_basis : bool) : blocks := generator (
    do anc <- get_role l "anc";
    do data <- get_role l "data";
    Ok ([Ok [Call OINC data]; tick_block] ++
        (if rot_basis then [Ok [Call OH data; Call OIDLE anc]; tick_block] else []) ++
        [Ok [Call OM data; Call OIDLE anc]; tick_block])).

  (* the qubits with a non-zero entry, util.py:177 *)
  Definition excited (data_init : dict string Z) : list string :=
    dedup (map fst (filter (fun qs => negb (eqb (snd qs) 0)) data_init)).
  (* util.py:169-183, 692-706 *)
  Definition init_start (qubits : list string) (data_init : dict string Z) : blocks :=
    let exc := excited data_init in
    [Ok [Call OR (ord 0%nat qubits)]; tick_block;
     Ok ((match exc with [] => [] | _ => [Call OX (ord 1%nat exc)] end) ++ [Call OIDLE (ord 2%nat (diff qubits exc))]);
     tick_block].
  (* init_qubits_iterator, util.py:157-187 *)
  Definition init_blocks (l : layout) (data_init : dict string Z) (rot_basis : bool) : blocks := generator (
    do anc <- get_role l "anc";
    do data <- get_role l "data";
    Ok (init_start (dedup (data ++ anc)) data_init ++
        (if rot_basis then [Ok [Call OH data; Call OIDLE anc]; tick_block] else []))).

  (* layout.get_logical_qubits()[0] *)
  Definition first_log (l : layout) : res string := of_opt IndexError (nth_error (l_logs l) 0).
  (* log_x_iterator, util.py:199-216, and log_z_iterator, util.py:228-245 *)
  Definition log_pauli_blocks (o : op) (sup : layout -> dict string (list string)) (l : layout) : blocks := generator (
    do anc <- get_role l "anc";
    do data <- get_role l "data";
    do lq <- first_log l;
    do qs <- dget_err lq (sup l);
    Ok [Ok [Call OINC data]; tick_block;
        Ok [Call o qs; Call OIDLE (ord 0%nat (diff (dedup (anc ++ data)) (dedup qs)))]; tick_block]).
  Definition log_x_blocks : layout -> blocks := log_pauli_blocks OX l_logx.
  Definition log_z_blocks : layout -> blocks := log_pauli_blocks OZ l_logz.

  (* tuple(sorted([a, b])) *)
  Definition sorted2 (a b : string) : string * string := if String.leb a b then (a, b) else (b, a).
  Definition trans_code_ok (l : layout) : bool :=
    mem (l_code l) ["rotated_surface_code"; "unrotated_surface_code"].
  (* the loops util.py:287-303, 352-366: the pairs of the two-qubit gates and the
     local gates of the data qubits *)
  Definition trans_attrs (l : layout) (gate two : string) (data : list string)
    : res (list (string * string) * list (string * string)) :=
    do rows <- mapM (fun q =>
        do v <- lparam l gate q;
        if is_none v then Err ValueError else
        do t <- pget two v;
        do loc <- pget "local" v;
        do ps <- (match t with PNone => Ok [] | PStr b => Ok [sorted2 q b] | _ => Err Unmodelled end);
        do ls <- (match loc with PNone => Ok [] | PStr s => Ok [(q, s)] | _ => Err Unmodelled end);
        Ok (ps, ls)) data;
    Ok (dedup (concat (map fst rows)), concat (map snd rows)).
  Definition with_local (s : string) (ls : list (string * string)) : list string :=
    dedup (map fst (filter (fun qs => eqb (snd qs) s) ls)).
  (* log_trans_s_iterator, util.py:265-320 *)
  Definition trans_s_blocks (l : layout) : blocks := generator (
    if negb (trans_code_ok l) then Err TypeError else
    do data <- get_role l "data";
    let qubits := dedup (dkeys (l_nodes l)) in
    do lq <- first_log l;
    do (pairs, ls) <- trans_attrs l ("trans-s_" ++ lq)%string "cz" data;
    let s := with_local "S" ls in
    let sd := with_local "S_DAG" ls in
    let int := flat_pairs (ordp 0%nat pairs) in
    Ok [Ok [Call OINC data]; tick_block;
        Ok [Call OS (ord 0%nat s); Call OSDAG (ord 1%nat sd); Call OIDLE (ord 2%nat (diff (diff qubits s) sd))]; tick_block;
        Ok [Call OCZ int; Call OIDLE (ord 3%nat (diff qubits (dedup int)))]; tick_block]).
  (* log_trans_h_iterator, util.py:336-380 *)
  Definition trans_h_blocks (l : layout) : blocks := generator (
    if negb (eqb (l_code l) "unrotated_surface_code") then Err TypeError else
    do data <- get_role l "data";
    let qubits := dedup (dkeys (l_nodes l)) in
    do lq <- first_log l;
    do (pairs, ls) <- trans_attrs l ("trans-h_" ++ lq)%string "swap" data;
    let h := with_local "H" ls in
    let int := flat_pairs (ordp 0%nat pairs) in
    Ok [Ok [Call OINC data]; tick_block;
        Ok [Call OH (ord 0%nat h); Call OIDLE (ord 1%nat (diff qubits h))]; tick_block;
        Ok [Call OSWAP int; Call OIDLE (ord 2%nat (diff qubits (dedup int)))]; tick_block]).
  (* the label of a transversal CNOT, util.py:401, 440 *)
  Definition cnot_label (lc lt : layout) : res string :=
    do c <- first_log lc; do t <- first_log lt; Ok ("trans-cnot_" ++ c ++ "_" ++ t)%string.
  (* log_trans_cnot_iterator, util.py:410-460 *)
  Definition trans_cnot_blocks (lc lt : layout) : blocks := generator (
    if negb (trans_code_ok lc) then Err TypeError else
    if negb (trans_code_ok lt) then Err TypeError else
    do dc <- get_role lc "data";
    do dt <- get_role lt "data";
    let qubits := dedup (dkeys (l_nodes lc) ++ dkeys (l_nodes lt)) in
    do gate <- cnot_label lc lt;
    do pairs <- mapM (fun q =>
        do v <- lparam lc gate q;
        if is_none v then Err ValueError else
        do t <- pget "cnot" v;
        match t with PStr b => Ok (q, b) | _ => Err Unmodelled end) dc;
    let int := flat_pairs (ordp 0%nat (dedup pairs)) in
    Ok [Ok [Call OINC dc; Call OINC dt]; tick_block;
        Ok [Call OCX int; Call OIDLE (ord 0%nat (diff qubits (dedup int)))]; tick_block]).

  (* log_meas_xzzx_iterator, util.py:535-575 *)
  Definition log_meas_xzzx_blocks (l : layout) (rot_basis : bool) : blocks := generator (
    do anc <- get_role l "anc";
    do data <- get_role l "data";
    do stabs <- get_stabs l (if rot_basis then "x_type" else "z_type");
    Ok [Ok [Call OINC data]; tick_block;
        Ok (had_block 0 (dedup (data ++ anc)) (nw_se l stabs)); tick_block;
        Ok [Call OM data; Call OIDLE anc]; tick_block]).
  (* log_x_xzzx_iterator, util.py:587-610: [flip] are the qubits of the support that
     get the other Pauli; log_z_xzzx_iterator, util.py:622-645 *)
  Definition log_pauli_xzzx_blocks (x : bool) (l : layout) : blocks := generator (
    do anc <- get_role l "anc";
    do data <- get_role l "data";
    do lq <- first_log l;
    do qs <- dget_err lq (if x then l_logx l else l_logz l);
    Ok [Ok [Call OINC data]; tick_block;
        do zs <- get_stabs l "z_type";
        let rot := get_neighbors l zs (Some "north_west") ++ get_neighbors l zs (Some "south_east") in
        let flip := dedup (filter (fun d => mem d rot) qs) in
        let rest := diff (dedup qs) flip in
        let (px, pz) := if x then (rest, flip) else (flip, rest) in
        Ok [Call OX (ord 0%nat px); Call OZ (ord 1%nat pz); Call OIDLE anc]; tick_block]).
  (* init_qubits_xzzx_iterator, util.py:675-718 *)
  Definition init_xzzx_blocks (l : layout) (data_init : dict string Z) (rot_basis : bool) : blocks := generator (
    if negb (eqb (l_code l) "rotated_surface_code") then Err TypeError else
    do anc <- get_role l "anc";
    do data <- get_role l "data";
    let qubits := dedup (data ++ anc) in
    Ok (init_start qubits data_init ++
        [do stabs <- get_stabs l (if rot_basis then "x_type" else "z_type");
         Ok (had_block 3 qubits (nw_se l stabs)); tick_block])).

  (** * Functions that also use the detectors *)
  (* the state: the noise model and the Detectors object *)
  Definition world : Type := model * detectors.
  Definition onm {A} (x : ST model A) : ST world A := fun w => let (m, r) := x (fst w) in ((m, snd w), r).
  Definition ond {A} (x : model -> ST detectors A) : ST world A :=
    fun w => let (d, r) := x (fst w) (snd w) in ((fst w, d), r).

  (* qec_round, rot_surface_code_css.py:36-85; the same in the other files but Google's *)
  Definition qec_round (it : layout -> bool -> blocks) (l : layout) (anc_reset : bool) (dets : option (list string))
    : ST world circuit :=
    sdo c <- onm (run_blocks (it l anc_reset));
    sdo anc <- slift (get_role l "anc");
    let req := odef anc dets in
    if strict_superset req anc then sfail ValueError else
    sdo d <- ond (fun m => build_from_anc (meas_target m) anc_reset (Some req));
    sret (c ++ d).
  (* rot_surface_code_xzzx_google.py:217-274 *)
  Definition google_qec_round (l : layout) (dets : option (list string)) : ST world circuit :=
    sdo c <- onm (run_blocks (google_round l));
    sdo d <- ond (fun m => build_from_anc (meas_target m) true dets);
    sret (c ++ d).

  (* the observable: util.py:78-84 *)
  Definition observable (l : layout) (rot_basis : bool) (m : model) : res instr :=
    do lq <- first_log l;
    do qs <- dget_err lq (if rot_basis then l_logx l else l_logz l);
    do ts <- mapM (fun q => meas_target m q (-1)) qs;
    mk OBSERVABLE_INCLUDE ts [ANum (zq 0)].
  (* detectors and observable of a logical measurement, util.py:67-90, 509-532;
     rot_surface_code_xzzx_google.py:102-122 *)
  Definition log_meas_end (l : layout) (rot_basis anc_reset : bool) (req : list string) : ST world circuit :=
    sdo stabs <- slift (get_stabs l (if rot_basis then "x_type" else "z_type"));
    sdo sup <- slift (support_from_adj l stabs);
    sdo d <- ond (fun m => build_from_data (meas_target m) sup anc_reset stabs (Some req));
    sdo o <- onm (sread (observable l rot_basis));
    sdo anc <- slift (get_role l "anc");
    sdo _ <- ond (fun _ => deactivate anc);
    sret (append d o).
  (* log_meas, util.py:24-90 *)
  Definition log_meas_with (it : layout -> bool -> blocks) (l : layout) (rot_basis anc_reset : bool)
             (dets : option (list string)) : ST world circuit :=
    sdo anc <- slift (get_role l "anc");
    let req := odef anc dets in
    if strict_superset req anc then sfail ValueError else
    sdo c <- onm (run_blocks (it l rot_basis));
    sdo d <- log_meas_end l rot_basis anc_reset req;
    sret (c ++ d).
  Definition log_meas : layout -> bool -> bool -> option (list string) -> ST world circuit := log_meas_with log_meas_blocks.
  (* log_meas_xzzx, util.py:463-532 *)
  Definition log_meas_xzzx (l : layout) (rot_basis anc_reset : bool) (dets : option (list string)) : ST world circuit :=
    if negb (eqb (l_code l) "rotated_surface_code") then sfail TypeError
    else log_meas_with log_meas_xzzx_blocks l rot_basis anc_reset dets.
  (* qec_round_with_log_meas, rot_surface_code_xzzx_google.py:31-122 *)
  Definition google_log_meas (l : layout) (rot_basis : bool) (dets : option (list string)) : ST world circuit :=
    if negb (eqb (l_code l) "rotated_surface_code") then sfail TypeError else
    sdo anc <- slift (get_role l "anc");
    let req := odef anc dets in
    if strict_superset req anc then sfail ValueError else
    sdo c <- onm (run_blocks (google_meas l rot_basis));
    sdo d <- ond (fun m => build_from_anc (meas_target m) true (Some req));
    sdo e <- log_meas_end l rot_basis true req;
    sret (c ++ d ++ e).

  (* init_qubits, util.py:127-154; init_qubits_xzzx, util.py:648-672 *)
  Definition init_with (it : layout -> dict string Z -> bool -> blocks) (l : layout) (data_init : dict string Z)
             (rot_basis : bool) : ST world circuit :=
    sdo anc <- slift (get_role l "anc");
    sdo _ <- ond (fun _ => activate anc);
    onm (run_blocks (it l data_init rot_basis)).
  Definition init_qubits := init_with init_blocks.
  Definition init_qubits_xzzx := init_with init_xzzx_blocks.

  (* log_x, log_z, util.py:190-196, 219-225 *)
  Definition log_x (l : layout) : ST world circuit := onm (run_blocks (log_x_blocks l)).
  Definition log_z (l : layout) : ST world circuit := onm (run_blocks (log_z_blocks l)).
  (* log_x_xzzx, log_z_xzzx, util.py:578-584, 613-619 *)
  Definition log_x_xzzx (l : layout) : ST world circuit := onm (run_blocks (log_pauli_xzzx_blocks true l)).
  Definition log_z_xzzx (l : layout) : ST world circuit := onm (run_blocks (log_pauli_xzzx_blocks false l)).
  (* log_trans_s, util.py:248-262; log_trans_h, util.py:323-333 *)
  Definition log_trans (prefix : string) (it : layout -> blocks) (l : layout) : ST world circuit :=
    sdo lq <- slift (first_log l);
    sdo nd <- slift (new_stab_dict l (prefix ++ lq)%string);
    sdo _ <- ond (fun _ => update_from_dict nd);
    onm (run_blocks (it l)).
  Definition log_trans_s := log_trans "trans-s_" trans_s_blocks.
  Definition log_trans_h := log_trans "trans-h_" trans_h_blocks.
  (* log_trans_cnot, util.py:383-407 *)
  Definition log_trans_cnot (lc lt : layout) : ST world circuit :=
    sdo gate <- slift (cnot_label lc lt);
    sdo nc <- slift (new_stab_dict lc gate);
    sdo nt <- slift (new_stab_dict lt gate);
    sdo _ <- ond (fun _ => update_from_dict (dupdate nc nt));
    onm (run_blocks (trans_cnot_blocks lc lt)).
End Blocks.

(* qubit_coords, util.py:15-21 *)
Definition block_coords (ls : list layout) (m : model) : res circuit :=
  do cs <- mapM (fun l => do d <- LayoutM.qubit_coords l; NoiseM.qubit_coords m d) ls;
  Ok (concat cs).
