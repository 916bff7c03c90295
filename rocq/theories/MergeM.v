(** Model of surface_sim/util/circuit_operations.py and of repeated_cnot_experiment of
    experiments/rot_surface_code_css.py and unrot_surface_code_css.py.

    Three facts about stim are left open and every statement holds for all of them:
    - [fuse]: whether adding two circuits merges equal neighbouring instructions; it
      decides how many instructions a block has;
    - [show]: what an argument becomes when an instruction is printed and parsed again
      (merge_circuits goes through text; floats may be rounded);
    - the order of iteration of sets, as in ExpM.
    Circuits have no REPEAT block; a circuit with SHIFT_COORDS given to merge_circuits,
    where flattened() would move the coordinates, is not modelled. Argument types are as
    annotated (the isinstance checks pass). *)
From Coq Require Import QArith Qcanon.
From Verif Require Import Base StimM SetupM NoiseM DetM LayoutM BlockM ExpM.
Open Scope Z_scope.

(** * merge_circuits *)

(* Circuit.num_ticks *)
Definition ticks (c : circuit) : nat := length (filter (fun i => eqb (nm i) TICK) c).
(* the loop :54-62: the instructions other than TICK with their block number, which
   starts at k *)
Fixpoint numbered (k : nat) (c : circuit) : list (nat * instr) :=
  match c with
  | [] => []
  | i :: r => if eqb (nm i) TICK then numbered (S k) r else (k, i) :: numbered k r
  end.
(* measure_block of a circuit, :60-61; of MEAS_INSTR (:10-23) only M, MX, MY occur *)
Definition meas_blocks (c : circuit) : list nat :=
  dedup (map fst (filter (fun ki => is_meas (nm (snd ki))) (numbered 0 c))).
(* blocks[k], :52, 62 *)
Definition block_number (cs : list circuit) (k : nat) : list instr :=
  map snd (filter (fun ki => Nat.eqb (fst ki) k) (flat_map (numbered 0) cs)).
(* sorted(block, key=lambda x: x.name), :75: a stable sort *)
Definition name_leb (i j : instr) : bool := String.leb (gname_str (nm i)) (gname_str (nm j)).
Fixpoint insert_instr (i : instr) (l : list instr) : list instr :=
  match l with
  | [] => [i]
  | j :: r => if name_leb i j then i :: l else j :: insert_instr i r
  end.
Fixpoint sort_instrs (l : list instr) : list instr :=
  match l with [] => [] | i :: r => insert_instr i (sort_instrs r) end.
(* an instruction printed and parsed *)
Definition reparse (show : arg -> arg) (i : instr) : instr := Instr (nm i) (tg i) (map show (ar i)).
(* stim.Circuit("\n".join(map(str, block))), :79-82: parsing appends the instructions *)
Definition parse_block (show : arg -> arg) (b : list instr) : circuit := appends [] (map (reparse show) b).
(* [block + tick for block in blocks] without the last tick, :80-84 *)
Fixpoint join_ticks (bs : list circuit) : circuit :=
  match bs with
  | [] => []
  | [b] => b
  | b :: r => b ++ tick ++ join_ticks r
  end.
(* merge_circuits, :26-86. len(set(...)) != 1 also holds for no circuit at all. *)
Definition merge_circuits (show : arg -> arg) (check_meas : bool) (cs : list circuit) : res circuit :=
  if existsb (fun c => existsb (fun i => eqb (nm i) SHIFT_COORDS) c) cs then Err Unmodelled else
  match dedup (map ticks cs) with
  | [n] =>
      let ms := map meas_blocks cs in
      if check_meas && existsb (fun m => Nat.ltb 1 (length m)) ms then Err ValueError else
      if check_meas && Nat.ltb 1 (length (dedup (concat ms))) then Err ValueError else
      Ok (join_ticks (map (fun k => parse_block show (sort_instrs (block_number cs k))) (seq 0 (S n))))
  | _ => Err ValueError
  end.

Section Merge.
  Context (fuse : bool).
  (* circuit += circuit *)
  Definition cat (a b : circuit) : circuit := if fuse then appends a b else a ++ b.

  (* mergeable_blocks, :100-105: the blocks by their tuple of names, in order of first
     occurrence *)
  Definition names (c : circuit) : list gname := map nm c.
  Definition group_blocks (bs : list circuit) : dict (list gname) (list circuit) :=
    fold_left (fun d b => match dget (names b) d with
                          | None => dset (names b) [b] d
                          | Some l => dset (names b) (l ++ [b]) d
                          end) bs [].
  (* block[t : t + 1] *)
  Definition slice1 (t : nat) (b : circuit) : circuit := firstn 1 (skipn t b).
  (* merge_tick_blocks, :89-115 *)
  Definition merge_tick_blocks (bs : list circuit) : res circuit :=
    match dedup (map (@length instr) bs) with
    | [n] => Ok (fold_left (fun acc t =>
                   fold_left (fun acc b => cat acc (slice1 t b)) (concat (dvals (group_blocks bs))) acc)
                 (seq 0 n) [])
    | _ => Err ValueError
    end.

  (* one step of zip(iterators), :177-182: the generators are advanced in order until one
     is exhausted *)
  Fixpoint zip_next (its : list blocks) : ST model (option (list circuit * list blocks)) :=
    match its with
    | [] => sret (Some ([], []))
    | [] :: _ => sret None
    | (b :: r) :: rest =>
        sdo b <- slift b;
        sdo c <- run_block b;
        sdo x <- zip_next rest;
        sret (match x with
              | None => None
              | Some (cs, rs) => Some (cat [] c :: cs, r :: rs)
              end)
    end.
  (* the body of the loop, :183-190 *)
  Definition add_step (acc merged : circuit) : circuit :=
    match merged with
    | i :: _ => if eqb (nm i) TICK then append acc i else cat acc merged
    | [] => cat acc merged
    end.
  (* the loop, :176-190, 280-294; [n] bounds the number of steps by the number of blocks
     of the first generator *)
  Fixpoint zip_loop (n : nat) (its : list blocks) (acc : circuit) : ST model circuit :=
    match n with
    | O => sret acc
    | S n =>
        sdo x <- zip_next its;
        match x with
        | None => sret acc
        | Some (cs, rs) => sdo m <- slift (merge_tick_blocks cs); zip_loop n rs (add_step acc m)
        end
    end.
  Definition merged_blocks (its : list blocks) : ST model circuit :=
    match its with
    | [] => sret []
    | it :: _ => zip_loop (S (length it)) its []
    end.

  (* sum of the ancillas and the check of anc_detectors, :171-174, 275-278 *)
  Definition dets_ok (ls : list layout) (dets : option (list string)) : res bool :=
    match dets with
    | None => Ok true
    | Some ds => do ancs <- mapM (fun l => get_role l "anc") ls; Ok (negb (strict_superset ds (concat ancs)))
    end.
  (* merge_qec_rounds, :118-197; [it k] is the generator function applied to the k-th layout *)
  Definition merge_qec_rounds (it : nat -> layout -> bool -> blocks) (ls : list layout) (anc_reset : bool)
             (dets : option (list string)) : ST world circuit :=
    sdo ok <- slift (dets_ok ls dets);
    if negb ok then sfail ValueError else
    sdo c <- onm (merged_blocks (map (fun kl => it (fst kl) (snd kl) anc_reset) (enumerate ls)));
    sdo d <- ond (fun m => build_from_anc (meas_target m) anc_reset dets);
    sret (cat c d).

  (* the stabilizers and supports of all the layouts, :297-304 *)
  Definition all_stabs (lrs : list (layout * bool)) : res (list string * dict string (list string)) :=
    foldM (fun acc lr =>
        do stabs <- get_stabs (fst lr) (basis_type (snd lr));
        do sup <- support_from_adj (fst lr) stabs;
        Ok (fst acc ++ stabs, dupdate (snd acc) sup)) lrs ([], []).
  (* the observables of the k-th layout, :316-325 *)
  Definition layout_observables (m : model) (k : nat) (lr : layout * bool) : res (list instr) :=
    let (l, rot_basis) := lr in
    mapM (fun jq =>
        do qs <- dget_err (snd jq) (if rot_basis then l_logx l else l_logz l);
        do ts <- mapM (fun q => meas_target m q (-1)) qs;
        mk OBSERVABLE_INCLUDE ts [ANum (zq (Z.of_nat (k * length (l_logs l) + fst jq)))]) (enumerate (l_logs l)).
  Definition all_observables (lrs : list (layout * bool)) (m : model) : res (list instr) :=
    do os <- mapM (fun klr => layout_observables m (fst klr) (snd klr)) (enumerate lrs);
    Ok (concat os).
  (* merge_log_meas, :200-327 *)
  Definition merge_log_meas (it : nat -> layout -> bool -> blocks) (ls : list layout) (rot_bases : list bool)
             (anc_reset : bool) (dets : option (list string)) : ST world circuit :=
    if negb (Nat.eqb (length rot_bases) (length ls)) then sfail ValueError else
    let lrs := combine ls rot_bases in
    sdo ok <- slift (dets_ok ls dets);
    if negb ok then sfail ValueError else
    sdo c <- onm (merged_blocks (map (fun klr => it (fst klr) (fst (snd klr)) (snd (snd klr))) (enumerate lrs)));
    sdo (stabs, sup) <- slift (all_stabs lrs);
    sdo d <- ond (fun m => build_from_data (meas_target m) sup anc_reset stabs dets);
    sdo os <- onm (sread (all_observables lrs));
    sret (appends (cat c d) os).

  Context (show : arg -> arg).
  Context (ordt : nat -> nat -> list string -> list string)
          (ordp : nat -> nat -> list (string * string) -> list (string * string)).
  (* {k: v for k, v in data_init.items() if k in layout.get_qubits()}, rot_surface_code_css.py:275-276 *)
  Definition init_part (l : layout) (data_init : dict string Z) : res (dict string Z) :=
    do qs <- get_qubits l []; Ok (filter (fun kv => mem (fst kv) qs) data_init).
  (* the loop over the gates, rot_surface_code_css.py:308-323, started at gate k; the
     exchange of the layouts persists. Block j iterates its sets in the orders
     [ordt (3 + 2 j + position)]. *)
  Fixpoint cnot_loop (round : nat -> layout -> layout -> ST world circuit) (alternating : bool) (n : nat)
           (count k : nat) (lc lt : layout) (acc : circuit) : ST world (circuit * layout * layout) :=
    match count with
    | O => sret (acc, lc, lt)
    | S count =>
        let (lc, lt) := if alternating && Nat.odd k then (lt, lc) else (lc, lt) in
        let j := (1 + k * S n)%nat in
        sdo c <- log_trans_cnot (ordt (3 + 2 * j)%nat) (ordp (3 + 2 * j)%nat) lc lt;
        sdo d <- sfold (fun acc r => sdo c <- round (j + 1 + r)%nat lc lt; sret (acc ++ c)) (seq 0 n) [];
        cnot_loop round alternating n count (S k) lc lt (acc ++ c ++ d)
    end.
  (* repeated_cnot_experiment, rot_surface_code_css.py:190-335, unrot_surface_code_css.py:285-430 *)
  Definition repeated_cnot_with (it : (nat -> list string -> list string) -> layout -> bool -> blocks)
             (lc lt : layout) (num_gates rounds_per_gate : Z) (data_init : dict string Z) (orientation : string)
             (rot_basis anc_reset : bool) (dets : option (list string)) (gauge : bool) : ST world circuit :=
    if rounds_per_gate <? 0 then sfail ValueError else
    if num_gates <? 0 then sfail ValueError else
    sdo dets <- slift (match dets with
                       | Some d => Ok d
                       | None => do c <- get_role lc "anc"; do t <- get_role lt "anc"; Ok (c ++ t)
                       end);
    if negb (mem orientation ["constant"; "alternating"]) then sfail TypeError else
    sdo dc <- slift (init_part lc data_init);
    sdo dt <- slift (init_part lt data_init);
    sdo c0 <- exp_start [lc; lt];
    sdo ic <- init_qubits (ordt 1%nat) lc dc rot_basis;
    sdo it_ <- init_qubits (ordt 2%nat) lt dt rot_basis;
    sdo c1 <- slift (merge_circuits show true [ic; it_]);
    sdo ds <- slift (if gauge then Ok dets else
        do sc <- get_stabs lc (basis_type rot_basis);
        do st <- get_stabs lt (basis_type rot_basis);
        Ok (ordt 0%nat 0%nat (inter (dedup dets) (sc ++ st))));
    let round ds j lc lt :=
      merge_qec_rounds (fun p => it (ordt (3 + 2 * j + p)%nat)) [lc; lt] anc_reset (Some ds) in
    sdo c2 <- round ds 0%nat lc lt;
    sdo (c3, lc', lt') <- cnot_loop (round dets) (eqb orientation "alternating") (Z.to_nat rounds_per_gate)
                            (Z.to_nat num_gates) 0 lc lt [];
    sdo c4 <- merge_log_meas (fun _ => log_meas_blocks) [lc'; lt'] [rot_basis; rot_basis] anc_reset (Some dets);
    sret (c0 ++ c1 ++ c2 ++ c3 ++ c4).
  Definition repeated_cnot_rot_css := repeated_cnot_with (fun ord => css_round ord "rotated_surface_code").
  Definition repeated_cnot_unrot_css := repeated_cnot_with (fun ord => css_round ord "unrotated_surface_code").
End Merge.
