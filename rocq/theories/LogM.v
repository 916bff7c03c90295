(** Model of surface_sim/log_gates: set_trans_s and set_trans_cnot of
    rot_surface_code_css.py, set_trans_s, set_trans_cnot and set_trans_h of
    unrot_surface_code_css.py. They add attributes to layouts in place; here they
    return the changed layouts.

    Simplifications: coordinates are pairs of exact rationals, so that rounding to
    five decimals (np.round) and np.allclose are left out and a reflection is exact;
    a layout with other than two coordinates per qubit is rejected where the code
    checks it and outside the model in set_trans_cnot. The matcher of networkx is an
    oracle: [monos] is the list it returns, in any order. [gm.is_isomorphic] is a
    method that is not called, hence always true. A while loop gets enough steps for
    visiting every pair of qubits; it would need more only if two data qubits of the
    folding line are at the same place, when Python does not terminate. *)
From Coq Require Import QArith Qcanon.
From Verif Require Import Base StimM LayoutM BlockM.
Open Scope Z_scope.

Notation vec := (Qc * Qc)%type.
Definition vadd (a b : vec) : vec := ((fst a + fst b)%Qc, (snd a + snd b)%Qc).
Definition vsub (a b : vec) : vec := ((fst a - fst b)%Qc, (snd a - snd b)%Qc).
Definition vscale (k : Qc) (a : vec) : vec := ((k * fst a)%Qc, (k * snd a)%Qc).
Definition vdot (a b : vec) : Qc := (fst a * fst b + snd a * snd b)%Qc.
Definition natq (n : nat) : Qc := Q2Qc (inject_Z (Z.of_nat n)).

(* np.array(layout.param("coords", q)) *)
Definition as_vec (v : pyv) : res vec :=
  do x <- as_num_list v; match x with [a; b] => Ok (a, b) | _ => Err Unmodelled end.
Definition coords_of (l : layout) (q : string) : res vec := do v <- lparam l "coords" q; as_vec v.
(* coords_to_label_dict, rot:68-70, unrot:67-71, 305-309 *)
Definition label_table (l : layout) : res (dict vec string) :=
  foldM (fun d qa => do v <- dget_err "coords" (snd qa); do c <- as_vec v; Ok (dset c (fst qa) d)) (l_nodes l) [].

(* the checks of the arguments, rot:32-47, unrot:33-48, 269-284 *)
Definition fold_checks (l : layout) (code : string) (sizes : bool) (dq : string) : res unit :=
  if negb (eqb (l_code l) code) then Err ValueError else
  if negb sizes then Err ValueError else
  do data <- get_role l "data";
  if negb (mem dq data) then Err ValueError else
  do cs <- get_coords l (dkeys (l_nodes l));
  do lens <- mapM (fun c => match c with PList x => Ok (length x) | _ => Err Unmodelled end) cs;
  if negb (forallb (Nat.eqb 2) lens) then Err ValueError else
  if negb (Nat.eqb (length (l_logs l)) 1) then Err ValueError else Ok tt.

(* [(d, q) for d, q in neighbors.items() if q in stabs][0] *)
Definition first_nbr (nd : dict string pyv) (stabs : list string) : res (string * string) :=
  of_opt IndexError (hd_error (flat_map (fun dq =>
    match snd dq with PStr q => if mem q stabs then [(fst dq, q)] else [] | _ => [] end) nd)).
(* the first X-type ancilla, the coordinates of the data qubit and the vector to the
   neighbour of the ancilla in the direction of the first Z-type ancilla: rot:55-65,
   unrot:56-65, 292-302 *)
Definition fold_line (l : layout) (dq : string) : res (string * vec * vec) :=
  do xs <- get_stabs l "x_type";
  do zs <- get_stabs l "z_type";
  do v <- lparam l "neighbors" dq;
  do nd <- (match v with PDict nd => Ok nd | PNone => Err AttributeError | _ => Err Unmodelled end);
  do (_, ax) <- first_nbr nd xs;
  do (dz, _) <- first_nbr nd zs;
  do h <- of_opt IndexError (hd_error (get_neighbors l [ax] (Some dz)));
  do ch <- coords_of l h;
  do c <- coords_of l dq;
  Ok (ax, c, vsub ch c).

(* for q in qs: layout.set_param(gate_label, q, value(q)) *)
Definition set_params (gate : string) (value : string -> res pyv) (qs : list string) (l : layout) : res layout :=
  foldM (fun l q => do v <- value q; lset_param l gate q v) qs l.
Definition label_or_none (o : option string) : pyv := match o with Some q => PStr q | None => PNone end.
Definition new_stab_gen (st : list string) : pyv := PDict [("new_stab_gen", PList (map PStr st))].

(* sorted(list of labels) *)
Fixpoint insert_str (x : string) (l : list string) : list string :=
  match l with
  | [] => [x]
  | y :: r => if String.leb x y then x :: l else y :: insert_str x r
  end.
Definition sort_str (l : list string) : list string := fold_right insert_str [] l.
(* tuple(sorted(layout.get_neighbors([anc]))) *)
Definition sorted_support (l : layout) (a : string) : list string := sort_str (get_neighbors l [a] None).
(* zstab_to_anc, rot:125-128, unrot:100-103 *)
Definition zstab_table (l : layout) (zs : list string) : dict (list string) string :=
  fold_left (fun d a => dset (sorted_support l a) a d) zs [].

(* set.symmetric_difference_update([x]) *)
Definition toggle {A} `{Eqb A} (x : A) (s : list A) : list A :=
  if mem x s then filter (fun y => negb (eqb x y)) s else x :: s.
(* tuple(sorted(z_stab)): None is not comparable with a str; a tuple with only None is
   not a key of zstab_to_anc *)
Definition sorted_labels (s : list (option string)) : res (list string) :=
  if mem None s then Err (if Nat.eqb (length s) 1 then KeyError else TypeError)
  else Ok (sort_str (flat_map (fun o => match o with Some q => [q] | None => [] end) s)).

(** The data attributes {"cz": ..., "local": ...} and the new stabilizers, rot:114-153,
    unrot:89-129. [both] tells if a data qubit with a local gate also gives its partner
    (the rotated code); [fixed] is the ancilla with the hard-coded new stabilizer. *)
Section TransS.
  Context (cz : dict (option string) (option string)) (s : dict (option string) string)
          (both : bool) (fixed : option string).
  Definition s_attr (q : string) : res pyv :=
    do b <- dget_err (Some q) cz;
    do g <- dget_err (Some q) s;
    Ok (PDict [("cz", label_or_none b); ("local", PStr g)]).
  Definition z_stab_step (acc : list (option string)) (d : string) : res (list (option string)) :=
    do g <- dget_err (Some d) s;
    if eqb g "I" then do b <- dget_err (Some d) cz; Ok (toggle b acc)
    else if both then do b <- dget_err (Some d) cz; Ok (toggle b (toggle (Some d) acc))
    else Ok (toggle (Some d) acc).
  Definition s_new_stab (l : layout) (ztab : dict (list string) string) (new : dict string (list string)) (ax : string)
    : res (dict string (list string)) :=
    if eqb (Some ax) fixed then Ok (dset ax [ax] new) else
    do z <- foldM z_stab_step (sorted_support l ax) [];
    do key <- sorted_labels z;
    do az <- dget_err key ztab;
    Ok (dset az [az] (dset ax [ax; az] new)).
  Definition trans_s_end (l : layout) (gate : string) : res layout :=
    do data <- get_role l "data";
    do anc <- get_role l "anc";
    do xs <- get_stabs l "x_type";
    do zs <- get_stabs l "z_type";
    do l1 <- set_params gate s_attr data l;
    do new <- foldM (s_new_stab l1 (zstab_table l1 zs)) xs [];
    set_params gate (fun a => do st <- dget_err a new; Ok (new_stab_gen st)) anc l1.
End TransS.

Definition gate_s (l : layout) : res string := do g <- first_log l; Ok ("trans-s_" ++ g)%string.
Definition gate_h (l : layout) : res string := do g <- first_log l; Ok ("trans-h_" ++ g)%string.

(** * Rotated code *)
Section Walk.
  Context (at_ : vec -> option string) (h v : vec).
  (* the pairs of the CZ gates, rot:79-99 *)
  Fixpoint cz_loop (fuel : nat) (top : vec) (level : nat) (cz : dict (option string) (option string))
    : res (dict (option string) (option string)) :=
    match fuel with
    | O => Err Unmodelled
    | S n =>
        match at_ top with
        | None => Ok cz
        | Some _ =>
            match at_ (vadd top (vscale (natq level) v)) with
            | None => cz_loop n (vadd top (vadd v h)) 0 cz
            | Some q1 =>
                let o2 := at_ (vadd top (vscale (natq (S level)) h)) in
                cz_loop n top (S level) (dset (Some q1) o2 (dset o2 (Some q1) cz))
            end
        end
    end.
  (* the S gates, rot:104-111: the labels and the place where the loop stops *)
  Fixpoint s_loop (fuel : nat) (c : vec) (s : dict (option string) string)
    : res (dict (option string) string * vec) :=
    match fuel with
    | O => Err Unmodelled
    | S n =>
        match at_ c with
        | None => Ok (s, c)
        | Some q => s_loop n (vadd c (vadd h v)) (dset (Some q) "S" s)
        end
    end.
End Walk.
Definition no_gate (data : list string) : dict (option string) string := map (fun q => (Some q, "I")) data.
(* set_trans_s, rot:9-155 *)
Definition set_trans_s_rot (l : layout) (dq : string) : res layout :=
  do _ <- fold_checks l "rotated_surface_code" (eqb (l_dz l) (l_dx l + 1)) dq;
  do data <- get_role l "data";
  do gate <- gate_s l;
  do (ax, c, h) <- fold_line l dq;
  let v := (snd h, (- fst h)%Qc) in
  do tab <- label_table l;
  let at_ p := dget p tab in
  let n := length (l_nodes l) in
  do cz <- cz_loop at_ h v (S n * S (S n)) c 0 [];
  do (s, e) <- s_loop at_ h v (S (S n)) (vadd c h) (dset (Some dq) "S" (no_gate data));
  let s := dset (at_ (vsub (vsub e h) v)) "S_DAG" s in
  trans_s_end cz s true (Some ax) l gate.

(** * Unrotated code *)
(* reflection, unrot:134-155: about the line through [p] along [v]; the key with nan
   that results from v = 0 is in no dictionary *)
Definition reflection (x p v : vec) : res vec :=
  if eqb (vdot v v) 0%Qc then Err KeyError
  else let y := vsub x p in
       Ok (vsub (vadd p (vscale ((Q2Qc 2 * vdot y v / vdot v v)%Qc) v)) y).
(* the label at the reflected place of a qubit, unrot:76-79, 315-318, 328-331 *)
Definition reflected (l : layout) (tab : dict vec string) (p v : vec) (q : string) : res string :=
  do c <- get_coords l [q];
  do x <- (match c with [x] => as_vec x | _ => Err Unmodelled end);
  do y <- reflection x p v;
  dget_err y tab.
(* cz_gates, swap_gates, unrot:74-80, 312-319 *)
Definition partners (l : layout) (tab : dict vec string) (p v : vec) (data : list string)
  : res (dict (option string) (option string)) :=
  foldM (fun d q => do b <- reflected l tab p v q;
                    Ok (dset (Some q) (if eqb b q then None else Some b) d)) data [].
(* s_gates, unrot:83-88 *)
Definition diagonal_gates (l : layout) (tab : dict vec string) (p v : vec) (data : list string)
  : res (dict (option string) string) :=
  foldM (fun d k => do q <- dget_err (vadd p (vscale (natq k) v)) tab;
                    Ok (dset (Some q) (if Nat.even k then "S" else "S_DAG") d))
        (seq 0 (Z.to_nat (2 * l_dz l - 1))) (no_gate data).
(* set_trans_s, unrot:7-131 *)
Definition set_trans_s_unrot (l : layout) (dq : string) : res layout :=
  do _ <- fold_checks l "unrotated_surface_code" (eqb (l_dz l) (l_dx l)) dq;
  do data <- get_role l "data";
  do gate <- gate_s l;
  do (_, p, v) <- fold_line l dq;
  do tab <- label_table l;
  do cz <- partners l tab p v data;
  do s <- diagonal_gates l tab p v data;
  trans_s_end cz s false None l gate.
(* set_trans_h, unrot:257-342 *)
Definition set_trans_h (l : layout) (dq : string) : res layout :=
  do _ <- fold_checks l "unrotated_surface_code" (eqb (l_dz l) (l_dx l)) dq;
  do data <- get_role l "data";
  do anc <- get_role l "anc";
  do gate <- gate_h l;
  do (_, p, v) <- fold_line l dq;
  do tab <- label_table l;
  do sw <- partners l tab p v data;
  do l1 <- set_params gate (fun q => do b <- dget_err (Some q) sw;
             Ok (PDict [("swap", label_or_none b); ("local", PStr "H")])) data l;
  do new <- foldM (fun d a => do b <- reflected l1 tab p v a; Ok (dset a [b] d)) anc [];
  set_params gate (fun a => do st <- dget_err a new; Ok (new_stab_gen st)) anc l1.

(** * Transversal CNOT *)
(* the vector from a qubit of the control to its image, rot:212-220 *)
Definition vector (lc lt : layout) (ct : string * string) : res vec :=
  do a <- get_coords lc [fst ct];
  do b <- get_coords lt [snd ct];
  match a, b with
  | [a], [b] => do a <- as_vec a; do b <- as_vec b; Ok (vsub b a)
  | _, _ => Err Unmodelled
  end.
(* are all the vectors equal? rot:209-224; the loop stops at the first other one *)
Fixpoint all_parallel (lc lt : layout) (base : vec) (m : dict string string) : res bool :=
  match m with
  | [] => Ok true
  | ct :: r => do v <- vector lc lt ct;
               if eqb v base then all_parallel lc lt base r else Ok false
  end.
(* the last monomorphism with parallel vectors, rot:205-227 *)
Definition choose_mapping (lc lt : layout) (monos : list (dict string string)) : res (option (dict string string)) :=
  foldM (fun acc m =>
      match m with
      | [] => Err StopIteration
      | ct :: _ => do base <- vector lc lt ct;
                   do ok <- all_parallel lc lt base m;
                   Ok (if ok : bool then Some m else acc)
      end) monos None.
(* set_trans_cnot, rot:158-255, unrot:158-254 *)
Definition set_trans_cnot (code : string) (monos : list (dict string string)) (lc lt : layout) : res (layout * layout) :=
  if negb (eqb (l_code lc) code) || negb (eqb (l_code lt) code) then Err ValueError else
  if negb (eqb (l_dx lc) (l_dx lt)) || negb (eqb (l_dz lc) (l_dz lt)) then Err ValueError else
  do _ <- check_overlaps [lc; lt];
  do gate <- cnot_label lc lt;
  if Nat.eqb (length monos) 0 then Err ValueError else
  do o <- choose_mapping lc lt monos;
  do m <- of_opt ValueError o;
  let inv := fold_left (fun d ct => dset (snd ct) (fst ct) d) m [] in
  do dc <- get_role lc "data";
  do dt <- get_role lt "data";
  let partner f q := do b <- dget_err q f; Ok (PDict [("cnot", PStr b)]) in
  do lc1 <- set_params gate (partner m) dc lc;
  do lt1 <- set_params gate (partner inv) dt lt;
  do zc <- get_stabs lc1 "z_type";
  do xc <- get_stabs lc1 "x_type";
  do zt <- get_stabs lt1 "z_type";
  do xt <- get_stabs lt1 "x_type";
  let alone new := foldM (fun d a => Ok (dset a [a] d)) new in
  let paired f new := foldM (fun d a => do b <- dget_err a f; Ok (dset a [a; b] d)) new in
  do new <- alone zc [];
  do new <- paired m xc new;
  do new <- paired inv zt new;
  do new <- alone xt new;
  do ac <- get_role lc1 "anc";
  do at_ <- get_role lt1 "anc";
  let value a := do st <- dget_err a new; Ok (new_stab_gen st) in
  do lc2 <- set_params gate value ac lc1;
  do lt2 <- set_params gate value at_ lt1;
  Ok (lc2, lt2).
Definition set_trans_cnot_rot := set_trans_cnot "rotated_surface_code".
Definition set_trans_cnot_unrot := set_trans_cnot "unrotated_surface_code".
