(** Model of surface_sim/detectors/detectors.py (class Detectors and helpers).

    Simplifications: argument types are as annotated (the isinstance checks always
    pass) and iterables are lists; ancilla coordinates are rationals; the inverse
    of a generator matrix is exact (MatM.v); an xarray with coordinate labels is a
    list of labelled rows, so that selecting and aligning by label is looking up a
    label. A unitary with repeated labels is outside the model. *)
From Coq Require Import QArith Qcanon.
From Verif Require Import Base StimM MatM.
Open Scope Z_scope.

(* 'pre-gate', 'post-gate', 'gate-independent' *)
Inductive dframe := PreGate | PostGate | GateIndep.

(* rows of curr_gen/prev_gen: stabilizer label and its row over the basis 0..n-1 *)
Definition gen := dict string (list bool).

(* instance attributes, detectors.py:71-99. init_gen is never changed after
   new_circuit: only its labels (labels) are used. *)
Record detectors := {
  labels : list string; dfr : dframe; dcoords : dict string (list Qc);
  prev_gen : gen; curr_gen : gen;
  active : dict string bool; num_rounds : dict string Z; total : Z }.

(* np.identity with labels, detectors.py:83-89 *)
Definition identity (ls : list string) : gen :=
  combine ls (map (fun k => unitv GF2 (length ls) k) (seq 0 (length ls))).

(* new_circuit, detectors.py:79-99 *)
Definition det_new (d : detectors) : detectors :=
  {| labels := labels d; dfr := dfr d; dcoords := dcoords d;
     prev_gen := identity (labels d); curr_gen := identity (labels d);
     active := map (fun a => (a, false)) (dedup (labels d));
     num_rounds := map (fun a => (a, 0)) (dedup (labels d)); total := 0 |}.

(* __init__, detectors.py:16-77 *)
Definition det_init (ls : list string) (f : string) (coords : option (dict string (list Qc))) : res detectors :=
  do fr <- (if eqb f "pre-gate" then Ok PreGate else if eqb f "post-gate" then Ok PostGate
            else if eqb f "gate-independent" then Ok GateIndep else Err ValueError);
  let cs := match coords with Some c => c | None => map (fun a => (a, [])) (dedup ls) end in
  if negb (nodupb ls) then Err Unmodelled
  else if negb (set_eq (dkeys cs) ls) then Err ValueError
  else if negb (eqb (length (dedup (map (fun kv => length (snd kv)) cs))) 1%nat) then Err ValueError
  else Ok (det_new {| labels := ls; dfr := fr; dcoords := cs; prev_gen := []; curr_gen := [];
                      active := []; num_rounds := []; total := 0 |}).

Definition set_active (a : string) (b : bool) (d : detectors) : detectors :=
  {| labels := labels d; dfr := dfr d; dcoords := dcoords d; prev_gen := prev_gen d; curr_gen := curr_gen d;
     active := dset a b (active d); num_rounds := num_rounds d; total := total d |}.
Definition set_rounds (nr : dict string Z) (t : Z) (d : detectors) : detectors :=
  {| labels := labels d; dfr := dfr d; dcoords := dcoords d; prev_gen := prev_gen d; curr_gen := curr_gen d;
     active := active d; num_rounds := nr; total := t |}.
Definition set_gens (p c : gen) (d : detectors) : detectors :=
  {| labels := labels d; dfr := dfr d; dcoords := dcoords d; prev_gen := p; curr_gen := c;
     active := active d; num_rounds := num_rounds d; total := total d |}.

Fixpoint siter {S A} (f : A -> ST S unit) (l : list A) : ST S unit :=
  match l with [] => sret tt | x :: r => sdo _ <- f x; siter f r end.

(* activate_detectors, detectors.py:100-118 *)
Definition activate_one (a : string) : ST detectors unit := fun d =>
  match dget a (active d) with
  | None => (d, Err KeyError)
  | Some true => (d, Err ValueError)
  | Some false => (set_rounds (dset a 0 (num_rounds d)) (total d) (set_active a true d), Ok tt)
  end.
Definition activate (l : list string) : ST detectors unit := fun d =>
  if strict_superset l (dkeys (active d)) then (d, Err ValueError)
  else siter activate_one l d.

(* g.loc[dict(stab_gen=a, basis=k)] = b *)
Fixpoint set_nth {A} (k : nat) (b : A) (l : list A) : list A :=
  match l, k with
  | [], _ => []
  | _ :: r, O => b :: r
  | x :: r, S k' => x :: set_nth k' b r
  end.
Definition gset (a : string) (k : nat) (b : bool) (g : gen) : gen :=
  match dget a g with Some row => dset a (set_nth k b row) g | None => g end.
(* the loop detectors.py:138-149 on one generator matrix; the indices are
   list.index on the labels *)
Definition clear_anc (ls : list string) (a : string) (g : gen) : gen :=
  fold_left (fun g o =>
    match index a ls, index o ls with
    | Some ia, Some io =>
        if eqb o a then gset a ia true g
        else gset a io false (gset o ia false g)
    | _, _ => g
    end) ls g.
(* deactivate_detectors, detectors.py:120-151 *)
Definition deactivate_one (a : string) : ST detectors unit := fun d =>
  match dget a (active d) with
  | None => (d, Err KeyError)
  | Some false => (d, Err ValueError)
  | Some true =>
      let d1 := set_active a false d in
      (set_gens (clear_anc (labels d) a (prev_gen d)) (clear_anc (labels d) a (curr_gen d)) d1, Ok tt)
  end.
Definition deactivate (l : list string) : ST detectors unit := fun d =>
  if strict_superset l (dkeys (active d)) then (d, Err ValueError)
  else siter deactivate_one l d.

(* an xr.DataArray with dimensions new_stab_gen (rows) and stab_gen (columns) *)
Record unitary := { u_new : list string; u_old : list string; u_mat : list (list bool) }.

Fixpoint vxor (a b : list bool) : list bool :=
  match a, b with x :: a', y :: b' => xorb x y :: vxor a' b' | _, _ => [] end.
(* row of (unitary @ gen) % 2: sum of the generators selected by the row *)
Definition row_times (n : nat) (row : list bool) (rows : list (list bool)) : list bool :=
  fold_left (fun acc br => if fst br : bool then vxor acc (snd br) else acc) (combine row rows) (repeat false n).

(* update, detectors.py:204-260 *)
Definition update (u : unitary) : ST detectors unit := fun d =>
  if negb (set_eq (u_old u) (u_new u) && set_eq (u_new u) (labels d)) then (d, Err ValueError)
  else if negb (nodupb (u_new u) && nodupb (u_old u) && eqb (length (u_mat u)) (length (u_new u)) &&
                forallb (fun r => eqb (length r) (length (u_old u))) (u_mat u)) then (d, Err Unmodelled)
  else if singular GF2 (u_mat u) then (d, Err ValueError)
  else match mapM (fun a => dget_err a (curr_gen d)) (u_old u) with
       | Err e => (d, Err e)
       | Ok rows =>
           (set_gens (prev_gen d)
              (combine (u_new u) (map (fun row => row_times (length (labels d)) row rows) (u_mat u))) d, Ok tt)
       end.

(* update_from_dict, detectors.py:153-202 *)
Definition udict_row (ls : list string) (a : string) (old : option (list string)) : list bool :=
  match old with
  | None => map (fun o => eqb o a) ls
  | Some l => map (fun o => mem o l) ls
  end.
Definition update_from_dict (nd : dict string (list string)) : ST detectors unit := fun d =>
  let ls := labels d in
  if strict_superset (dkeys nd) ls then (d, Err ValueError)
  else if negb (forallb (fun kv => mem (fst kv) ls && forallb (fun o => mem o ls) (snd kv)) nd)
  then (d, Err KeyError) (* .loc with an unknown label *)
  else update {| u_new := ls; u_old := ls; u_mat := map (fun a => udict_row ls a (dget a nd)) ls |} d.

(* np.where(row)[0] *)
Definition nonzero (row : list Qc) : list nat :=
  map fst (filter (fun kx => negb (feqb0 QF (snd kx))) (enumerate row)).
(* rows @ inv(basis) *)
Definition change_basis (rows : list (list bool)) (icols : list (list Qc)) : list (list Qc) :=
  map (fun row => map (dot QF (map q_of_bool row)) icols) rows.
Definition select (ls : list string) (l : list nat) (k : Z) : list (string * Z) :=
  map (fun i => (nth i ls "", k)) l.

(* _get_ancilla_meas_for_detectors, detectors.py:507-570 *)
Definition get_anc_meas (curr prev basis : gen) (nr : dict string Z) (reset_curr reset_prev : bool)
  : res (dict string (list (string * Z))) :=
  let ancs := dkeys curr in
  do C <- mapM (fun a => dget_err a curr) ancs;
  do B <- mapM (fun a => dget_err a basis) ancs;
  do P <- mapM (fun a => dget_err a prev) ancs;
  do X <- of_opt LinAlgError (inverse_cols QF (qmat B));
  mapM (fun acp =>
    let '(a, (c, p)) := acp in
    do n <- dget_err a nr;
    let ci := nonzero c in
    let pi := nonzero p in
    Ok (a, select ancs ci (-1) ++
           (if 2 <=? n then select ancs pi (-2) else []) ++
           (if negb reset_curr && (2 <=? n) then select ancs ci (-2) else []) ++
           (if negb reset_prev && (3 <=? n) then select ancs pi (-3) else [])))
    (combine ancs (combine (change_basis C X) (change_basis P X))).

(* remove_pairs, detectors.py:662-668 *)
Definition remove_pairs {A} `{Eqb A} (l : list A) : list A :=
  filter (fun x => Nat.odd (count x l)) l.

(* [a for a in anc_qubits if self.anc_qubits[a]] *)
Definition requested (d : detectors) (req : option (list string)) : res (list string) :=
  let l := match req with Some l => l | None => dkeys (curr_gen d) end in
  do fl <- mapM (fun a => dget_err a (active d)) l;
  Ok (map fst (filter snd (combine l fl))).
(* detectors.py:308-312 *)
Definition next_rounds (d : detectors) : res (dict string Z) :=
  mapM (fun ab : string * bool =>
    do n <- dget_err (fst ab) (num_rounds d);
    Ok (fst ab, if snd ab then n + 1 else n)) (active d).

Definition zq (z : Z) : Qc := Q2Qc (inject_Z z).
(* the DETECTOR instructions, detectors.py:334-349 and 485-499 *)
Definition det_instr (d : detectors) (get_rec : string -> Z -> res target) (ancs : list string) (time : Qc)
           (at_ : string * list (string * Z)) : res instr :=
  let tgts := remove_pairs (snd at_) in
  do recs <- (if mem (fst at_) ancs then mapM (fun t => get_rec (fst t) (snd t)) tgts else Ok []);
  do cs <- dget_err (fst at_) (dcoords d);
  mk DETECTOR recs (map ANum (cs ++ [time])).

(* build_from_anc, detectors.py:262-354 *)
Definition build_from_anc (get_rec : string -> Z -> res target) (reset : bool) (req : option (list string))
  : ST detectors circuit :=
  sdo ancs <- sread (fun d => requested d req);
  sdo nr <- sread next_rounds;
  sdo _ <- (fun d => (set_rounds nr (total d + 1) d, Ok tt));
  sdo dets <- sread (fun d =>
    match dfr d with
    | GateIndep =>
        mapM (fun a => do n <- dget_err a (num_rounds d);
                       let k := if reset then -2 else -3 in
                       Ok (a, (a, -1) :: (if 0 <=? k + n then [(a, k)] else []))) (labels d)
    | PostGate => get_anc_meas (curr_gen d) (prev_gen d) (curr_gen d) (num_rounds d) reset reset
    | PreGate => get_anc_meas (curr_gen d) (prev_gen d) (prev_gen d) (num_rounds d) reset reset
    end);
  sdo c <- sread (fun d => mapM (det_instr d get_rec ancs (zq (total d - 1))) dets);
  sdo _ <- (fun d => (set_gens (curr_gen d) (curr_gen d) d, Ok tt));
  sret (appends [] c).

(* detectors.py:464-479: (anc, -1) becomes the data qubits, other indices shift *)
Definition to_data (sup : dict string (list string)) (dets : list (string * Z)) : res (list (string * Z)) :=
  do l <- mapM (fun t : string * Z =>
      if eqb (snd t) (-1) then do qs <- dget_err (fst t) sup; Ok (map (fun q => (q, -1)) qs)
      else Ok [(fst t, snd t + 1)]) dets;
  Ok (concat l).

(* build_from_data, detectors.py:356-505 *)
Definition build_from_data (get_rec : string -> Z -> res target) (sup : dict string (list string))
           (reset : bool) (recon : list string) (req : option (list string)) : ST detectors circuit :=
  if strict_superset recon (dkeys sup) then sfail ValueError else
  sdo ancs <- sread (fun d => requested d req);
  sdo nr <- sread next_rounds;
  sdo dets <- sread (fun d =>
    match dfr d with
    | GateIndep =>
        mapM (fun a => do n <- dget_err a nr;
                       Ok (a, (a, -1) :: (if 1 <? n then [(a, -2)] else [])
                                      ++ (if negb reset && (2 <? n) then [(a, -3)] else []))) (labels d)
    | _ => get_anc_meas (curr_gen d) (prev_gen d) (curr_gen d) nr true reset
    end);
  sdo dets' <- slift (mapM (fun at_ => do t <- to_data sup (snd at_); Ok (fst at_, t))
                          (filter (fun at_ => mem (fst at_) recon) dets));
  sdo c <- sread (fun d => mapM (det_instr d get_rec ancs (zq (total d) - Q2Qc (1#2))%Qc) dets');
  sdo _ <- (fun d => (set_gens (curr_gen d) (curr_gen d) d, Ok tt));
  sret (appends [] c).
