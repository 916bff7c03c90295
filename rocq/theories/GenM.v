(** Model of surface_sim/layouts/library: util.py, rot_surface_codes.py and
    unrot_surface_codes.py (the layout generators).

    Simplifications: the isinstance checks of the arguments are the types below;
    nested loops over rows and columns are one loop over the list of positions;
    a float in [init_point] is an exact rational. *)
From Coq Require Import QArith Qcanon DecimalString.
From Verif Require Import Base StimM LayoutM.
Open Scope Z_scope.

(* f"{p}{z}" *)
Definition label (p : string) (z : Z) : string := (p ++ NilZero.string_of_int (Z.to_int z))%string.
(* a Python int as an attribute value *)
Definition zq (z : Z) : Qc := Q2Qc (inject_Z z).

(** * util.py *)
(* invert_shift, util.py:1-16 *)
Definition invert_shift (s : Z * Z) : Z * Z := (- fst s, - snd s).
(* is_valid, util.py:19-42 *)
Definition is_valid (max_row max_col row col : Z) : bool :=
  if negb ((0 <=? row) && (row <? max_row)) then false
  else if negb ((0 <=? col) && (col <? max_col)) then false
  else true.
(* _check_distance, util.py:45-60 *)
Definition check_distance (d : Z) : res unit := if d <? 0 then Err ValueError else Ok tt.

(** * What the two generators have in common *)
(* the arguments, rot_surface_codes.py:78-87, unrot_surface_codes.py:69-78 *)
Record gen_args := { ga_dx : Z; ga_dz : Z; ga_log : string; ga_pt : Qc * Qc;
                     ga_data : Z; ga_zanc : Z; ga_xanc : Z; ga_ind : Z }.

(* layout_data, neighbor_data, ind, and the counters x_index and z_index *)
Record gst := { gs_infos : list attrs; gs_nbr : dict string (dict string pyv);
                gs_ind : Z; gs_x : Z; gs_z : Z }.
Definition gst0 (a : gen_args) : gst :=
  {| gs_infos := []; gs_nbr := []; gs_ind := ga_ind a; gs_x := ga_xanc a; gs_z := ga_zanc a |}.

(* neighbor_data[a][dir] = b, with neighbor_data a defaultdict(dict) *)
Definition write (a dir b : string) (nd : dict string (dict string pyv)) : dict string (dict string pyv) :=
  dset a (dset dir (PStr b) (odef [] (dget a nd))) nd.

Section Gen.
  Context (direction : Z * Z -> res string)   (* shift_direction *)
          (valid : Z -> Z -> bool)            (* valid_coord *)
          (index : Z -> Z -> Z)               (* data_indexer *)
          (shifts : list (Z * Z))             (* nbr_shifts *)
          (pt : Qc * Qc).                     (* init_point *)

  (* body of the innermost loop, rot_surface_codes.py:230-242, 260-272, unrot_surface_codes.py:217-229 *)
  Definition nbr_step (anc : string) (row col : Z) (nd : dict string (dict string pyv)) (s : Z * Z)
    : res (dict string (dict string pyv)) :=
    let data_row := row + fst s in
    let data_col := col + snd s in
    if negb (valid data_row data_col) then Ok nd
    else
      let data := label "D" (index data_row data_col) in
      do dir <- direction s;
      let nd := write anc dir data nd in
      do inv <- direction (invert_shift s);
      Ok (write data inv anc nd).

  (* qubit_info: [extra] is freq_group, which only the rotated code has *)
  Definition qubit_info (q role : string) (row col : Z) (extra : attrs) (stab : pyv) (ind : Z) : attrs :=
    [("qubit", PStr q); ("role", PStr role);
     ("coords", PList [PNum (zq row + fst pt)%Qc; PNum (zq col + snd pt)%Qc])]
    ++ extra ++ [("stab_type", stab); ("ind", PNum (zq ind))].

  (* body of the loop over the data qubits, rot_surface_codes.py:200-212, unrot_surface_codes.py:185-198 *)
  Definition place_data (row col : Z) (extra : attrs) (st : gst) : res gst :=
    let info := qubit_info (label "D" (index row col)) "data" row col extra PNone (gs_ind st) in
    Ok {| gs_infos := gs_infos st ++ [info]; gs_nbr := gs_nbr st; gs_ind := gs_ind st + 1;
          gs_x := gs_x st; gs_z := gs_z st |}.

  (* body of the loops over the X-type and Z-type ancillas, rot_surface_codes.py:217-242, 247-272,
     unrot_surface_codes.py:200-229 *)
  Definition place_anc (x_type : bool) (row col : Z) (extra : attrs) (st : gst) : res gst :=
    let anc := if x_type then label "X" (gs_x st) else label "Z" (gs_z st) in
    let stab := if x_type then PStr "x_type" else PStr "z_type" in
    do nd <- foldM (nbr_step anc row col) shifts (gs_nbr st);
    Ok {| gs_infos := gs_infos st ++ [qubit_info anc "anc" row col extra stab (gs_ind st)];
          gs_nbr := nd; gs_ind := gs_ind st + 1;
          gs_x := if x_type then gs_x st + 1 else gs_x st;
          gs_z := if x_type then gs_z st else gs_z st + 1 |}.
End Gen.

(* qubit_info["neighbors"] = neighbor_data[qubit], rot_surface_codes.py:276-278, unrot_surface_codes.py:231-233 *)
Definition set_neighbors (nd : dict string (dict string pyv)) (info : attrs) : attrs :=
  match dget "qubit" info with
  | Some (PStr q) => dset "neighbors" (PDict (odef [] (dget q nd))) info
  | _ => info
  end.

(* layout_setup, rot_surface_codes.py:163-176, unrot_surface_codes.py:152-164;
   freq_order is not read by Layout *)
Definition layout_setup (a : gen_args) (name code : string) (order : dict string (list string))
  (log_z log_x : list string) (infos : list attrs) : raw_layout :=
  {| rl_name := Some (PStr name); rl_code := Some code; rl_logs := Some [ga_log a];
     rl_distance := if eqb (ga_dx a) (ga_dz a) then Some (ga_dz a) else None;
     rl_dz := Some (ga_dz a); rl_dx := Some (ga_dx a);
     rl_logz := Some [(ga_log a, log_z)]; rl_logx := Some [(ga_log a, log_x)];
     rl_desc := Some PNone; rl_order := Some order; rl_layout := Some infos |}.

(** * rot_surface_codes.py *)
(* get_data_index, rot_surface_codes.py:9-35 *)
Definition rot_index (col_size start row col : Z) : Z := start + (row / 2) * col_size + col / 2.
(* shift_direction, rot_surface_codes.py:38-56 *)
Definition rot_direction (s : Z * Z) : res string :=
  let ver := if 0 <? fst s then "north" else "south" in
  let hor := if 0 <? snd s then "east" else "west" in
  Ok (ver ++ "_" ++ hor)%string.
(* add_missing_neighbours, rot_surface_codes.py:59-75 *)
Definition add_missing (nd : dict string (dict string pyv)) : dict string (dict string pyv) :=
  map (fun kv => (fst kv,
         fold_left (fun n d => if dmem d n then n else dset d PNone n) diag_dirs (snd kv))) nd.
(* product((1, -1), repeat=2), rot_surface_codes.py:185-186 *)
Definition rot_shifts : list (Z * Z) := [(1, 1); (1, -1); (-1, 1); (-1, -1)].

(* positions in the order of the loops; data: rows 1, 3, ..., columns 1, 3, ...,
   rot_surface_codes.py:197-199, with next(freq_seq) for every row *)
Definition rot_data_pos (dx dz : Z) : list (string * (Z * Z)) :=
  flat_map (fun kr => let freq := if Nat.even (fst kr) then "low" else "high" in
                      map (fun c => (freq, (snd kr, c))) (zrange 1 (2 * dz + 1) 2))
           (enumerate (zrange 1 (2 * dx + 1) 2)).
(* rot_surface_codes.py:215-216 *)
Definition rot_x_pos (dx dz : Z) : list (Z * Z) :=
  flat_map (fun r => map (pair r) (zrange (2 + r mod 4) (2 * dz + 1 - 1) 4)) (zrange 0 (2 * dx + 1) 2).
(* rot_surface_codes.py:245-246 *)
Definition rot_z_pos (dx dz : Z) : list (Z * Z) :=
  flat_map (fun r => map (pair r) (zrange (r mod 4) (2 * dz + 1) 4)) (zrange 2 (2 * dx + 1 - 1) 2).

(* int_order, rot_surface_codes.py:155-158 *)
Definition rot_order : dict string (list string) :=
  [("x_type", ["north_east"; "north_west"; "south_east"; "south_west"]);
   ("z_type", ["north_east"; "south_east"; "north_west"; "south_west"])].

(* the three loops, rot_surface_codes.py:184-272 *)
Definition rot_loops (a : gen_args) : res gst :=
  let dx := ga_dx a in
  let dz := ga_dz a in
  let pt := ((fst (ga_pt a) - 1)%Qc, (snd (ga_pt a) - 1)%Qc) in
  let index := rot_index dz (ga_data a) in
  let valid := is_valid (2 * dx + 1) (2 * dz + 1) in
  let anc x st rc := place_anc rot_direction valid index rot_shifts pt x (fst rc) (snd rc)
                               [("freq_group", PStr "mid")] st in
  do st <- foldM (fun st (frc : string * (Z * Z)) =>
                    place_data index pt (fst (snd frc)) (snd (snd frc)) [("freq_group", PStr (fst frc))] st)
                 (rot_data_pos dx dz) (gst0 a);
  do st <- foldM (anc true) (rot_x_pos dx dz) st;
  foldM (anc false) (rot_z_pos dx dz) st.

(* rot_surface_code_rectangle, rot_surface_codes.py:78-282 *)
Definition rot_surface_code_rectangle (a : gen_args) : res layout :=
  let dx := ga_dx a in
  let dz := ga_dz a in
  do _ <- check_distance dx;
  do _ <- check_distance dz;
  let name := ("Rotated dx-" ++ label "" dx ++ " dz-" ++ label "" dz ++ " surface code layout.")%string in
  let log_z := map (fun i => label "D" (i + ga_data a)) (range dz) in
  let log_x := map (fun i => label "D" (i * dz + ga_data a)) (range dx) in
  do st <- rot_loops a;
  let nd := add_missing (gs_nbr st) in
  let infos := map (set_neighbors nd) (gs_infos st) in
  layout_init (layout_setup a name "rotated_surface_code" rot_order log_z log_x infos).
(* rot_surface_code, rot_surface_codes.py:285-331 *)
Definition rot_surface_code (d : Z) (a : gen_args) : res layout :=
  rot_surface_code_rectangle
    {| ga_dx := d; ga_dz := d; ga_log := ga_log a; ga_pt := ga_pt a; ga_data := ga_data a;
       ga_zanc := ga_zanc a; ga_xanc := ga_xanc a; ga_ind := ga_ind a |}.

(** * unrot_surface_codes.py *)
(* get_data_index, unrot_surface_codes.py:9-39 *)
Definition unrot_index (col_size start row col : Z) : Z :=
  let (row, col) := if eqb (row mod 2) 1 then (row - 1, col + col_size) else (row, col) in
  start + (row / 2) * col_size + col / 2.
(* shift_direction, unrot_surface_codes.py:42-66 *)
Definition unrot_direction (s : Z * Z) : res string :=
  if eqb s (0, 1) then Ok "north"
  else if eqb s (0, -1) then Ok "south"
  else if eqb s (1, 0) then Ok "east"
  else if eqb s (-1, 0) then Ok "west"
  else Err ValueError.
(* unrot_surface_codes.py:173 *)
Definition unrot_shifts : list (Z * Z) := [(0, 1); (0, -1); (1, 0); (-1, 0)].
(* unrot_surface_codes.py:181-182 *)
Definition unrot_pos (dx dz : Z) : list (Z * Z) :=
  flat_map (fun r => map (pair r) (range (2 * dz - 1))) (range (2 * dx - 1)).
(* int_order, unrot_surface_codes.py:144-147 *)
Definition unrot_order : dict string (list string) :=
  [("x_type", ["north"; "west"; "east"; "south"]);
   ("z_type", ["north"; "east"; "west"; "south"])].
(* the loop, unrot_surface_codes.py:166-229 *)
Definition unrot_loop (a : gen_args) : res gst :=
  let dx := ga_dx a in
  let dz := ga_dz a in
  let index := unrot_index (2 * dz - 1) (ga_data a) in
  let valid := is_valid (2 * dx - 1) (2 * dz - 1) in
  foldM (fun st (rc : Z * Z) =>
           let (r, c) := rc in
           if eqb ((r + c) mod 2) 0 then place_data index (ga_pt a) r c [] st
           else place_anc unrot_direction valid index unrot_shifts (ga_pt a) (eqb (r mod 2) 0) r c [] st)
        (unrot_pos dx dz) (gst0 a).
(* unrot_surface_code_rectangle, unrot_surface_codes.py:69-237 *)
Definition unrot_surface_code_rectangle (a : gen_args) : res layout :=
  let dx := ga_dx a in
  let dz := ga_dz a in
  do _ <- check_distance dx;
  do _ <- check_distance dz;
  let name := ("Unrotated dx-" ++ label "" dx ++ " dz-" ++ label "" dz ++ " surface code layout.")%string in
  let log_z := map (fun i => label "D" (i + ga_data a)) (range dz) in
  let log_x := map (fun i => label "D" (i * (2 * dz - 1) + ga_data a)) (range dx) in
  do st <- unrot_loop a;
  let infos := map (set_neighbors (gs_nbr st)) (gs_infos st) in
  layout_init (layout_setup a name "unrotated_surface_code" unrot_order log_z log_x infos).
(* unrot_surface_code, unrot_surface_codes.py:240-286 *)
Definition unrot_surface_code (d : Z) (a : gen_args) : res layout :=
  unrot_surface_code_rectangle
    {| ga_dx := d; ga_dz := d; ga_log := ga_log a; ga_pt := ga_pt a; ga_data := ga_data a;
       ga_zanc := ga_zanc a; ga_xanc := ga_xanc a; ga_ind := ga_ind a |}.
