(** Model of surface_sim/layouts/layout.py (class Layout), layouts/operations.py
    and the helpers of detectors/detectors.py that read a Layout.

    The networkx DiGraph is two dictionaries: node -> attributes and
    node -> (neighbour -> direction), both in insertion order.
    Simplifications: labels are str; numbers are exact rationals, indices are
    integers; interaction_order is a dictionary; a Python set is a list whose
    iteration order is a parameter wherever it is observable; comparing two dict
    values is comparing them with their order; YAML is not modelled. *)
From Coq Require Import QArith Qcanon.
From Verif Require Import Base StimM.
Open Scope Z_scope.

(** * Attribute values *)
Inductive pyv := PNone | PBool (b : bool) | PNum (q : Qc) | PStr (s : string)
               | PList (l : list pyv) | PDict (d : list (string * pyv)).

Fixpoint pyv_eqb (x y : pyv) : bool :=
  match x, y with
  | PNone, PNone => true
  | PBool a, PBool b => Bool.eqb a b
  | PNum a, PNum b => eqb a b
  | PStr a, PStr b => eqb a b
  | PList l, PList l' =>
      (fix go l l' := match l, l' with
                      | [], [] => true
                      | a :: r, b :: r' => pyv_eqb a b && go r r'
                      | _, _ => false
                      end) l l'
  | PDict d, PDict d' =>
      (fix go l l' := match l, l' with
                      | [], [] => true
                      | (k, a) :: r, (k', b) :: r' => eqb k k' && pyv_eqb a b && go r r'
                      | _, _ => false
                      end) d d'
  | _, _ => false
  end.

(** * class Layout *)
Notation attrs := (dict string pyv).

(* the dictionary given to Layout(...); [None] is an absent key, layout.py:82-92, 473 *)
Record raw_layout := {
  rl_name : option pyv; rl_code : option string; rl_logs : option (list string);
  rl_distance : option Z; rl_dz : option Z; rl_dx : option Z;
  rl_logz : option (dict string (list string)); rl_logx : option (dict string (list string));
  rl_desc : option pyv; rl_order : option (dict string (list string));
  rl_layout : option (list attrs) }.

(* instance attributes, layout.py:82-101 *)
Record layout := {
  l_name : pyv; l_code : string; l_logs : list string;
  l_distance : Z; l_dz : Z; l_dx : Z;
  l_logz : dict string (list string); l_logx : dict string (list string);
  l_desc : pyv; l_order : dict string (list string);
  l_inds : dict string Z;
  l_nodes : dict string attrs;              (* graph.nodes *)
  l_adj : dict string (dict string string)  (* graph.adj: node -> neighbour -> direction *) }.

Definition odef {A} (a : A) (o : option A) : A := match o with Some x => x | None => a end.

(* first loop of _load_layout, layout.py:479-489: (qubit, ind, attributes).
   A label that is not a str is outside the model. *)
Definition load_node (st : dict string attrs * dict string pyv) (info : attrs)
  : res (dict string attrs * dict string pyv) :=
  let (nodes, inds) := st in
  match dget "qubit" info with
  | None | Some PNone => Err ValueError
  | Some (PStr q) =>
      if dmem q nodes then Err ValueError
      else let info' := ddel "qubit" info in
           Ok (nodes ++ [(q, info')], dset q (odef PNone (dget "ind" info')) inds)
  | Some _ => Err Unmodelled
  end.

(* graph.add_edge(node, nbr, direction=dir) *)
Definition add_edge (a b dir : string) (adj : dict string (dict string string)) : dict string (dict string string) :=
  dset a (dset b dir (odef [] (dget a adj))) adj.
(* the edges of one node, layout.py:498-500; the result tells if the neighbour was unknown *)
Definition load_edge (nodes : dict string attrs) (q : string)
  (st : dict string (dict string string) * bool) (dn : string * pyv)
  : res (dict string (dict string string) * bool) :=
  let (adj, new) := st in
  match snd dn with
  | PNone => Ok (adj, new)
  | PStr nb => Ok (add_edge q nb (fst dn) adj, new || negb (dmem nb nodes))
  | _ => Err Unmodelled
  end.
(* second loop, layout.py:491-500. An edge to an unknown qubit adds a node while
   the nodes are iterated over: RuntimeError at the next iteration. *)
Definition load_edges (nodes : dict string attrs) (adj : dict string (dict string string))
  (qa : string * attrs) : res (dict string (dict string string)) :=
  match dget "neighbors" (snd qa) with
  | None | Some PNone => Err ValueError
  | Some (PDict nd) =>
      do (adj', new) <- foldM (load_edge nodes (fst qa)) nd (adj, false);
      if new : bool then Err RuntimeError else Ok adj'
  | Some _ => Err Unmodelled
  end.

(* an index of the description as an integer *)
Definition as_ind (v : pyv) : res Z :=
  match v with
  | PNum q => if Pos.eqb (Qden (this q)) 1 then Ok (Qnum (this q)) else Err Unmodelled
  | _ => Err Unmodelled
  end.
Definition is_none (v : pyv) : bool := match v with PNone => true | _ => false end.
(* layout.py:502-510 *)
Definition load_inds (inds : dict string pyv) : res (dict string Z) :=
  if forallb (fun kv => is_none (snd kv)) inds
  then Ok (map (fun kq => (snd kq, Z.of_nat (fst kq))) (enumerate (dkeys inds)))
  else if existsb (fun kv => is_none (snd kv)) inds then Err ValueError
  else do zs <- mapM (fun kv => as_ind (snd kv)) inds;
       if nodupb zs then Ok (combine (dkeys inds) zs) else Err ValueError.

(* __init__ and _load_layout, layout.py:54-104, 456-512 *)
Definition layout_init (r : raw_layout) : res layout :=
  let logs := odef [] (rl_logs r) in
  let lz := odef [] (rl_logz r) in
  let lx := odef [] (rl_logx r) in
  if negb (set_eq logs (dkeys lz)) || negb (set_eq logs (dkeys lx)) then Err ValueError
  else
    do infos <- of_opt ValueError (rl_layout r);
    do (nodes, inds0) <- foldM load_node infos ([], []);
    do adj <- foldM (load_edges nodes) nodes (map (fun kv => (fst kv, [])) nodes);
    do inds <- load_inds inds0;
    Ok {| l_name := odef (PStr "") (rl_name r); l_code := odef "" (rl_code r); l_logs := logs;
          l_distance := odef (-1) (rl_distance r); l_dz := odef (-1) (rl_dz r); l_dx := odef (-1) (rl_dx r);
          l_logz := lz; l_logx := lx; l_desc := odef PNone (rl_desc r); l_order := odef [] (rl_order r);
          l_inds := inds; l_nodes := nodes; l_adj := adj |}.

(* the neighbours of a node by direction, layout.py:136-149 *)
Definition diag_dirs : list string := ["north_east"; "north_west"; "south_east"; "south_west"].
Definition nbr_dict (adj : dict string string) : dict string pyv :=
  let d := fold_left (fun acc nd => dset (snd nd) (PStr (fst nd)) acc) adj [] in
  fold_left (fun acc dir => if dmem dir acc then acc else dset dir PNone acc) diag_dirs d.
Definition node_to_dict (l : layout) (qa : string * attrs) : attrs :=
  dset "neighbors" (PDict (nbr_dict (odef [] (dget (fst qa) (l_adj l)))))
       (dset "qubit" (PStr (fst qa)) (snd qa)).
(* to_dict, layout.py:110-154 *)
Definition to_dict (l : layout) : raw_layout :=
  {| rl_name := Some (l_name l); rl_code := Some (l_code l); rl_logs := Some (l_logs l);
     rl_distance := Some (l_distance l); rl_dz := Some (l_dz l); rl_dx := Some (l_dx l);
     rl_logz := Some (l_logz l); rl_logx := Some (l_logx l); rl_desc := Some (l_desc l);
     rl_order := Some (l_order l); rl_layout := Some (map (node_to_dict l) (l_nodes l)) |}.

(* get_inds, layout.py:156-168 *)
Definition lay_inds (l : layout) (qs : list string) : res (list Z) := mapM (fun q => dget_err q (l_inds l)) qs.

(* valid_attrs, layout.py:515-534 *)
Fixpoint valid_attrs (a : attrs) (conds : list (string * pyv)) : res bool :=
  match conds with
  | [] => Ok true
  | (k, v) :: r =>
      do x <- dget_err k a;
      if is_none x || negb (pyv_eqb x v) then Ok false else valid_attrs a r
  end.
(* get_qubits, layout.py:182-209 *)
Definition get_qubits (l : layout) (conds : list (string * pyv)) : res (list string) :=
  match conds with
  | [] => Ok (dkeys (l_nodes l))
  | _ => do bs <- mapM (fun qa => valid_attrs (snd qa) conds) (l_nodes l);
         Ok (map fst (filter snd (combine (dkeys (l_nodes l)) bs)))
  end.
(* get_qubits(role=...) and get_qubits(role="anc", stab_type=...) *)
Definition get_role (l : layout) (r : string) : res (list string) := get_qubits l [("role", PStr r)].
Definition get_stabs (l : layout) (s : string) : res (list string) :=
  get_qubits l [("role", PStr "anc"); ("stab_type", PStr s)].

(* graph.out_edges(qubits): unknown qubits are ignored, duplicates removed *)
Definition out_edges (l : layout) (qs : list string) : list (string * (string * string)) :=
  flat_map (fun q => match dget q (l_adj l) with
                     | Some d => map (fun nd => (q, nd)) d
                     | None => []
                     end) (dedup qs).
(* get_neighbors(..., as_pairs=True), layout.py:215-256; direction=None is [None] *)
Definition get_pairs (l : layout) (qs : list string) (dir : option string) : list (string * string) :=
  map (fun e => (fst e, fst (snd e)))
      (filter (fun e => match dir with None => true | Some d => eqb (snd (snd e)) d end) (out_edges l qs)).
Definition get_neighbors (l : layout) (qs : list string) (dir : option string) : list string :=
  map snd (get_pairs l qs dir).

(* nx.get_node_attributes(graph, "coords") *)
Definition qubit_coords_attr (l : layout) : dict string pyv :=
  flat_map (fun qa => match dget "coords" (snd qa) with Some c => [(fst qa, c)] | None => [] end) (l_nodes l).
(* get_coords, layout.py:258-275 *)
Definition get_coords (l : layout) (qs : list string) : res (list pyv) :=
  let all := qubit_coords_attr l in
  if strict_superset qs (dkeys all) then Err ValueError
  else mapM (fun q => dget_err q all) qs.
(* coordinates as a list of numbers *)
Definition as_num_list (v : pyv) : res (list Qc) :=
  match v with
  | PList l => mapM (fun x => match x with PNum q => Ok q | _ => Err Unmodelled end) l
  | _ => Err Unmodelled
  end.
(* qubit_coords, layout.py:277-279 *)
Definition qubit_coords (l : layout) : res (dict string (list Qc)) :=
  mapM (fun qc => do c <- as_num_list (snd qc); Ok (fst qc, c)) (qubit_coords_attr l).
(* anc_coords, layout.py:281-285 *)
Definition anc_coords (l : layout) : res (dict string pyv) :=
  do a <- get_role l "anc"; do c <- get_coords l a; Ok (combine a c).

(* adjacency_matrix, layout.py:287-309: entry (from, to) *)
Definition adjacent (l : layout) (a b : string) : bool :=
  match dget a (l_adj l) with Some d => dmem b d | None => false end.
(* projection_matrix, layout.py:348-375: rows data qubits, columns ancillas *)
Definition projection_matrix (l : layout) (stab : string) : res (list (string * list (string * bool))) :=
  do anc <- get_stabs l stab;
  do data <- get_role l "data";
  Ok (map (fun d => (d, map (fun a => (a, adjacent l d a)) anc)) data).

(* param, layout.py:421-440 *)
Definition lparam (l : layout) (p q : string) : res pyv :=
  do a <- dget_err q (l_nodes l); Ok (odef PNone (dget p a)).
Definition with_nodes (l : layout) (n : dict string attrs) : layout :=
  {| l_name := l_name l; l_code := l_code l; l_logs := l_logs l; l_distance := l_distance l;
     l_dz := l_dz l; l_dx := l_dx l; l_logz := l_logz l; l_logx := l_logx l; l_desc := l_desc l;
     l_order := l_order l; l_inds := l_inds l; l_nodes := n; l_adj := l_adj l |}.
(* set_param, layout.py:442-454 *)
Definition lset_param (l : layout) (p q : string) (v : pyv) : res layout :=
  do a <- dget_err q (l_nodes l); Ok (with_nodes l (dset q (dset p v a) (l_nodes l))).

(* index_coords, layout.py:537-563; [uniq] is the iteration order of set(coords) *)
Definition index_coords (uniq coords : list Qc) (reverse : bool) : res (list Z * Z) :=
  let n := Z.of_nat (length uniq) in
  let inds := if reverse then rev (range n) else range n in
  do l <- mapM (fun c => dget_err c (combine uniq inds)) coords;
  Ok (l, n).
(* expansion_matrix, layout.py:311-346: the (row, col) of the only True entry of
   each ancilla; [ur], [uc] are the iteration orders of the sets of coordinates *)
Definition expansion_matrix (ur uc : list Qc) (l : layout) : res (dict string (Z * Z)) :=
  do anc <- get_role l "anc";
  do cs <- mapM (fun q => do a <- dget_err q (l_nodes l); do c <- dget_err "coords" a;
                          do x <- as_num_list c;
                          match x with [r; c] => Ok (r, c) | _ => Err Unmodelled end) anc;
  match anc with
  | [] => Err ValueError (* rows, cols = zip() *)
  | _ =>
    do (ri, _) <- index_coords ur (map fst cs) true;
    do (ci, _) <- index_coords uc (map snd cs) false;
    Ok (combine anc (combine ri ci))
  end.

(** * layouts/operations.py *)
Definition disjointb {A} `{Eqb A} (a b : list A) : bool := forallb (fun x => negb (mem x b)) a.
Definition tuple_coords (l : layout) : res (list (list Qc)) :=
  do cs <- get_coords l (dkeys (l_nodes l)); mapM as_num_list cs.
(* check_overlap_layout_pair, operations.py:4-38 *)
Definition check_overlap_pair (a b : layout) : res unit :=
  if negb (disjointb (dkeys (l_nodes a)) (dkeys (l_nodes b))) then Err ValueError
  else
    do ia <- lay_inds a (dkeys (l_nodes a));
    do ib <- lay_inds b (dkeys (l_nodes b));
    if negb (disjointb ia ib) then Err ValueError
    else
      do ca <- tuple_coords a;
      do cb <- tuple_coords b;
      if negb (disjointb ca cb) then Err ValueError
      else if negb (disjointb (l_logs a) (l_logs b)) then Err ValueError
      else Ok tt.
(* check_overlap_layouts, operations.py:41-60 *)
Fixpoint check_overlaps (ls : list layout) : res unit :=
  match ls with
  | [] => Ok tt
  | a :: r => do _ <- mapM (check_overlap_pair a) r; check_overlaps r
  end.

(** * helpers of detectors/detectors.py *)
(* get_support_from_adj_matrix, detectors.py:618-659 *)
Definition support_from_adj (l : layout) (ancs : list string) : res (dict string (list string)) :=
  foldM (fun d a => if dmem a (l_nodes l)
                    then Ok (dset a (filter (adjacent l a) (dkeys (l_nodes l))) d)
                    else Err KeyError) ancs [].
(* new_stab_gen of a log_gate attribute *)
Definition as_str_list (v : pyv) : res (list string) :=
  match v with
  | PList l => mapM (fun x => match x with PStr s => Ok s | _ => Err Unmodelled end) l
  | _ => Err Unmodelled
  end.
Definition pget (k : string) (v : pyv) : res pyv :=
  match v with PDict d => dget_err k d | _ => Err Unmodelled end.
(* get_new_stab_dict_from_layout, detectors.py:573-615 *)
Definition new_stab_dict (l : layout) (gate : string) : res (dict string (list string)) :=
  do ancs <- get_role l "anc";
  foldM (fun d a =>
           do v <- lparam l gate a;
           if is_none v then Err ValueError
           else do n <- pget "new_stab_gen" v; do x <- as_str_list n; Ok (dset a x d)) ancs [].
