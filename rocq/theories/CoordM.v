(** Model of surface_sim/layouts/util.py: set_coords and index_chain.

    Coordinates are integers. A deque used with appendleft and pop is a queue: the list
    starts with the next element. A while loop gets [fuel]; [Unmodelled] means that it
    was not enough. *)
From Coq Require Import QArith Qcanon.
From Verif Require Import Base StimM LayoutM.
Open Scope Z_scope.

(** * set_coords *)
(* str.split of the text at underscores *)
Fixpoint split_ (s : string) : list string :=
  match s with
  | EmptyString => [""]
  | String c r =>
      if Ascii.eqb c (Ascii.ascii_of_nat 95) (* _ *) then "" :: split_ r
      else match split_ r with w :: ws => String c w :: ws | [] => [String c ""] end
  end.
(* get_shift, util.py:23-26 *)
Definition get_shift (d : string) : Z := if mem d ["south"; "west"] then -1 else 1.
(* nbr_coords, util.py:46-48; zip stops with the shorter list *)
Definition shifted (coords : list Z) (dir : string) : list Z :=
  map (fun cs => fst cs + snd cs) (combine coords (map get_shift (split_ dir))).
(* graph.edges(node, data="direction"): the neighbours and their directions *)
Definition row_of (l : layout) (q : string) : dict string string := odef [] (dget q (l_adj l)).
Definition int_list (c : list Z) : pyv := PList (map (fun z => PNum (Q2Qc (inject_Z z))) c).
(* the loop, util.py:37-49 *)
Fixpoint coords_loop (fuel : nat) (l : layout) (done : list string) (queue : list (string * list Z)) : res layout :=
  match queue with
  | [] => Ok l
  | (q, c) :: rest =>
      match fuel with
      | O => Err Unmodelled
      | S n =>
          do l' <- lset_param l "coords" q (int_list c);
          let done := q :: done in
          coords_loop n l' done
            (rest ++ map (fun nd => (fst nd, shifted c (snd nd))) (filter (fun nd => negb (mem (fst nd) done)) (row_of l q)))
      end
  end.
(* set_coords, util.py:11-49; nodes.pop() is the last node *)
Definition set_coords (fuel : nat) (l : layout) (override : bool) : res layout :=
  if negb override && negb (Nat.eqb (length (qubit_coords_attr l)) 0) then Err ValueError
  else match rev (dkeys (l_nodes l)) with
       | [] => Err IndexError
       | q :: _ => coords_loop fuel l [] [(q, [0; 0])]
       end.

(** * index_chain *)
(* layout.graph.nodes[node]["chain_ind"] = v *)
Definition set_chain (l : layout) (q : string) (v : pyv) : res layout := lset_param l "chain_ind" q v.
Definition int_val (z : Z) : pyv := PNum (Q2Qc (inject_Z z)).
(* the loop, util.py:80-100: the indexed layout and the nodes that were reached. The
   changes made before an exception are not modelled. *)
Fixpoint chain_loop (fuel : nat) (l : layout) (done queue : list string) (ind : Z) : res (layout * list string) :=
  match queue with
  | [] => Ok (l, done)
  | q :: rest =>
      match fuel with
      | O => Err Unmodelled
      | S n =>
          do l' <- set_chain l q (int_val ind);
          let done := q :: done in
          let nbrs := dkeys (row_of l q) in
          if Nat.ltb 2 (length nbrs) then Err ValueError
          else if Nat.eqb (length nbrs) 0 then Err ValueError
          else chain_loop n l' done (rest ++ filter (fun b => negb (mem b done)) nbrs) (ind + 1)
      end
  end.
(* index_chain, util.py:52-104 *)
Definition index_chain (fuel : nat) (l : layout) (init : string) : res layout :=
  let nodes := dkeys (l_nodes l) in
  if negb (mem init nodes) then Err ValueError
  else do (l', done) <- chain_loop fuel l [] [init] 0;
       foldM (fun l q => if mem q done then Ok l else set_chain l q PNone) nodes l'.
