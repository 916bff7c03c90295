(** Properties of the layout generators: rot_surface_code_rectangle and
    unrot_surface_code_rectangle (C26-C33). Vocabulary in SpecGen. *)
From Coq Require Import QArith Qcanon.
From Verif Require Import Base Lib StimM LayoutM SpecLayout GenM SpecGen GenP GeomP RotP RotP2 UnrotP.
Open Scope Z_scope.

(** C26 The rotated layout has dx*dz data qubits and one ancilla less, distinct
    labels, and the indices init_ind, init_ind + 1, ... in the order of the labels. *)
Theorem C26_rot_counts a : 1 <= ga_dx a -> 1 <= ga_dz a -> exists l data ancs,
  rot_surface_code_rectangle a = Ok l /\ get_role l "data" = Ok data /\ get_role l "anc" = Ok ancs /\
  Z.of_nat (length data) = ga_dx a * ga_dz a /\ Z.of_nat (length ancs) = ga_dx a * ga_dz a - 1 /\
  NoDup (map fst (l_nodes l)) /\
  lay_inds l (map fst (l_nodes l)) = Ok (map (fun k => ga_ind a + k) (range (2 * ga_dx a * ga_dz a - 1))).
Proof. exact (rot_count_lemma a). Qed.
Print Assumptions C26_rot_counts.
Definition args (dx dz : Z) : gen_args :=
  {| ga_dx := dx; ga_dz := dz; ga_log := "L0"; ga_pt := (coord 1, coord 1); ga_data := 1; ga_zanc := 1; ga_xanc := 1; ga_ind := 7 |}.
Definition rot32 : layout := match rot_surface_code_rectangle (args 3 2) with Ok l => l | Err _ => Build_layout (PStr "") "" [] 0 0 0 [] [] PNone [] [] [] [] end.
Example C26_case : 1 <= ga_dx (args 3 2) /\ 1 <= ga_dz (args 3 2) /\
  get_role rot32 "data" = Ok ["D1"; "D2"; "D3"; "D4"; "D5"; "D6"] /\
  get_role rot32 "anc" = Ok ["X1"; "X2"; "Z1"; "Z2"; "Z3"] /\
  lay_inds rot32 (map fst (l_nodes rot32)) = Ok [7; 8; 9; 10; 11; 12; 13; 14; 15; 16; 17].
Proof. vm_compute. repeat split; discriminate. Qed.

(** C27 In the rotated layout the supports of the stabilizers are sets of 2 or 4 data
    qubits, and X-type and Z-type stabilizers share an even number of them. *)
Theorem C27_rot_stabilizers a : 1 <= ga_dx a -> 1 <= ga_dz a -> exists l data xs zs,
  rot_surface_code_rectangle a = Ok l /\ get_role l "data" = Ok data /\
  get_stabs l "x_type" = Ok xs /\ get_stabs l "z_type" = Ok zs /\
  (forall x z, In x xs -> In z zs -> commutes (on (support l z)) (support l x)) /\
  (forall s, In s xs \/ In s zs -> NoDup (support l s) /\ incl (support l s) data /\
             (length (support l s) = 2%nat \/ length (support l s) = 4%nat)).
Proof.
  intros Hx Hz. destruct (rot_code a Hx Hz) as (l & data & xs & zs & lx & lz & E & C & _ & _ & W & _).
  exists l, data, xs, zs. split; [exact E|]. destruct C. do 4 (split; [assumption|]). intros s Hs.
  destruct (cc_sup s Hs). auto.
Qed.
Print Assumptions C27_rot_stabilizers.
Example C27_case : get_stabs rot32 "x_type" = Ok ["X1"; "X2"] /\ get_stabs rot32 "z_type" = Ok ["Z1"; "Z2"; "Z3"] /\
  map (support rot32) ["X1"; "Z1"; "Z2"] = [["D2"; "D1"]; ["D4"; "D3"; "D2"; "D1"]; ["D5"; "D3"]].
Proof. vm_compute. auto. Qed.

(** C28 In the rotated layout log_z shares an even number of qubits with every X-type
    stabilizer and log_x with every Z-type one; they are sets of dz and dx data qubits
    that share exactly one qubit. *)
Theorem C28_rot_logicals a : 1 <= ga_dx a -> 1 <= ga_dz a -> exists l data xs zs lx lz,
  rot_surface_code_rectangle a = Ok l /\ css_code l (ga_log a) data xs zs lx lz /\
  length lx = Z.to_nat (ga_dx a) /\ length lz = Z.to_nat (ga_dz a) /\
  exists q, filter (on lx) lz = [q].
Proof.
  intros Hx Hz. destruct (rot_code a Hx Hz) as (l & data & xs & zs & lx & lz & E & C & _ & S & _ & L1 & L2).
  exists l, data, xs, zs, lx, lz. auto.
Qed.
Print Assumptions C28_rot_logicals.
Example C28_case : dget "L0" (l_logx rot32) = Some ["D1"; "D3"; "D5"] /\ dget "L0" (l_logz rot32) = Some ["D1"; "D2"].
Proof. vm_compute. auto. Qed.

(** C29 In the rotated layout every X-type (Z-type) operator that commutes with the
    stabilizers of the other type and anticommutes with log_z (log_x) has weight at
    least dx (dz), and log_x (log_z) attains the bound. *)
Theorem C29_rot_distances a : 1 <= ga_dx a -> 1 <= ga_dz a -> exists l data xs zs lx lz,
  rot_surface_code_rectangle a = Ok l /\ css_code l (ga_log a) data xs zs lx lz /\
  has_distances l data xs zs lx lz (Z.to_nat (ga_dx a)) (Z.to_nat (ga_dz a)).
Proof.
  intros Hx Hz. destruct (rot_code a Hx Hz) as (l & data & xs & zs & lx & lz & E & C & D & _).
  exists l, data, xs, zs, lx, lz. auto.
Qed.
Print Assumptions C29_rot_distances.
(* a product of stabilizers, and a logical operator that is not log_x *)
Example C29_case : let op := on ["D1"; "D4"; "D5"; "D6"; "D2"; "D3"; "D7"] in let op' := on ["D2"; "D4"; "D6"] in
  (forall z, In z ["Z1"; "Z2"; "Z3"] -> commutes op (support rot32 z)) /\ commutes op ["D1"; "D2"] /\
  (forall z, In z ["Z1"; "Z2"; "Z3"] -> commutes op' (support rot32 z)) /\ ~ commutes op' ["D1"; "D2"] /\
  weight op' ["D1"; "D2"; "D3"; "D4"; "D5"; "D6"] = 3%nat.
Proof.
  split; [intros z [<-|[<-|[<-|[]]]]; reflexivity|]. split; [reflexivity|].
  split; [intros z [<-|[<-|[<-|[]]]]; reflexivity|]. split; [discriminate|reflexivity].
Qed.

(** C30 Counts, labels and indices of the unrotated layout. *)
Theorem C30_unrot_counts a : 1 <= ga_dx a -> 1 <= ga_dz a ->
  let n := ga_dx a * ga_dz a + (ga_dx a - 1) * (ga_dz a - 1) in exists l data ancs,
  unrot_surface_code_rectangle a = Ok l /\ get_role l "data" = Ok data /\ get_role l "anc" = Ok ancs /\
  Z.of_nat (length data) = n /\ Z.of_nat (length ancs) = n - 1 /\
  NoDup (map fst (l_nodes l)) /\
  lay_inds l (map fst (l_nodes l)) = Ok (map (fun k => ga_ind a + k) (range (2 * n - 1))).
Proof. exact (unrot_count_lemma a). Qed.
Print Assumptions C30_unrot_counts.
Definition unrot32 : layout := match unrot_surface_code_rectangle (args 3 2) with Ok l => l | Err _ => Build_layout (PStr "") "" [] 0 0 0 [] [] PNone [] [] [] [] end.
Example C30_case : get_role unrot32 "data" = Ok ["D1"; "D2"; "D3"; "D4"; "D5"; "D6"; "D7"; "D8"] /\
  get_role unrot32 "anc" = Ok ["X1"; "Z1"; "Z2"; "X2"; "Z3"; "Z4"; "X3"] /\
  map fst (l_nodes unrot32) = ["D1"; "X1"; "D2"; "Z1"; "D3"; "Z2"; "D4"; "X2"; "D5"; "Z3"; "D6"; "Z4"; "D7"; "X3"; "D8"].
Proof. vm_compute. auto. Qed.

(** C31 The unrotated layout is a CSS code with one logical qubit; log_x and log_z have
    weights dx and dz and share one qubit. *)
Theorem C31_unrot_code a : 1 <= ga_dx a -> 1 <= ga_dz a -> exists l data xs zs lx lz,
  unrot_surface_code_rectangle a = Ok l /\ css_code l (ga_log a) data xs zs lx lz /\
  length lx = Z.to_nat (ga_dx a) /\ length lz = Z.to_nat (ga_dz a) /\
  exists q, filter (on lx) lz = [q].
Proof.
  intros Hx Hz. destruct (unrot_code a Hx Hz) as (l & data & xs & zs & lx & lz & E & C & _ & S & L1 & L2).
  exists l, data, xs, zs, lx, lz. auto.
Qed.
Print Assumptions C31_unrot_code.
Example C31_case : map (support unrot32) ["X1"; "X2"; "Z1"] = [["D2"; "D1"; "D3"]; ["D5"; "D4"; "D6"; "D3"]; ["D3"; "D4"; "D1"]] /\
  dget "L0" (l_logx unrot32) = Some ["D1"; "D4"; "D7"] /\ dget "L0" (l_logz unrot32) = Some ["D1"; "D2"].
Proof. vm_compute. auto. Qed.

(** C32 Distances of the unrotated layout. *)
Theorem C32_unrot_distances a : 1 <= ga_dx a -> 1 <= ga_dz a -> exists l data xs zs lx lz,
  unrot_surface_code_rectangle a = Ok l /\ css_code l (ga_log a) data xs zs lx lz /\
  has_distances l data xs zs lx lz (Z.to_nat (ga_dx a)) (Z.to_nat (ga_dz a)).
Proof.
  intros Hx Hz. destruct (unrot_code a Hx Hz) as (l & data & xs & zs & lx & lz & E & C & D & _).
  exists l, data, xs, zs, lx, lz. auto.
Qed.
Print Assumptions C32_unrot_distances.
Example C32_case : let op := on ["D2"; "D5"; "D8"] in
  (forall z, In z ["Z1"; "Z2"; "Z3"; "Z4"] -> commutes op (support unrot32 z)) /\ ~ commutes op ["D1"; "D2"] /\
  weight op ["D1"; "D2"; "D3"; "D4"; "D5"; "D6"; "D7"; "D8"] = 3%nat.
Proof. split; [intros z [<-|[<-|[<-|[<-|[]]]]]; reflexivity|]. split; [discriminate|reflexivity]. Qed.

(** C33 In a generated layout [v] is a neighbour of [u] in direction [d] exactly when it
    is at the displacement of [d]; then [u] is the neighbour of [v] in the opposite
    direction; and one of the two is a data qubit, the other an ancilla. *)
Theorem C33_rot_neighbours a l : rot_surface_code_rectangle a = Ok l ->
  forall u v d,
  (In v (get_neighbors l [u] (Some d)) <-> exists s, In (d, s) diagonal /\ displaced l u v s) /\
  (forall d', opposite diagonal d d' -> In v (get_neighbors l [u] (Some d)) <-> In u (get_neighbors l [v] (Some d'))) /\
  (forall data ancs, get_role l "data" = Ok data -> get_role l "anc" = Ok ancs -> In v (get_neighbors l [u] (Some d)) ->
     In u data /\ In v ancs \/ In u ancs /\ In v data).
Proof. exact (rot_neighbours a l). Qed.
Print Assumptions C33_rot_neighbours.
Theorem C33_unrot_neighbours a l : unrot_surface_code_rectangle a = Ok l ->
  forall u v d,
  (In v (get_neighbors l [u] (Some d)) <-> exists s, In (d, s) lattice /\ displaced l u v s) /\
  (forall d', opposite lattice d d' -> In v (get_neighbors l [u] (Some d)) <-> In u (get_neighbors l [v] (Some d'))) /\
  (forall data ancs, get_role l "data" = Ok data -> get_role l "anc" = Ok ancs -> In v (get_neighbors l [u] (Some d)) ->
     In u data /\ In v ancs \/ In u ancs /\ In v data).
Proof. exact (unrot_neighbours a l). Qed.
Print Assumptions C33_unrot_neighbours.
Example C33_case : rot_surface_code_rectangle (args 3 2) = Ok rot32 /\ unrot_surface_code_rectangle (args 3 2) = Ok unrot32 /\
  get_neighbors rot32 ["X2"] (Some "north_east") = ["D6"] /\ get_neighbors rot32 ["D6"] (Some "south_west") = ["X2"] /\
  opposite diagonal "north_east" "south_west" /\
  get_neighbors unrot32 ["X1"] (Some "north") = ["D2"] /\ get_neighbors unrot32 ["D2"] (Some "south") = ["X1"].
Proof.
  split; [vm_compute; reflexivity|]. split; [vm_compute; reflexivity|]. split; [reflexivity|]. split; [reflexivity|].
  split; [exists 1, 1; split; simpl; auto 10|]. split; vm_compute; reflexivity.
Qed.
