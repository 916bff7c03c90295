(** Vocabulary for the properties of Layout (C22-C25, C51, C52): what a layout
    description says, and when two layouts cannot be told apart. *)
From Coq Require Import QArith Qcanon.
From Verif Require Import Base StimM LayoutM.
Open Scope Z_scope.

(** * Descriptions *)
(* the description is made of Python dictionaries: no key occurs twice *)
Definition py_dicts (r : raw_layout) : Prop :=
  forall infos a, rl_layout r = Some infos -> In a infos ->
    NoDup (map fst a) /\
    (forall nd, dget "neighbors" a = Some (PDict nd) -> NoDup (map fst nd)).

(* entry [a] of the description gives label [q] *)
Definition labelled (a : attrs) (q : string) : Prop := dget "qubit" a = Some (PStr q).
(* entry [a] gives no index *)
Definition no_index (a : attrs) : Prop := dget "ind" a = None \/ dget "ind" a = Some PNone.
Definition index_is (a : attrs) (z : Z) : Prop := dget "ind" a = Some (PNum (Q2Qc (inject_Z z))).

(* qubit [q] of the description has neighbour [nb] in direction [d] *)
Definition describes (infos : list attrs) (q d nb : string) : Prop :=
  exists a nd, In a infos /\ labelled a q /\ dget "neighbors" a = Some (PDict nd) /\
               In (d, PStr nb) nd.

(** * Observations *)
Definition no_key (k : string) (conds : list (string * pyv)) : Prop := ~ In k (map fst conds).

(* nothing tells [a] and [b] apart but the attribute "neighbors" *)
Record same_layout (a b : layout) : Prop := {
  sl_name : l_name a = l_name b; sl_code : l_code a = l_code b; sl_logs : l_logs a = l_logs b;
  sl_d : l_distance a = l_distance b; sl_dz : l_dz a = l_dz b; sl_dx : l_dx a = l_dx b;
  sl_logz : l_logz a = l_logz b; sl_logx : l_logx a = l_logx b; sl_desc : l_desc a = l_desc b;
  sl_order : l_order a = l_order b;
  sl_qubits : forall conds, no_key "neighbors" conds -> get_qubits a conds = get_qubits b conds;
  sl_param : forall p q, p <> "neighbors" -> lparam a p q = lparam b p q;
  sl_pairs : forall qs d, get_pairs a qs d = get_pairs b qs d;
  sl_inds : forall qs, lay_inds a qs = lay_inds b qs;
  sl_coords : forall qs, get_coords a qs = get_coords b qs }.

(* set_param calls on attributes that are not structural *)
Inductive edited : layout -> layout -> Prop :=
| ed_refl l : edited l l
| ed_step l p q v l' l'' : p <> "ind" -> p <> "qubit" -> lset_param l p q v = Ok l' ->
    edited l' l'' -> edited l l''.

(** * Overlaps *)
Definition has_coord (l : layout) (q : string) (c : list Qc) : Prop :=
  lparam l "coords" q = Ok (PList (map PNum c)).
Definition all_coords (l : layout) : Prop :=
  forall q, In q (map fst (l_nodes l)) -> exists c, has_coord l q c.
Definition share (a b : layout) : Prop :=
  (exists q, In q (map fst (l_nodes a)) /\ In q (map fst (l_nodes b))) \/
  (exists q q' i, lay_inds a [q] = Ok [i] /\ lay_inds b [q'] = Ok [i]) \/
  (exists q q' c, has_coord a q c /\ has_coord b q' c) \/
  (exists g, In g (l_logs a) /\ In g (l_logs b)).
Definition loaded (l : layout) : Prop := exists r, layout_init r = Ok l.

(* no qubit of the description has the same neighbour in two directions *)
Definition one_direction (infos : list attrs) : Prop :=
  forall q d d' nb, describes infos q d nb -> describes infos q d' nb -> d = d'.

(** * Coordinates *)
(* [uniq] is an order in which the set of [coords] may be iterated over *)
Definition set_order {A} (uniq coords : list A) : Prop :=
  NoDup uniq /\ forall c, In c uniq <-> In c coords.
(* attribute [k] of [q] is [v] *)
Definition attribute (l : layout) (k : string) (v : pyv) (q : string) : Prop :=
  lparam l k q = Ok v /\ v <> PNone.
