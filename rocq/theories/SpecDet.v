(** Vocabulary of the statements about Detectors (C03-C12, C50). *)
From Coq Require Import QArith Qcanon.
From Verif Require Import Base StimM MatM DetM.
Open Scope Z_scope.

(** * Histories of calls *)
Inductive dop :=
| DNew | DAct (l : list string) | DDeact (l : list string)
| DUpd (u : unitary) | DUpdD (nd : dict string (list string))
| DAnc (get_rec : string -> Z -> res target) (reset : bool) (req : option (list string))
| DData (get_rec : string -> Z -> res target) (sup : dict string (list string)) (reset : bool)
        (recon : list string) (req : option (list string)).
Definition quiet (x : ST detectors unit) : ST detectors circuit := sdo _ <- x; sret [].
Definition call (o : dop) : ST detectors circuit :=
  match o with
  | DNew => quiet (fun d => (det_new d, Ok tt))
  | DAct l => quiet (activate l) | DDeact l => quiet (deactivate l)
  | DUpd u => quiet (update u) | DUpdD nd => quiet (update_from_dict nd)
  | DAnc g r q => build_from_anc g r q
  | DData g s r rc q => build_from_data g s r rc q
  end.
(* successful calls and the circuits they return *)
Inductive dhist : detectors -> list dop -> detectors -> list circuit -> Prop :=
| dhist_nil d : dhist d [] d []
| dhist_cons d o d1 c l d2 cs :
    call o d = (d1, Ok c) -> dhist d1 l d2 cs -> dhist d (o :: l) d2 (c :: cs).
(* any calls, also the ones that raise *)
Inductive dreach : detectors -> list dop -> detectors -> Prop :=
| dreach_nil d : dreach d [] d
| dreach_cons d o d1 r l d2 : call o d = (d1, r) -> dreach d1 l d2 -> dreach d (o :: l) d2.

Definition is_new (o : dop) : bool := match o with DNew => true | _ => false end.
Definition is_anc (o : dop) : bool := match o with DAnc _ _ _ => true | _ => false end.
Definition acts (a : string) (o : dop) : bool := match o with DAct l => mem a l | _ => false end.
Definition deacts (a : string) (o : dop) : bool := match o with DDeact l => mem a l | _ => false end.
Definition is_deact (o : dop) : bool := match o with DDeact _ => true | _ => false end.
Definition is_update (o : dop) : bool := match o with DUpd _ | DUpdD _ => true | _ => false end.
(* gates and activations: what happens between two rounds *)
Definition gap_op (o : dop) : bool := match o with DUpd _ | DUpdD _ | DAct _ => true | _ => false end.
Definition n_rounds (l : list dop) : Z := Z.of_nat (length (filter is_anc l)).
(* h1 is everything up to the last new_circuit *)
Definition up_to_new (h1 : list dop) : Prop := h1 = [] \/ exists h, h1 = h ++ [DNew].
Definition none (p : dop -> bool) (l : list dop) : Prop := existsb p l = false.
Definition wanted (req : option (list string)) (a : string) : Prop :=
  match req with None => True | Some l => In a l end.
(* a DETECTOR of ancilla a with time coordinate t *)
Definition det_of (d : detectors) (a : string) (t : Qc) (i : instr) : Prop :=
  exists xs, dget a (dcoords d) = Some xs /\ nm i = DETECTOR /\ ar i = map ANum (xs ++ [t]).

(** * Parity of the outcomes listed in an instruction *)
Definition parity (outcome : target -> bool) (i : instr) : bool := xorl (map outcome (tg i)).

(** * What a gate does to the stabilizer values *)
Definition entry (u : unitary) (a o : string) : bool :=
  match index a (u_new u), index o (u_old u) with
  | Some i, Some j => nth j (nth i (u_mat u) []) false
  | _, _ => false
  end.
(* value of the stabilizer measured at a after the gate *)
Definition gate_map (o : dop) (v : string -> bool) : string -> bool :=
  match o with
  | DUpd u => fun a => xorl (map (fun b => entry u a b && v b) (u_old u))
  | DUpdD nd => fun a => match dget a nd with
                         | Some l => xorl (map v (nodup string_dec l))
                         | None => v a
                         end
  | _ => v
  end.
Definition gap_map (gap : list dop) (v : string -> bool) : string -> bool :=
  fold_left (fun v o => gate_map o v) gap v.
Definition involution (ls : list string) (f : (string -> bool) -> string -> bool) : Prop :=
  forall v a, In a ls -> f (f v) a = v a.

(** * Noiseless outcomes *)
(* [o a (-j)] is the j-th last outcome of ancilla a, [v1]/[v2] are the stabilizer
   values in this round and in the previous one, n is the number of rounds since the
   ancillas were activated. Without reset an outcome is the value XOR the previous
   outcome. *)
Definition noiseless (reset : bool) (n : Z) (ls : list string) (o : string -> Z -> bool)
           (v1 v2 : string -> bool) : Prop :=
  forall a, In a ls ->
    if reset
    then o a (-1) = v1 a /\ (2 <= n -> o a (-2) = v2 a)
    else o a (-1) = xorb (v1 a) (if 2 <=? n then o a (-2) else false) /\
         (2 <= n -> o a (-2) = xorb (v2 a) (if 3 <=? n then o a (-3) else false)).
(* the same seen from a logical measurement: the last outcome of an ancilla is
   that of the previous round *)
Definition noiseless_prev (reset : bool) (n : Z) (ls : list string) (o : string -> Z -> bool)
           (v2 : string -> bool) : Prop :=
  forall a, In a ls -> 1 <= n ->
    o a (-1) = xorb (v2 a) (if negb reset && (2 <=? n) then o a (-2) else false).
(* outcomes of the records returned by get_rec *)
Definition reads (g : string -> Z -> res target) (outcome : target -> bool) (o : string -> Z -> bool) : Prop :=
  forall q k t, g q k = Ok t -> outcome t = o q k.

(** * Generator matrices *)
Definition gen_entry (g : gen) (a : string) (j : nat) : bool :=
  match dget a g with Some r => nth j r false | None => false end.
(* no non-zero vector of the basis is killed by all the generators *)
Definition invertible (ls : list string) (g : gen) : Prop :=
  forall w : nat -> bool,
    (forall a, In a ls -> xorl (map (fun j => gen_entry g a j && w j) (seq 0 (length ls))) = false) ->
    forall j, (j < length ls)%nat -> w j = false.
Definition qsum (l : list Qc) : Qc := fold_right Qcplus (Q2Qc 0) l.
(* g = N b over the rationals *)
Definition change_of_basis (ls : list string) (b g : gen) (N : string -> string -> Qc) : Prop :=
  forall a j, In a ls -> (j < length ls)%nat ->
    qsum (map (fun k => N a k * q_of_bool (gen_entry b k j))%Qc ls) = q_of_bool (gen_entry g a j).
Definition no_even (ls : list string) (N : string -> string -> Qc) : Prop :=
  forall a k, In a ls -> In k ls -> N a k = Q2Qc 0 \/ Z.odd (Qnum (this (N a k))) = true.
(* the change of basis done by the detectors, from the basis of the frame *)
Definition frame_gens (d : detectors) : gen * gen :=
  match dfr d with
  | PreGate => (prev_gen d, curr_gen d)
  | _ => (curr_gen d, prev_gen d)
  end.
Definition clean (d : detectors) : Prop := exists N,
  change_of_basis (labels d) (fst (frame_gens d)) (snd (frame_gens d)) N /\ no_even (labels d) N.

(** * States *)
Record wf_det (d : detectors) : Prop := {
  wf_nodup : NoDup (labels d);
  wf_curr : Permutation (dkeys (curr_gen d)) (labels d);
  wf_prev : Permutation (dkeys (prev_gen d)) (labels d);
  wf_crow : forall a r, dget a (curr_gen d) = Some r -> length r = length (labels d);
  wf_prow : forall a r, dget a (prev_gen d) = Some r -> length r = length (labels d);
  wf_active : dkeys (active d) = labels d;
  wf_rounds : dkeys (num_rounds d) = labels d }.
(* the same for the detectors of a logical measurement, built in the current basis
   in both gate-dependent frames *)
Definition clean_data (d : detectors) : Prop := exists N,
  change_of_basis (labels d) (curr_gen d) (prev_gen d) N /\ no_even (labels d) N.
(* the generators of the ancillas in D only involve the basis elements of D *)
Definition closed_set (ls D : list string) (g : gen) : Prop :=
  forall a j x, In a D -> nth_error ls j = Some x -> gen_entry g a j = true -> In x D.
(* the data outcomes reconstruct the stabilizer values *)
Definition reconstructs (sup : dict string (list string)) (o : string -> Z -> bool) (recon : list string) (v1 : string -> bool) : Prop :=
  forall a qs, In a recon -> dget a sup = Some qs -> xorl (map (fun q => o q (-1)) qs) = v1 a.
(* g = M b over GF(2) *)
Definition change_of_basis2 (ls : list string) (b g : gen) (M : string -> string -> bool) : Prop :=
  forall a j, In a ls -> xorl (map (fun k => M a k && gen_entry b k j) ls) = gen_entry g a j.
(* the outcomes a detector of ancilla a should list, as a parity *)
Definition expected (f : dframe) (M : string -> string -> bool) (ls : list string) (reset : bool) (n : Z)
           (o : string -> Z -> bool) (a : string) : bool :=
  let mixed z := xorl (map (fun k => M a k && o k z) ls) in
  let near z := match f with PreGate => mixed z | _ => o a z end in
  let far z := match f with PreGate => o a z | _ => mixed z end in
  xorl [near (-1); (2 <=? n) && far (-2);
        negb reset && (2 <=? n) && near (-2); negb reset && (3 <=? n) && far (-3)].
Definition is_build (o : dop) : bool := match o with DAnc _ _ _ | DData _ _ _ _ _ => true | _ => false end.
(* gates whose stabilizer maps only mix an ancilla with its partner, as between two
   patches of the same layout *)
Definition pairing (ls : list string) (p : string -> string) : Prop :=
  forall a, In a ls -> In (p a) ls /\ p (p a) = a.
Definition pair_gate (p : string -> string) (o : dop) : Prop :=
  match o with
  | DUpd u => forall a x, entry u a x = true -> x = a \/ x = p a
  | DUpdD nd => forall a l x, In (a, l) nd -> In x l -> x = a \/ x = p a
  | _ => True
  end.
(* states the object can be in *)
Definition reachable (d : detectors) : Prop :=
  exists ls f cs d0 h, det_init ls f cs = Ok d0 /\ dreach d0 h d.
Definition touches (a : string) (o : dop) : bool := is_new o || acts a o || deacts a o.
Definition dict_known (ls : list string) (nd : dict string (list string)) : Prop :=
  forall a l, In (a, l) nd -> In a ls /\ incl l ls.
(* some non-zero assignment of stabilizer values is sent to zero *)
Definition singular_map (ls : list string) (o : dop) : Prop :=
  exists v a, In a ls /\ v a = true /\ forall b, In b ls -> gate_map o v b = false.
Definition both_invertible (d : detectors) : Prop :=
  invertible (labels d) (curr_gen d) /\ invertible (labels d) (prev_gen d).
(* a deactivation that does not cut generators *)
Definition tidy (d : detectors) (o : dop) : Prop :=
  match o with
  | DDeact l => closed_set (labels d) l (curr_gen d) /\ closed_set (labels d) l (prev_gen d)
  | _ => True
  end.
(* get_rec never fails with LinAlgError *)
Definition rec_nolin (o : dop) : Prop :=
  match o with
  | DAnc g _ _ | DData g _ _ _ _ => forall q k, g q k <> Err LinAlgError
  | _ => True
  end.
(* activations and deactivations *)
Definition switch_op (o : dop) : bool := match o with DAct _ | DDeact _ => true | _ => false end.
