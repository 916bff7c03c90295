(** Properties of the memory experiments (C38-C40, C60). Vocabulary in SpecExp. [ordt t] is the
    order in which Python sets are iterated in the t-th block: any permutation. [memory]
    is memory_experiment of the five modules named by [memory_kind], [memory_google] the
    one of rot_surface_code_xzzx_google. *)
From Coq Require Import QArith Qcanon.
From Verif Require Import SpecLayout LayoutP RotP Base StimM SetupM NoiseM SpecNoise LayoutM GenM DetM BlockM ExpM SpecGen SpecTrack SpecExp
  ExpP6 ExpP7 ExpP9 ExpP10 ExpP11 ExpP12 Props_Noise Props_Gen Props_Round.
Open Scope Z_scope.

(* cases used below *)
Definition ex_ordt (t : nat) := ex_ord.
Lemma ex_ordt_perm t n s : Permutation (ex_ordt t n s) s.
Proof. apply ex_ord_perm. Qed.
Definition ex_run (k : memory_kind) (l : layout) (R : Z) (rot reset : bool) : res circuit :=
  snd (memory ex_ordt k l R [("D1", 1)] rot reset None false (world_of l)).
Definition ex_circuit (k : memory_kind) (l : layout) (R : Z) (rot reset : bool) : circuit :=
  match ex_run k l R rot reset with Ok c => c | Err _ => [] end.
Definition ex_google (l : layout) (R : Z) (rot : bool) : res circuit :=
  snd (memory_google ex_ordt l R [("D1", 1)] rot None false (world_of l)).

(** C38 The measurements are every ancilla once per round in the order of the layout and
    then every data qubit; so the arrays of sample_memory_experiment have the outcomes at
    the right places. *)
Definition right_split {A} (l : layout) (R : Z) (qi : dict string Z) (ts : list target) (outcomes : list A) : Prop :=
  exists anc data a d, get_role l "anc" = Ok anc /\ get_role l "data" = Ok data /\
    split_outcomes l (Z.to_nat R) outcomes = Ok (a, d) /\
    map (map fst) a = repeat anc (Z.to_nat R) /\ map fst d = data /\
    (* entry (r, q) is the outcome number r of the qubit q *)
    (forall r row q v, nth_error a r = Some row -> In (q, v) row -> exists k i, dget q qi = Some i /\
      nth_error outcomes k = Some v /\ nth_error ts k = Some (TQ i) /\ count (TQ i) (firstn k ts) = r) /\
    (* entry q of the data qubits is the outcome of q after the rounds *)
    (forall q v, In (q, v) d -> exists k i, dget q qi = Some i /\
      nth_error outcomes k = Some v /\ nth_error ts k = Some (TQ i) /\ (Z.to_nat R * length anc <= k)%nat).
Theorem C38_measurements ordt k l R di rot reset dets gauge w w' c :
  wf_inds (inds (fst w)) -> NoDup (labels (snd w)) -> memory ordt k l R di rot reset dets gauge w = (w', Ok c) ->
  exists anc data, get_role l "anc" = Ok anc /\ get_role l "data" = Ok data /\ NoDup anc /\
    at_inds (inds (fst w)) (times (Z.to_nat R) anc ++ data) (measured c).
Proof. exact (C38_lemma ordt k l R di rot reset dets gauge w w' c). Qed.
Print Assumptions C38_measurements.
Theorem C38_google ordt l R di rot dets gauge w w' c :
  wf_inds (inds (fst w)) -> NoDup (labels (snd w)) -> memory_google ordt l R di rot dets gauge w = (w', Ok c) ->
  exists anc data, get_role l "anc" = Ok anc /\ get_role l "data" = Ok data /\ NoDup anc /\
    at_inds (inds (fst w)) (times (Z.to_nat R) anc ++ data) (measured c).
Proof. exact (C38_google_lemma ordt l R di rot dets gauge w w' c). Qed.
Print Assumptions C38_google.
Theorem C38_split ordt k l R di rot reset dets gauge w w' c A (outcomes : list A) :
  wf_inds (inds (fst w)) -> NoDup (labels (snd w)) -> memory ordt k l R di rot reset dets gauge w = (w', Ok c) ->
  length outcomes = length (measured c) -> right_split l R (inds (fst w)) (measured c) outcomes.
Proof.
  intros W N E Len. destruct (C38_lemma ordt k l R di rot reset dets gauge w w' c W N E) as (anc & data & Ea & Ed & Na & H).
  destruct (split_lemma _ l _ anc data _ outcomes W Na Ea Ed H Len) as (a & d & K). exists anc, data, a, d. repeat (split; [assumption|]). exact K.
Qed.
Print Assumptions C38_split.
Theorem C38_split_google ordt l R di rot dets gauge w w' c A (outcomes : list A) :
  wf_inds (inds (fst w)) -> NoDup (labels (snd w)) -> memory_google ordt l R di rot dets gauge w = (w', Ok c) ->
  length outcomes = length (measured c) -> right_split l R (inds (fst w)) (measured c) outcomes.
Proof.
  intros W N E Len. destruct (C38_google_lemma ordt l R di rot dets gauge w w' c W N E) as (anc & data & Ea & Ed & Na & H).
  destruct (split_lemma _ l _ anc data _ outcomes W Na Ea Ed H Len) as (a & d & K). exists anc, data, a, d. repeat (split; [assumption|]). exact K.
Qed.
Print Assumptions C38_split_google.
Ltac nodup := vm_compute; repeat split; repeat constructor; simpl; intuition discriminate.
Example C38_case : wf_inds (inds (fst (world_of rot32))) /\ NoDup (labels (snd (world_of rot32))) /\
  (exists c, ex_run RotCss rot32 2 true false = Ok c /\ length (measured c) = 16%nat) /\
  (exists c, ex_run Xzzx rot32 2 true false = Ok c /\ length (measured c) = 16%nat) /\
  (exists c, ex_google rot32 2 true = Ok c /\ length (measured c) = 16%nat).
Proof.
  split; [nodup|]. split; [nodup|].
  split; [|split]; eexists; (split; [vm_compute; reflexivity|vm_compute; reflexivity]).
Qed.

(** C39 R detectors per ancilla and one for every stabilizer of the measured type; one
    observable. *)
Theorem C39_counts ordt k l R di rot reset dets gauge w w' c anc :
  wf_inds (inds (fst w)) -> NoDup (labels (snd w)) ->
  get_role l "anc" = Ok anc -> Permutation (labels (snd w)) anc ->
  memory ordt k l R di rot reset dets gauge w = (w', Ok c) ->
  exists stabs, get_stabs l (if rot then "x_type" else "z_type") = Ok stabs /\
    number DETECTOR c = (Z.to_nat R * length anc + length stabs)%nat /\ number OBSERVABLE_INCLUDE c = 1%nat.
Proof. exact (C39_lemma ordt k l R di rot reset dets gauge w w' c anc). Qed.
Print Assumptions C39_counts.
Theorem C39_google ordt l R di rot dets gauge w w' c anc :
  wf_inds (inds (fst w)) -> NoDup (labels (snd w)) ->
  get_role l "anc" = Ok anc -> Permutation (labels (snd w)) anc ->
  memory_google ordt l R di rot dets gauge w = (w', Ok c) ->
  exists stabs, get_stabs l (if rot then "x_type" else "z_type") = Ok stabs /\
    number DETECTOR c = (Z.to_nat R * length anc + length stabs)%nat /\ number OBSERVABLE_INCLUDE c = 1%nat.
Proof. exact (C39_google_lemma ordt l R di rot dets gauge w w' c anc). Qed.
Print Assumptions C39_google.
Example C39_case : get_role rot32 "anc" = Ok (labels (snd (world_of rot32))) /\
  (exists c, ex_run CssPipelined rot32 2 true false = Ok c /\ number DETECTOR c = 12%nat) /\
  (exists c, ex_google rot32 2 true = Ok c /\ number DETECTOR c = 12%nat).
Proof. split; [vm_compute; reflexivity|]. split; eexists; (split; [vm_compute; reflexivity|vm_compute; reflexivity]). Qed.

(** C40 Without gauge detectors every detector and the observable is deterministic. *)
Theorem C40_rot_css_partial ordt a l R di rot reset dets w w' c : (forall t n s, Permutation (ordt t n s) s) ->
  wf_inds (inds (fst w)) -> NoDup (labels (snd w)) -> 1 <= ga_dx a -> 2 <= ga_dz a ->
  rot_surface_code_rectangle a = Ok l -> memory ordt RotCss l R di rot reset dets false w = (w', Ok c) -> all_deterministic c.
Proof. intros Hp W N. exact (C40_rot_css_lemma ordt Hp a l R di rot reset dets w w' c W N). Qed.
Print Assumptions C40_rot_css_partial.
Theorem C40_unrot_css_partial ordt a l R di rot reset dets w w' c : (forall t n s, Permutation (ordt t n s) s) ->
  wf_inds (inds (fst w)) -> NoDup (labels (snd w)) -> 1 <= ga_dx a -> 2 <= ga_dz a ->
  unrot_surface_code_rectangle a = Ok l -> memory ordt UnrotCss l R di rot reset dets false w = (w', Ok c) -> all_deterministic c.
Proof. intros Hp W N. exact (C40_unrot_css_lemma ordt Hp a l R di rot reset dets w w' c W N). Qed.
Print Assumptions C40_unrot_css_partial.
Theorem C40_css_pipelined ordt a l R di rot reset dets w w' c : (forall t n s, Permutation (ordt t n s) s) ->
  wf_inds (inds (fst w)) -> NoDup (labels (snd w)) -> 1 <= ga_dx a -> 1 <= ga_dz a ->
  rot_surface_code_rectangle a = Ok l -> memory ordt CssPipelined l R di rot reset dets false w = (w', Ok c) -> all_deterministic c.
Proof. intros Hp W N. exact (C40_css_pipelined_lemma ordt Hp a l R di rot reset dets w w' c W N). Qed.
Print Assumptions C40_css_pipelined.
Theorem C40_xzzx_pipelined_partial ordt a l R di rot reset dets w w' c : (forall t n s, Permutation (ordt t n s) s) ->
  wf_inds (inds (fst w)) -> NoDup (labels (snd w)) -> 2 <= ga_dx a -> 2 <= ga_dz a ->
  rot_surface_code_rectangle a = Ok l -> memory ordt XzzxPipelined l R di rot reset dets false w = (w', Ok c) -> all_deterministic c.
Proof. exact (C40_xzzx_pipelined_lemma ordt a l R di rot reset dets w w' c). Qed.
Print Assumptions C40_xzzx_pipelined_partial.
Theorem C40_google_partial ordt a l R di rot dets w w' c : (forall t n s, Permutation (ordt t n s) s) ->
  wf_inds (inds (fst w)) -> NoDup (labels (snd w)) -> 2 <= ga_dx a -> 2 <= ga_dz a ->
  rot_surface_code_rectangle a = Ok l -> memory_google ordt l R di rot dets false w = (w', Ok c) -> all_deterministic c.
Proof. exact (C40_google_lemma ordt a l R di rot dets w w' c). Qed.
Print Assumptions C40_google_partial.
Definition detectors_of (c : circuit) : list (list target) := map tg (filter (fun i => eqb (nm i) DETECTOR) c).
Example C40_case : rot_surface_code_rectangle (args 3 2) = Ok rot32 /\ unrot_surface_code_rectangle (args 3 2) = Ok unrot32 /\
  wf_inds (inds (fst (world_of rot32))) /\ NoDup (labels (snd (world_of rot32))) /\
  wf_inds (inds (fst (world_of unrot32))) /\ NoDup (labels (snd (world_of unrot32))) /\
  (exists c, ex_run RotCss rot32 3 false false = Ok c /\ skipn 13 (detectors_of c) =
    [[TR (-2); TR (-12)]; [TR (-1); TR (-11)];
     [TR (-6); TR (-5); TR (-4); TR (-3); TR (-9); TR (-14)]; [TR (-4); TR (-2); TR (-8); TR (-13)]; [TR (-3); TR (-1); TR (-7); TR (-12)]]) /\
  (exists c, ex_run UnrotCss unrot32 2 true true = Ok c /\ length (detectors_of c) = 17%nat) /\
  (exists c, ex_run CssPipelined rot32 2 true true = Ok c) /\ (exists c, ex_run XzzxPipelined rot32 2 true true = Ok c) /\
  (exists c, ex_google rot32 2 true = Ok c).
Proof.
  split; [vm_compute; reflexivity|]. split; [vm_compute; reflexivity|]. do 4 (split; [nodup|]).
  split; [eexists; split; [vm_compute; reflexivity|vm_compute; reflexivity]|].
  split; [eexists; split; [vm_compute; reflexivity|vm_compute; reflexivity]|].
  split; [|split]; eexists; vm_compute; reflexivity.
Qed.

(* a check that is not deterministic *)
Definition is_random (c : circuit) (n : nat) (q : Z) : bool :=
  match nth_error c n with
  | Some i => (eqb (nm i) DETECTOR || eqb (nm i) OBSERVABLE_INCLUDE) &&
      match back (gates (firstn n c)) (lists i) identity_op with None => true | Some P => px P q || pz P q end
  | None => false
  end.
Lemma not_deterministic c n q : is_random c n q = true -> ~ all_deterministic c.
Proof.
  intros Hb H. unfold is_random in Hb. destruct (nth_error c n) as [i|] eqn:E; [|discriminate].
  apply andb_true_iff in Hb as [Hi Hb].
  assert (Ec : c = firstn n c ++ i :: skipn (S n) c).
  { clear - E. revert c E. induction n as [|n IH]; intros [|x c] E; try discriminate; [now inversion E|].
    cbn [firstn skipn app]. f_equal. now apply IH. }
  destruct (H _ i _ Ec) as [_ (P & B & K)].
  - apply orb_true_iff in Hi as [Hi|Hi]; [left|right]; exact (proj1 (eqb_eq _ _) Hi).
  - rewrite B in Hb. destruct (K q) as [E1 E2]. now rewrite E1, E2 in Hb.
Qed.
(* The XZZX round that is not pipelined gives random detectors and observables (C34, C37). *)
Theorem C40_xzzx_refuted : exists a l w w' c, 3 <= ga_dx a /\ 3 <= ga_dz a /\ rot_surface_code_rectangle a = Ok l /\
  wf_inds (inds (fst w)) /\ NoDup (labels (snd w)) /\
  memory ex_ordt Xzzx l 1 [("D1", 1)] false true None false w = (w', Ok c) /\ ~ all_deterministic c.
Proof.
  exists (args 3 3), rot33, (world_of rot33), (fst (memory ex_ordt Xzzx rot33 1 [("D1", 1)] false true None false (world_of rot33))),
    (ex_circuit Xzzx rot33 1 false true).
  split; [discriminate|]. split; [discriminate|]. split; [vm_compute; reflexivity|]. split; [nodup|]. split; [nodup|].
  split; [vm_compute; reflexivity|]. apply (not_deterministic _ 85 0). vm_compute. reflexivity.
Qed.
Print Assumptions C40_xzzx_refuted.
(* A single row or column, where the rounds do not measure the stabilizers (C35, C36,
   C58). *)
Theorem C40_narrow_refuted :
  (exists a l w w' c, 1 <= ga_dx a /\ ga_dz a = 1 /\ rot_surface_code_rectangle a = Ok l /\
    wf_inds (inds (fst w)) /\ NoDup (labels (snd w)) /\
    memory ex_ordt RotCss l 2 [("D1", 1)] true true None false w = (w', Ok c) /\ ~ all_deterministic c) /\
  (exists a l w w' c, 1 <= ga_dx a /\ ga_dz a = 1 /\ unrot_surface_code_rectangle a = Ok l /\
    wf_inds (inds (fst w)) /\ NoDup (labels (snd w)) /\
    memory ex_ordt UnrotCss l 2 [("D1", 1)] false true None false w = (w', Ok c) /\ ~ all_deterministic c) /\
  (exists a l w w' c, 1 <= ga_dx a /\ ga_dz a = 1 /\ rot_surface_code_rectangle a = Ok l /\
    wf_inds (inds (fst w)) /\ NoDup (labels (snd w)) /\
    memory ex_ordt XzzxPipelined l 2 [("D1", 1)] true true None false w = (w', Ok c) /\ ~ all_deterministic c) /\
  (exists a l w w' c, 1 <= ga_dx a /\ ga_dz a = 1 /\ rot_surface_code_rectangle a = Ok l /\
    wf_inds (inds (fst w)) /\ NoDup (labels (snd w)) /\
    memory_google ex_ordt l 2 [("D1", 1)] true None false w = (w', Ok c) /\ ~ all_deterministic c).
Proof.
  split; [|split; [|split]].
  - exists (args 2 1), rot21, (world_of rot21), (fst (memory ex_ordt RotCss rot21 2 [("D1", 1)] true true None false (world_of rot21))),
      (ex_circuit RotCss rot21 2 true true).
    split; [discriminate|]. split; [reflexivity|]. split; [vm_compute; reflexivity|]. split; [nodup|]. split; [nodup|].
    split; [vm_compute; reflexivity|]. apply (not_deterministic _ 111 0). vm_compute. reflexivity.
  - exists (args 2 1), unrot21, (world_of unrot21), (fst (memory ex_ordt UnrotCss unrot21 2 [("D1", 1)] false true None false (world_of unrot21))),
      (ex_circuit UnrotCss unrot21 2 false true).
    split; [discriminate|]. split; [reflexivity|]. split; [vm_compute; reflexivity|]. split; [nodup|]. split; [nodup|].
    split; [vm_compute; reflexivity|]. apply (not_deterministic _ 53 0). vm_compute. reflexivity.
  - exists (args 2 1), rot21, (world_of rot21), (fst (memory ex_ordt XzzxPipelined rot21 2 [("D1", 1)] true true None false (world_of rot21))),
      (ex_circuit XzzxPipelined rot21 2 true true).
    split; [discriminate|]. split; [reflexivity|]. split; [vm_compute; reflexivity|]. split; [nodup|]. split; [nodup|].
    split; [vm_compute; reflexivity|]. apply (not_deterministic _ 104 0). vm_compute. reflexivity.
  - exists (args 2 1), rot21, (world_of rot21), (fst (memory_google ex_ordt rot21 2 [("D1", 1)] true None false (world_of rot21))),
      (match ex_google rot21 2 true with Ok c => c | Err _ => [] end).
    split; [discriminate|]. split; [reflexivity|]. split; [vm_compute; reflexivity|]. split; [nodup|]. split; [nodup|].
    split; [vm_compute; reflexivity|]. apply (not_deterministic _ 102 0). vm_compute. reflexivity.
Qed.
Print Assumptions C40_narrow_refuted.

(** C60 What every detector and the observable contain, on any layout. *)
Theorem C60_round ordt k l R di rot reset dets gauge w w' c anc r a : (forall t n s, Permutation (ordt t n s) s) ->
  wf_inds (inds (fst w)) -> NoDup (labels (snd w)) -> get_role l "anc" = Ok anc ->
  memory ordt k l R di rot reset dets gauge w = (w', Ok c) -> 0 <= r < R -> In a (labels (snd w)) ->
  exists pre i, detector_in c (snd w) (inds (fst w)) (times (S (Z.to_nat r)) anc) a (zq r) pre i /\
    (shown l rot gauge dets a (Z.to_nat r) -> round_parity (inds (fst w)) reset a pre i) /\
    (~ shown l rot gauge dets a (Z.to_nat r) -> tg i = []).
Proof. intros Hp W N Ea H. exact (C60_round_lemma ordt Hp k l R di rot reset dets gauge w w' c anc W N Ea H r a). Qed.
Print Assumptions C60_round.
Theorem C60_final ordt k raw l0 l R di (rot reset : bool) dets gauge w w' c anc data stabs a : (forall t n s, Permutation (ordt t n s) s) ->
  wf_inds (inds (fst w)) -> NoDup (labels (snd w)) -> py_dicts raw -> layout_init raw = Ok l0 -> edited l0 l ->
  get_role l "anc" = Ok anc -> get_role l "data" = Ok data -> get_stabs l (if rot then "x_type" else "z_type") = Ok stabs ->
  memory ordt k l R di rot reset dets gauge w = (w', Ok c) -> In a stabs -> In a (labels (snd w)) ->
  exists pre i, detector_in c (snd w) (inds (fst w)) (times (Z.to_nat R) anc ++ data) a (zq R - Q2Qc (1#2))%Qc pre i /\
    (shown l rot gauge dets a 0 -> ~ In a (get_neighbors l [a] None) ->
       final_parity (inds (fst w)) reset (get_neighbors l [a] None) a pre i) /\
    (~ shown l rot gauge dets a 0 -> tg i = []).
Proof.
  intros Hp W N P L E Ea Ed Es H Ia Ha.
  exact (end_detector ordt Hp l R rot reset dets gauge w c anc data Ea Ed
    (memory_end ordt k l R di rot reset dets gauge w w' c anc data W N Ea Ed H) stabs a (edited_wf l0 l E (loaded_wf raw l0 P L)) Es Ia Ha).
Qed.
Print Assumptions C60_final.
Theorem C60_observable ordt k l R di rot reset dets gauge w w' c anc data :
  wf_inds (inds (fst w)) -> NoDup (labels (snd w)) -> get_role l "anc" = Ok anc -> get_role l "data" = Ok data ->
  memory ordt k l R di rot reset dets gauge w = (w', Ok c) ->
  exists pre o lq qs, c = pre ++ [o] /\ nm o = OBSERVABLE_INCLUDE /\ ar o = [ANum (zq 0)] /\
    at_inds (inds (fst w)) (times (Z.to_nat R) anc ++ data) (measured pre) /\
    nth_error (l_logs l) 0 = Some lq /\ dget lq (if rot then l_logx l else l_logz l) = Some qs /\
    (NoDup qs -> forall k, (1 <= k)%nat -> lists o k = true <-> exists q, In q qs /\ outcome_of (inds (fst w)) (measured pre) q 1 k).
Proof.
  intros W N Ea Ed H. exact (end_observable ordt l R rot reset dets gauge w c anc data
    (memory_end ordt k l R di rot reset dets gauge w w' c anc data W N Ea Ed H)).
Qed.
Print Assumptions C60_observable.
(* Google's experiment: the detectors of the last round come after the measurement of
   the ancillas and the data qubits. *)
Theorem C60_google_round ordt raw l0 l R di rot dets gauge w w' c anc data r a : (forall t n s, Permutation (ordt t n s) s) ->
  wf_inds (inds (fst w)) -> NoDup (labels (snd w)) -> py_dicts raw -> layout_init raw = Ok l0 -> edited l0 l ->
  get_role l "anc" = Ok anc -> get_role l "data" = Ok data ->
  memory_google ordt l R di rot dets gauge w = (w', Ok c) -> 0 <= r < R -> In a (labels (snd w)) ->
  exists pre i, detector_in c (snd w) (inds (fst w)) (times (S (Z.to_nat r)) anc ++ if r =? R - 1 then data else []) a (zq r) pre i /\
    (shown l rot gauge dets a (Z.to_nat r) -> round_parity (inds (fst w)) true a pre i) /\
    (~ shown l rot gauge dets a (Z.to_nat r) -> tg i = []).
Proof.
  intros Hp W N P L E Ea Ed H. exact (C60_google_round_lemma ordt Hp l R di rot dets gauge w w' c anc data W N Ea Ed H r a
    (edited_wf l0 l E (loaded_wf raw l0 P L))).
Qed.
Print Assumptions C60_google_round.
Theorem C60_google_final ordt raw l0 l R di (rot : bool) dets gauge w w' c anc data stabs a : (forall t n s, Permutation (ordt t n s) s) ->
  wf_inds (inds (fst w)) -> NoDup (labels (snd w)) -> py_dicts raw -> layout_init raw = Ok l0 -> edited l0 l ->
  get_role l "anc" = Ok anc -> get_role l "data" = Ok data -> get_stabs l (if rot then "x_type" else "z_type") = Ok stabs ->
  memory_google ordt l R di rot dets gauge w = (w', Ok c) -> In a stabs -> In a (labels (snd w)) ->
  exists pre i, detector_in c (snd w) (inds (fst w)) (times (Z.to_nat R) anc ++ data) a (zq R - Q2Qc (1#2))%Qc pre i /\
    (shown l rot gauge dets a 0 -> ~ In a (get_neighbors l [a] None) ->
       final_parity (inds (fst w)) true (get_neighbors l [a] None) a pre i) /\
    (~ shown l rot gauge dets a 0 -> tg i = []).
Proof.
  intros Hp W N P L E Ea Ed Es H Ia Ha.
  exact (end_detector ordt Hp l R rot true dets gauge w c anc data Ea Ed
    (google_end ordt l R di rot dets gauge w w' c anc data W N Ea Ed H) stabs a (edited_wf l0 l E (loaded_wf raw l0 P L)) Es Ia Ha).
Qed.
Print Assumptions C60_google_final.
Theorem C60_google_observable ordt l R di rot dets gauge w w' c anc data :
  wf_inds (inds (fst w)) -> NoDup (labels (snd w)) -> get_role l "anc" = Ok anc -> get_role l "data" = Ok data ->
  memory_google ordt l R di rot dets gauge w = (w', Ok c) ->
  exists pre o lq qs, c = pre ++ [o] /\ nm o = OBSERVABLE_INCLUDE /\ ar o = [ANum (zq 0)] /\
    at_inds (inds (fst w)) (times (Z.to_nat R) anc ++ data) (measured pre) /\
    nth_error (l_logs l) 0 = Some lq /\ dget lq (if rot then l_logx l else l_logz l) = Some qs /\
    (NoDup qs -> forall k, (1 <= k)%nat -> lists o k = true <-> exists q, In q qs /\ outcome_of (inds (fst w)) (measured pre) q 1 k).
Proof.
  intros W N Ea Ed H. exact (end_observable ordt l R rot true dets gauge w c anc data
    (google_end ordt l R di rot dets gauge w w' c anc data W N Ea Ed H)).
Qed.
Print Assumptions C60_google_observable.
Example C60_case : (exists raw, py_dicts raw /\ layout_init raw = Ok rot32) /\ edited rot32 rot32 /\
  get_role rot32 "anc" = Ok ["X1"; "X2"; "Z1"; "Z2"; "Z3"] /\ get_stabs rot32 "z_type" = Ok ["Z1"; "Z2"; "Z3"] /\
  labels (snd (world_of rot32)) = ["X1"; "X2"; "Z1"; "Z2"; "Z3"] /\
  (exists c, ex_run RotCss rot32 3 false false = Ok c) /\ (exists c, ex_google rot32 2 true = Ok c) /\
  shown rot32 false false None "Z1" 0 /\ ~ shown rot32 false false None "X1" 0 /\ shown rot32 false false None "X1" 2 /\
  ~ In "Z1" (get_neighbors rot32 ["Z1"] None) /\ NoDup (odef [] (dget "L0" (l_logz rot32))).
Proof.
  split.
  { destruct (rot_planar (args 3 2)) as (l & r & E & L & D & _); [discriminate|discriminate|].
    exists r. split; [exact D|]. rewrite L. f_equal. unfold rot32. now rewrite E. }
  split; [constructor|]. split; [vm_compute; reflexivity|]. split; [vm_compute; reflexivity|]. split; [vm_compute; reflexivity|].
  split; [eexists; vm_compute; reflexivity|]. split; [eexists; vm_compute; reflexivity|].
  split; [|split; [|split; [|split]]].
  - split; [eexists; split; [vm_compute; reflexivity|simpl; auto]|]. split; [discriminate|]. intros _ _. eexists. split; [vm_compute; reflexivity|simpl; auto].
  - intros (_ & _ & H). destruct (H eq_refl eq_refl) as (s & E & I). vm_compute in E. injection E as <-. simpl in I. intuition discriminate.
  - split; [eexists; split; [vm_compute; reflexivity|simpl; auto]|]. split; discriminate.
  - vm_compute. intuition discriminate.
  - nodup.
Qed.
