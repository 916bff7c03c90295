(** Theorems about Detectors (C03-C12, C50). *)
From Coq Require Import QArith Qcanon.
From Verif Require Import Base Lib StimM MatM DetM SpecDet DetP DetCountP DetLinP DetDetP DetHistP DetPairP DetTopP ExpDetP ApartP.
Open Scope Z_scope.

(** * Data of the examples *)
(* distinct record targets for the outcomes of the qubits a, b, c and of data qubits *)
Definition ex_num (q : string) : Z :=
  if eqb q "a" then 1 else if eqb q "b" then 2 else if eqb q "c" then 3 else if eqb q "q" then 4 else 5.
Definition ex_rec (q : string) (k : Z) : res target := Ok (TR (10 * k - ex_num q)).
(* the outcomes: the list of the records that are 1 *)
Definition ex_out (l : list (string * Z)) (t : target) : bool :=
  match t with TR z => mem z (map (fun qk => 10 * snd qk - ex_num (fst qk)) l) | TQ _ => false end.
Definition ex_o (l : list (string * Z)) (q : string) (k : Z) : bool := mem (10 * k - ex_num q) (map (fun qk => 10 * snd qk - ex_num (fst qk)) l).
Lemma ex_reads l : reads ex_rec (ex_out l) (ex_o l).
Proof. intros q k t [= <-]. reflexivity. Qed.
Definition ex_round := DAnc ex_rec true None.
Definition ab (a : string) : string := if eqb a "a" then "b" else if eqb a "b" then "a" else a.
Lemma ex_inv (P : string -> Prop) l : Forall P l -> forall a, In a l -> P a.
Proof. intros H. now apply Forall_forall. Qed.

Ltac pair_gates := cbn [app];
  repeat (apply Forall_cons; [first [exact I |
    intros a l x H Hx; simpl in H; destruct H as [[= <- <-]|[]]; simpl in Hx; destruct Hx as [<-|[<-|[]]]; vm_compute; auto]|]);
  apply Forall_nil.

(** C03. Pairs are removed without changing the parity. *)
Theorem C03_parity_kept (contrib : list (string * Z)) (outcome : string * Z -> bool) :
  xorl (map outcome (remove_pairs contrib)) = xorl (map outcome contrib).
Proof. exact (remove_pairs_parity outcome contrib). Qed.
Print Assumptions C03_parity_kept.
Theorem C03_even_removed (contrib : list (string * Z)) x :
  Nat.even (count x contrib) = true <-> ~ In x (remove_pairs contrib).
Proof. exact (remove_pairs_even x contrib). Qed.
Print Assumptions C03_even_removed.
(* but an outcome contributed three times is written three times *)
Theorem C03_once_refuted : exists (contrib : list (string * Z)) x, count x (remove_pairs contrib) = 3%nat.
Proof. exists [("a", -1); ("a", -1); ("a", -1)], ("a", -1). vm_compute. reflexivity. Qed.
Print Assumptions C03_once_refuted.

(** C04. One detector per ancilla, with the number of the round as last coordinate. *)
Theorem C04_round_detectors ls f cs d0 h1 h2 d out g reset req d' c :
  det_init ls f cs = Ok d0 -> up_to_new h1 -> none is_new h2 -> dhist d0 (h1 ++ h2) d out ->
  build_from_anc g reset req d = (d', Ok c) ->
  exists l, Permutation l ls /\
    Forall2 (fun a i => det_of d0 a (zq (n_rounds h2)) i /\
      (~ (wanted req a /\ dget a (active d) = Some true) -> tg i = [])) l c.
Proof. exact (C04_anc ls f cs d0 h1 h2 d out g reset req d' c). Qed.
Print Assumptions C04_round_detectors.
Theorem C04_measurement_detectors ls f cs d0 h1 h2 d out g sup reset recon req d' c :
  det_init ls f cs = Ok d0 -> up_to_new h1 -> none is_new h2 -> dhist d0 (h1 ++ h2) d out ->
  build_from_data g sup reset recon req d = (d', Ok c) ->
  exists l, Permutation l (filter (fun a => mem a recon) ls) /\
    Forall2 (fun a i => det_of d0 a (zq (n_rounds h2) - Q2Qc (1#2))%Qc i /\
      (~ (wanted req a /\ dget a (active d) = Some true) -> tg i = [])) l c.
Proof. exact (C04_data ls f cs d0 h1 h2 d out g sup reset recon req d' c). Qed.
Print Assumptions C04_measurement_detectors.
Example C04_nonvacuous : exists d0 h1 h2 d out d' c d'' c',
  det_init ["a"; "b"] "post-gate" None = Ok d0 /\ up_to_new h1 /\ none is_new h2 /\
  dhist d0 (h1 ++ h2) d out /\ n_rounds h2 = 2 /\
  build_from_anc ex_rec true None d = (d', Ok c) /\ map (fun i => length (tg i)) c = [2%nat; 0%nat] /\
  build_from_data ex_rec [("a", ["q"])] true ["a"] None d = (d'', Ok c') /\ map (fun i => length (tg i)) c' = [2%nat].
Proof.
  do 2 eexists. exists [DAct ["a"]; ex_round; ex_round]. do 6 eexists.
  split; [vm_compute; reflexivity|]. split; [right; exists [DAct ["b"]; ex_round]; reflexivity|].
  split; [reflexivity|]. split; [apply run_dhist; vm_compute; reflexivity|].
  repeat (split; [vm_compute; reflexivity|]). vm_compute; reflexivity.
Qed.

(** C05. Detectors of a round are deterministic without noise.

    [C05_deterministic_partial] holds for any gates, under two conditions that the
    code needs: the stabilizer map of the gates between the two rounds is its own
    inverse, and the rational change of basis has no even entry. The second
    condition always holds for gates between pairs of ancillas
    ([C05_two_patches_partial]). Without the first one the property is false
    ([C05_composed_gates_refuted]). *)
Theorem C05_deterministic_partial ls f cs d0 d1 d2 h gap last out1 out2 g reset req d3 c outcome o v1 v2 :
  det_init ls f cs = Ok d0 -> dhist d0 (h ++ [last]) d1 out1 -> is_build last = true ->
  dhist d1 gap d2 out2 -> Forall (fun o => gap_op o = true) gap ->
  dfr d0 <> GateIndep -> invertible ls (curr_gen d1) -> clean d2 -> involution ls (gap_map gap) ->
  build_from_anc g reset req d2 = (d3, Ok c) -> reads g outcome o ->
  (forall a, In a ls -> v1 a = gap_map gap v2 a) ->
  Forall2 (fun a i => forall n, dget a (num_rounds d3) = Some n -> noiseless reset n ls o v1 v2 ->
    (2 <= n -> parity outcome i = false) /\
    (n = 1 -> (forall b, In b ls -> v2 b = false) -> parity outcome i = false)) (dkeys (curr_gen d2)) c.
Proof. exact (C05_general ls f cs d0 d1 d2 h gap last out1 out2 g reset req d3 c outcome o v1 v2). Qed.
Print Assumptions C05_deterministic_partial.
Theorem C05_two_patches_partial ls f cs d0 d1 d2 h gap last out1 out2 p g reset req d3 c outcome o v1 v2 :
  det_init ls f cs = Ok d0 -> dhist d0 (h ++ [last]) d1 out1 -> is_build last = true ->
  dhist d1 gap d2 out2 -> Forall (fun o => gap_op o = true) gap ->
  dfr d0 <> GateIndep -> none is_deact h -> pairing ls p -> Forall (pair_gate p) (h ++ last :: gap) ->
  involution ls (gap_map gap) ->
  build_from_anc g reset req d2 = (d3, Ok c) -> reads g outcome o ->
  (forall a, In a ls -> v1 a = gap_map gap v2 a) ->
  Forall2 (fun a i => forall n, dget a (num_rounds d3) = Some n -> noiseless reset n ls o v1 v2 ->
    (2 <= n -> parity outcome i = false) /\
    (n = 1 -> (forall b, In b ls -> v2 b = false) -> parity outcome i = false)) (dkeys (curr_gen d2)) c.
Proof.
  intros Hi H1 Hl H2 Hg. exact (C05_pair_lemma ls f cs d0 d1 d2 h gap last out1 out2 Hi H1 Hl H2 Hg p g reset req d3 c outcome o v1 v2).
Qed.
Print Assumptions C05_two_patches_partial.
Theorem C05_gate_independent d g reset req d' c outcome o v1 v2 :
  reachable d -> dfr d = GateIndep ->
  build_from_anc g reset req d = (d', Ok c) -> reads g outcome o -> (forall a, In a (labels d) -> v1 a = v2 a) ->
  Forall2 (fun a i => forall n, dget a (num_rounds d') = Some n -> 1 <= n -> noiseless reset n [a] o v1 v2 ->
    (n < (if reset then 2 else 3) -> v2 a = false) -> parity outcome i = false) (labels d) c.
Proof. intros Hr. apply C05_indep_lemma. now apply reachable_wf. Qed.
Print Assumptions C05_gate_independent.
(* a CNOT between a and b after another CNOT and a round; the values before the
   second CNOT are a=1, b=0 *)
Example C05_nonvacuous : exists d0 d1 d2 out1 out2 d3 c v1 v2 l,
  det_init ["a"; "b"] "post-gate" None = Ok d0 /\
  dhist d0 ([DAct ["a"; "b"]; ex_round; DUpdD [("b", ["b"; "a"])]] ++ [ex_round]) d1 out1 /\
  dhist d1 [DUpdD [("b", ["b"; "a"])]] d2 out2 /\
  dfr d0 <> GateIndep /\ none is_deact [DAct ["a"; "b"]; ex_round; DUpdD [("b", ["b"; "a"])]] /\
  pairing ["a"; "b"] ab /\
  Forall (pair_gate ab) ([DAct ["a"; "b"]; ex_round; DUpdD [("b", ["b"; "a"])]] ++ ex_round :: [DUpdD [("b", ["b"; "a"])]]) /\
  involution ["a"; "b"] (gap_map [DUpdD [("b", ["b"; "a"])]]) /\
  build_from_anc ex_rec true None d2 = (d3, Ok c) /\ reads ex_rec (ex_out l) (ex_o l) /\
  (forall a, In a ["a"; "b"] -> v1 a = gap_map [DUpdD [("b", ["b"; "a"])]] v2 a) /\
  dget "b" (num_rounds d3) = Some 3 /\ noiseless true 3 ["a"; "b"] (ex_o l) v1 v2 /\
  v1 "b" <> v2 "b" /\ map (fun i => length (tg i)) c = [2%nat; 3%nat].
Proof.
  do 7 eexists. exists (fun a => true), (fun a => eqb a "a"), [("a", -1); ("b", -1); ("a", -2)].
  split; [vm_compute; reflexivity|]. split; [apply run_dhist; vm_compute; reflexivity|].
  split; [apply run_dhist; vm_compute; reflexivity|]. split; [vm_compute; discriminate|]. split; [reflexivity|].
  split; [intros a [<-|[<-|[]]]; vm_compute; auto|].
  split; [pair_gates|].
  split; [intros v a [<-|[<-|[]]]; vm_compute; destruct (v "a"), (v "b"); reflexivity|].
  split; [vm_compute; reflexivity|]. split; [apply ex_reads|].
  split; [intros a [<-|[<-|[]]]; vm_compute; reflexivity|]. split; [vm_compute; reflexivity|].
  split; [intros a [<-|[<-|[]]]; vm_compute; auto|]. split; [discriminate|vm_compute; reflexivity].
Qed.
(* the general theorem applies to the same history *)
Example C05_general_nonvacuous : exists d0 d1 d2 out1 out2,
  det_init ["a"; "b"] "post-gate" None = Ok d0 /\
  dhist d0 ([DAct ["a"; "b"]] ++ [ex_round]) d1 out1 /\ dhist d1 [DUpdD [("b", ["b"; "a"])]] d2 out2 /\
  invertible ["a"; "b"] (curr_gen d1) /\ clean d2.
Proof.
  do 5 eexists.
  split; [vm_compute; reflexivity|]. split; [apply run_dhist; vm_compute; reflexivity|].
  split; [apply run_dhist; vm_compute; reflexivity|]. split.
  - intros w Hw j Hj. pose proof (Hw "a" (or_introl eq_refl)) as A. pose proof (Hw "b" (or_intror (or_introl eq_refl))) as B.
    cbn in A, B. destruct j as [|[|j]]; [| |simpl in Hj; lia]; destruct (w 0%nat), (w 1%nat); simpl in A, B; congruence.
  - exists (fun a k => if eqb a k then Q2Qc 1 else if eqb a "b" then Q2Qc (-1#1) else Q2Qc 0). split.
    + intros a j [<-|[<-|[]]] Hj; destruct j as [|[|j]]; try (simpl in Hj; lia); vm_compute; reflexivity.
    + intros a k [<-|[<-|[]]] [<-|[<-|[]]]; vm_compute; auto.
Qed.
(* two CNOTs in opposite directions between two rounds: the values change from
   (a,b) = (1,0) to (0,1), and the detector of a fires *)
Theorem C05_composed_gates_refuted : exists d0 d1 d2 out1 out2 d3 c i v1 v2 l,
  let gap := [DUpdD [("b", ["b"; "a"])]; DUpdD [("a", ["a"; "b"])]] in
  det_init ["a"; "b"] "post-gate" None = Ok d0 /\
  dhist d0 [DAct ["a"; "b"]; ex_round] d1 out1 /\ dhist d1 gap d2 out2 /\
  build_from_anc ex_rec true None d2 = (d3, Ok (i :: c)) /\ reads ex_rec (ex_out l) (ex_o l) /\
  (forall a, In a ["a"; "b"] -> v1 a = gap_map gap v2 a) /\
  dget "a" (num_rounds d3) = Some 2 /\ noiseless true 2 ["a"; "b"] (ex_o l) v1 v2 /\
  parity (ex_out l) i = true.
Proof.
  do 8 eexists. exists (fun a => eqb a "b"), (fun a => eqb a "a"), [("b", -1); ("a", -2)]. cbv zeta.
  split; [vm_compute; reflexivity|]. split; [apply run_dhist; vm_compute; reflexivity|].
  split; [apply run_dhist; vm_compute; reflexivity|]. split; [vm_compute; reflexivity|]. split; [apply ex_reads|].
  split; [intros a [<-|[<-|[]]]; vm_compute; reflexivity|]. split; [vm_compute; reflexivity|].
  split; [intros a [<-|[<-|[]]]; vm_compute; auto|]. vm_compute; reflexivity.
Qed.
Print Assumptions C05_composed_gates_refuted.

(** C06. Detectors of a logical measurement are deterministic without noise. *)
Theorem C06_deterministic_partial ls f cs d0 d1 d2 h gap last out1 out2 g sup reset recon req d3 c outcome o v1 v2 :
  det_init ls f cs = Ok d0 -> dhist d0 (h ++ [last]) d1 out1 -> is_build last = true ->
  dhist d1 gap d2 out2 -> Forall (fun o => gap_op o = true) gap ->
  dfr d0 <> GateIndep -> invertible ls (curr_gen d1) -> clean_data d2 -> involution ls (gap_map gap) ->
  build_from_data g sup reset recon req d2 = (d3, Ok c) -> reads g outcome o ->
  (forall a, In a ls -> v1 a = gap_map gap v2 a) -> reconstructs sup o recon v1 ->
  Forall2 (fun a i => forall n, dget a (num_rounds d2) = Some n -> noiseless_prev reset n ls o v2 -> 0 <= n ->
    (n = 0 -> forall b, In b ls -> v2 b = false) -> parity outcome i = false)
    (filter (fun a => mem a recon) (dkeys (curr_gen d2))) c.
Proof. exact (C06_general ls f cs d0 d1 d2 h gap last out1 out2 g sup reset recon req d3 c outcome o v1 v2). Qed.
Print Assumptions C06_deterministic_partial.
Theorem C06_two_patches_partial ls f cs d0 d1 d2 h gap last out1 out2 p g sup reset recon req d3 c outcome o v1 v2 :
  det_init ls f cs = Ok d0 -> dhist d0 (h ++ [last]) d1 out1 -> is_build last = true ->
  dhist d1 gap d2 out2 -> Forall (fun o => gap_op o = true) gap ->
  dfr d0 <> GateIndep -> none is_deact h -> pairing ls p -> Forall (pair_gate p) (h ++ last :: gap) ->
  involution ls (gap_map gap) ->
  build_from_data g sup reset recon req d2 = (d3, Ok c) -> reads g outcome o ->
  (forall a, In a ls -> v1 a = gap_map gap v2 a) -> reconstructs sup o recon v1 ->
  Forall2 (fun a i => forall n, dget a (num_rounds d2) = Some n -> noiseless_prev reset n ls o v2 -> 0 <= n ->
    (n = 0 -> forall b, In b ls -> v2 b = false) -> parity outcome i = false)
    (filter (fun a => mem a recon) (dkeys (curr_gen d2))) c.
Proof.
  intros Hi H1 Hl H2 Hg. exact (C06_pair_lemma ls f cs d0 d1 d2 h gap last out1 out2 Hi H1 Hl H2 Hg p g sup reset recon req d3 c outcome o v1 v2).
Qed.
Print Assumptions C06_two_patches_partial.
Theorem C06_gate_independent d g sup reset recon req d' c outcome o v :
  reachable d -> dfr d = GateIndep ->
  build_from_data g sup reset recon req d = (d', Ok c) -> reads g outcome o -> reconstructs sup o recon v ->
  Forall2 (fun a i => forall n, dget a (num_rounds d) = Some n -> 0 <= n -> noiseless_prev reset n [a] o v ->
    (n = 0 -> v a = false) -> parity outcome i = false) (filter (fun a => mem a recon) (labels d)) c.
Proof. intros Hr. apply C06_indep_lemma. now apply reachable_wf. Qed.
Print Assumptions C06_gate_independent.
(* a CNOT and then the measurement of data qubits q, r: stabilizer b is q r *)
Example C06_nonvacuous : exists d0 d1 d2 out1 out2 d3 c v1 v2 l,
  det_init ["a"; "b"] "pre-gate" None = Ok d0 /\
  dhist d0 ([DAct ["a"; "b"]] ++ [ex_round]) d1 out1 /\
  dhist d1 [DUpdD [("b", ["b"; "a"])]] d2 out2 /\
  none is_deact [DAct ["a"; "b"]] /\ pairing ["a"; "b"] ab /\
  Forall (pair_gate ab) ([DAct ["a"; "b"]] ++ ex_round :: [DUpdD [("b", ["b"; "a"])]]) /\
  involution ["a"; "b"] (gap_map [DUpdD [("b", ["b"; "a"])]]) /\
  build_from_data ex_rec [("b", ["q"; "r"])] true ["b"] None d2 = (d3, Ok c) /\ reads ex_rec (ex_out l) (ex_o l) /\
  (forall a, In a ["a"; "b"] -> v1 a = gap_map [DUpdD [("b", ["b"; "a"])]] v2 a) /\
  reconstructs [("b", ["q"; "r"])] (ex_o l) ["b"] v1 /\
  dget "b" (num_rounds d2) = Some 1 /\ noiseless_prev true 1 ["a"; "b"] (ex_o l) v2 /\
  v1 "b" = true /\ map (fun i => length (tg i)) c = [4%nat].
Proof.
  do 7 eexists. exists (fun a => true), (fun a => eqb a "a"), [("a", -1); ("q", -1)].
  split; [vm_compute; reflexivity|]. split; [apply run_dhist; vm_compute; reflexivity|].
  split; [apply run_dhist; vm_compute; reflexivity|]. split; [reflexivity|].
  split; [intros a [<-|[<-|[]]]; vm_compute; auto|].
  split; [pair_gates|].
  split; [intros v a [<-|[<-|[]]]; vm_compute; destruct (v "a"), (v "b"); reflexivity|].
  split; [vm_compute; reflexivity|]. split; [apply ex_reads|].
  split; [intros a [<-|[<-|[]]]; vm_compute; reflexivity|].
  split; [intros a qs [<-|[]] [= <-]; vm_compute; reflexivity|]. split; [vm_compute; reflexivity|].
  split; [intros a [<-|[<-|[]]] _; vm_compute; auto|]. split; [reflexivity|vm_compute; reflexivity].
Qed.

(** C07. The outcomes listed are given by the change of basis over GF(2), when the
    rational change of basis has no even entry; otherwise it is false. *)
Theorem C07_mod2_partial d g reset req d' c outcome o M :
  reachable d -> both_invertible d -> dfr d <> GateIndep -> clean d ->
  change_of_basis2 (labels d) (fst (frame_gens d)) (snd (frame_gens d)) M ->
  build_from_anc g reset req d = (d', Ok c) -> reads g outcome o ->
  Forall2 (fun a i => wanted req a -> dget a (active d) = Some true ->
    forall n, dget a (num_rounds d') = Some n ->
    parity outcome i = expected (dfr d) M (labels d) reset n o a) (dkeys (curr_gen d)) c.
Proof. intros Hr. apply C07_lemma. now apply reachable_wf. Qed.
Print Assumptions C07_mod2_partial.
(* clean is automatic for gates between pairs of ancillas *)
Theorem C07_pairs_are_clean ls f cs d0 h d out p :
  det_init ls f cs = Ok d0 -> dhist d0 h d out -> none is_deact h -> pairing ls p -> Forall (pair_gate p) h ->
  clean d /\ clean_data d.
Proof. exact (hist_clean ls f cs d0 h d out p). Qed.
Print Assumptions C07_pairs_are_clean.
Definition c07_hist : list dop :=
  [DAct ["a"; "b"; "c"];
   DUpdD [("a", ["a"; "b"]); ("b", ["a"; "c"]); ("c", ["a"])]; ex_round; DUpdD [("a", ["a"; "b"])]].
(* after these gates the new generator of a is a+b over GF(2), but its rational
   expression is a + b - 2c in the previous basis *)
Theorem C07_even_entry_refuted : exists d0 d out d' i c M l,
  det_init ["a"; "b"; "c"] "pre-gate" None = Ok d0 /\ dhist d0 c07_hist d out /\
  change_of_basis2 (labels d) (fst (frame_gens d)) (snd (frame_gens d)) M /\
  build_from_anc ex_rec true None d = (d', Ok (i :: c)) /\ reads ex_rec (ex_out l) (ex_o l) /\
  dget "a" (active d) = Some true /\ dget "a" (num_rounds d') = Some 2 /\
  parity (ex_out l) i <> expected (dfr d) M (labels d) true 2 (ex_o l) "a".
Proof.
  do 6 eexists. exists (fun a k => eqb a k || (eqb a "a" && eqb k "b")), [("c", -1)].
  split; [vm_compute; reflexivity|]. split; [apply run_dhist; vm_compute; reflexivity|].
  split.
  { intros a j [<-|[<-|[<-|[]]]]; destruct j as [|[|[|[|j]]]]; vm_compute; reflexivity. }
  split; [vm_compute; reflexivity|]. split; [apply ex_reads|].
  split; [vm_compute; reflexivity|]. split; [vm_compute; reflexivity|]. vm_compute. discriminate.
Qed.
Print Assumptions C07_even_entry_refuted.
Example C07_nonvacuous : exists d0 d out d' c M,
  det_init ["a"; "b"] "pre-gate" None = Ok d0 /\
  dhist d0 [DAct ["a"; "b"]; ex_round; DUpdD [("b", ["b"; "a"])]] d out /\
  none is_deact [DAct ["a"; "b"]; ex_round; DUpdD [("b", ["b"; "a"])]] /\ pairing ["a"; "b"] ab /\
  Forall (pair_gate ab) [DAct ["a"; "b"]; ex_round; DUpdD [("b", ["b"; "a"])]] /\
  change_of_basis2 (labels d) (fst (frame_gens d)) (snd (frame_gens d)) M /\
  build_from_anc ex_rec false None d = (d', Ok c) /\ map (fun i => length (tg i)) c = [1%nat; 3%nat].
Proof.
  do 5 eexists. exists (fun a k => eqb a k || (eqb a "b" && eqb k "a")).
  split; [vm_compute; reflexivity|]. split; [apply run_dhist; vm_compute; reflexivity|]. split; [reflexivity|].
  split; [intros a [<-|[<-|[]]]; vm_compute; auto|].
  split; [pair_gates|].
  split.
  { intros a j [<-|[<-|[]]]; destruct j as [|[|[|j]]]; vm_compute; reflexivity. }
  split; vm_compute; reflexivity.
Qed.

(** C08. The generators stay a basis, without deactivations or with deactivations
    that do not cut generators; a build call then never fails with a singular matrix. *)
Theorem C08_basis_kept_partial ls f cs d0 h d :
  det_init ls f cs = Ok d0 -> dreach d0 h d -> none is_deact h -> both_invertible d.
Proof. exact (C08_lemma ls f cs d0 h d). Qed.
Print Assumptions C08_basis_kept_partial.
Theorem C08_tidy_call o d d' c :
  reachable d -> both_invertible d -> tidy d o -> call o d = (d', Ok c) -> both_invertible d'.
Proof. exact (C08_step o d d' c). Qed.
Print Assumptions C08_tidy_call.
Theorem C08_never_singular o d :
  reachable d -> both_invertible d -> rec_nolin o -> snd (call o d) <> Err LinAlgError.
Proof. exact (C08_nolin o d). Qed.
Print Assumptions C08_never_singular.
(* deactivating b after two CNOTs makes the generators dependent, and the next
   round cannot be built *)
Theorem C08_deactivate_refuted : exists d0 d out,
  det_init ["a"; "b"] "post-gate" None = Ok d0 /\
  dhist d0 [DAct ["a"; "b"]; ex_round; DUpdD [("b", ["b"; "a"])]; DUpdD [("a", ["a"; "b"])]; ex_round; DDeact ["b"]] d out /\
  ~ both_invertible d /\ snd (call ex_round d) = Err LinAlgError.
Proof.
  do 3 eexists. split; [vm_compute; reflexivity|]. split; [apply run_dhist; vm_compute; reflexivity|].
  split; [|vm_compute; reflexivity]. intros [H _].
  specialize (H (fun j => Nat.eqb j 0)). assert (X : Nat.eqb 0 0 = false).
  { apply H; [|simpl; lia]. intros a [<-|[<-|[]]]; vm_compute; reflexivity. }
  discriminate.
Qed.
Print Assumptions C08_deactivate_refuted.
Example C08_nonvacuous : exists d0 d out d',
  det_init ["a"; "b"] "post-gate" None = Ok d0 /\
  dhist d0 [DAct ["a"; "b"]; ex_round; DUpdD [("b", ["b"; "a"])]; DUpdD [("a", ["a"; "b"])]; ex_round] d out /\
  none is_deact [DAct ["a"; "b"]; ex_round; DUpdD [("b", ["b"; "a"])]; DUpdD [("a", ["a"; "b"])]; ex_round] /\
  (* both at once is fine *)
  tidy d (DDeact ["a"; "b"]) /\ call (DDeact ["a"; "b"]) d = (d', Ok []) /\ rec_nolin ex_round.
Proof.
  do 4 eexists. split; [vm_compute; reflexivity|]. split; [apply run_dhist; vm_compute; reflexivity|]. split; [reflexivity|].
  split.
  { split; intros a j x _ Hj _; destruct j as [|[|j]]; cbn in Hj; try (injection Hj as <-); simpl; auto; destruct j; discriminate. }
  split; [vm_compute; reflexivity|]. intros q k. discriminate.
Qed.

(** C09. Round counters. *)
Theorem C09_total_rounds ls f cs d0 h1 h2 d out :
  det_init ls f cs = Ok d0 -> up_to_new h1 -> none is_new h2 -> dhist d0 (h1 ++ h2) d out -> total d = n_rounds h2.
Proof. exact (C09_total_lemma ls f cs d0 h1 h2 d out). Qed.
Print Assumptions C09_total_rounds.
Theorem C09_active_rounds ls f cs d0 pre l post d out a :
  det_init ls f cs = Ok d0 -> In a ls -> In a l -> none (touches a) post -> dhist d0 (pre ++ DAct l :: post) d out ->
  dget a (active d) = Some true /\ dget a (num_rounds d) = Some (n_rounds post).
Proof. exact (C09_active_lemma ls f cs d0 pre l post d out a). Qed.
Print Assumptions C09_active_rounds.
Theorem C09_frozen_rounds ls f cs d0 pre l mid l' post d out a :
  det_init ls f cs = Ok d0 -> In a ls -> In a l -> In a l' -> none (touches a) mid -> none (touches a) post ->
  dhist d0 (pre ++ DAct l :: mid ++ DDeact l' :: post) d out ->
  dget a (active d) = Some false /\ dget a (num_rounds d) = Some (n_rounds mid).
Proof. exact (C09_inactive_lemma ls f cs d0 pre l mid l' post d out a). Qed.
Print Assumptions C09_frozen_rounds.
Theorem C09_never_active ls f cs d0 h1 h2 d out a :
  det_init ls f cs = Ok d0 -> In a ls -> up_to_new h1 ->
  none (fun o => is_new o || acts a o) h2 -> dhist d0 (h1 ++ h2) d out ->
  dget a (active d) = Some false /\ dget a (num_rounds d) = Some 0.
Proof. exact (C09_never_lemma ls f cs d0 h1 h2 d out a). Qed.
Print Assumptions C09_never_active.
Example C09_nonvacuous : exists d0 d out,
  det_init ["a"; "b"] "post-gate" None = Ok d0 /\
  dhist d0 ([ex_round; DNew] ++ DAct ["a"] :: [ex_round; DAct ["b"]; ex_round] ++ DDeact ["a"] :: [ex_round]) d out /\
  none (touches "a") [ex_round; DAct ["b"]; ex_round] /\ none (touches "a") [ex_round] /\
  total d = 3 /\ num_rounds d = [("a", 2); ("b", 2)].
Proof.
  do 3 eexists. split; [vm_compute; reflexivity|]. split; [apply run_dhist; vm_compute; reflexivity|].
  repeat split; vm_compute; reflexivity.
Qed.

(** C10. Calls with an unknown label always raise; they only raise ValueError and
    leave the object unchanged when all the known labels are given too. *)
Theorem C10_unknown_raises_partial l d a :
  reachable d -> In a l -> ~ In a (labels d) ->
  (exists d' e, activate l d = (d', Err e) /\ (e = KeyError \/ e = ValueError)) /\
  (exists d' e, deactivate l d = (d', Err e) /\ (e = KeyError \/ e = ValueError)).
Proof. intros Hr. apply C10_lemma. now apply reachable_wf. Qed.
Print Assumptions C10_unknown_raises_partial.
Theorem C10_guard l d :
  reachable d -> (exists a, In a l /\ ~ In a (labels d)) -> incl (labels d) l ->
  activate l d = (d, Err ValueError) /\ deactivate l d = (d, Err ValueError).
Proof. intros Hr. apply activate_guard. now apply reachable_wf. Qed.
Print Assumptions C10_guard.
Theorem C10_partial_effect_refuted : exists d0 d',
  det_init ["a"; "b"] "post-gate" None = Ok d0 /\
  activate ["a"; "unknown"] d0 = (d', Err KeyError) /\
  dget "a" (active d0) = Some false /\ dget "a" (active d') = Some true.
Proof. do 2 eexists. split; [vm_compute; reflexivity|]. split; [vm_compute; reflexivity|]. split; vm_compute; reflexivity. Qed.
Print Assumptions C10_partial_effect_refuted.
Example C10_nonvacuous : exists d, reachable d /\ ~ In "unknown" (labels d) /\ incl (labels d) ["b"; "a"; "unknown"].
Proof.
  eexists. split; [exists ["a"; "b"], "post-gate", None; do 2 eexists; split; [vm_compute; reflexivity|]; apply (dhist_reach _ [DAct ["a"; "b"]] _ [[]]), run_dhist; vm_compute; reflexivity|].
  split; [intros [H|[H|[]]]; discriminate|]. intros x [<-|[<-|[]]]; simpl; auto.
Qed.

(** C11. update_from_dict. *)
Theorem C11_transformation nd d d' :
  reachable d -> dict_known (labels d) nd -> update_from_dict nd d = (d', Ok tt) ->
  prev_gen d' = prev_gen d /\ active d' = active d /\ num_rounds d' = num_rounds d /\ total d' = total d /\
  forall a j, In a (labels d) ->
    gen_entry (curr_gen d') a j =
    match dget a nd with
    | Some l => xorl (map (fun b => gen_entry (curr_gen d) b j) (nodup string_dec l))
    | None => gen_entry (curr_gen d) a j
    end.
Proof. intros Hr. apply C11_ok_lemma. now apply reachable_wf. Qed.
Print Assumptions C11_transformation.
Theorem C11_accepts_iff_invertible nd d :
  reachable d -> dict_known (labels d) nd ->
  (singular_map (labels d) (DUpdD nd) -> update_from_dict nd d = (d, Err ValueError)) /\
  (~ singular_map (labels d) (DUpdD nd) -> exists d', update_from_dict nd d = (d', Ok tt)).
Proof. intros Hr. apply C11_iff_lemma. now apply reachable_wf. Qed.
Print Assumptions C11_accepts_iff_invertible.
Example C11_nonvacuous : exists d d',
  reachable d /\ dict_known (labels d) [("b", ["b"; "a"; "b"])] /\
  update_from_dict [("b", ["b"; "a"; "b"])] d = (d', Ok tt) /\ curr_gen d' <> curr_gen d /\
  singular_map (labels d) (DUpdD [("b", ["a"])]).
Proof.
  do 2 eexists. split; [exists ["a"; "b"], "post-gate", None; do 2 eexists; split; [vm_compute; reflexivity|]; apply (dhist_reach _ [DAct ["a"; "b"]] _ [[]]), run_dhist; vm_compute; reflexivity|].
  split; [intros a l [[= <- <-]|[]]; split; [simpl; auto|intros x [<-|[<-|[<-|[]]]]; simpl; auto]|].
  split; [vm_compute; reflexivity|]. split; [vm_compute; discriminate|].
  exists (fun a => eqb a "b"), "b". split; [simpl; auto|]. split; [reflexivity|]. intros b [<-|[<-|[]]]; vm_compute; reflexivity.
Qed.

(** C12. The gate-independent frame. *)
Theorem C12_updates_ignored ls cs d0 h d out :
  det_init ls "gate-independent" cs = Ok d0 -> dhist d0 h d out ->
  exists d', dhist d0 (filter (fun o => negb (is_update o)) h) d'
     (map snd (filter (fun oc => negb (is_update (fst oc))) (combine h out))).
Proof. exact (C12_hist ls cs d0 h d out). Qed.
Print Assumptions C12_updates_ignored.
Theorem C12_formula d g reset req d' c :
  reachable d -> dfr d = GateIndep -> build_from_anc g reset req d = (d', Ok c) ->
  Forall2 (fun a i => wanted req a -> dget a (active d) = Some true ->
    forall n, dget a (num_rounds d') = Some n ->
    let k := if reset then 2 else 3 in
    mapM (fun t => g a t) (if k <=? n then [-1; -k] else [-1]) = Ok (tg i)) (labels d) c.
Proof. intros Hr. apply C12_formula_lemma. now apply reachable_wf. Qed.
Print Assumptions C12_formula.
Example C12_nonvacuous : exists d0 d out d' c,
  det_init ["a"; "b"] "gate-independent" None = Ok d0 /\
  dhist d0 [DAct ["a"; "b"]; ex_round; DUpdD [("b", ["b"; "a"])]; ex_round] d out /\
  build_from_anc ex_rec false None d = (d', Ok c) /\ map (fun i => length (tg i)) c = [2%nat; 2%nat] /\
  map (@length instr) out = [0%nat; 2%nat; 0%nat; 2%nat].
Proof.
  do 5 eexists. split; [vm_compute; reflexivity|]. split; [apply run_dhist; vm_compute; reflexivity|].
  repeat split; vm_compute; reflexivity.
Qed.

(** C50. Measuring one patch does not change the detectors of the others.

    [C50_untouched_partial]: whatever was measured with build_from_data after the
    gates of gap, and whatever was activated or deactivated then, the next detector
    of an ancilla is deterministic if the gates of gap keep its stabilizer. Without
    that condition the property is false ([C50_other_patch_refuted]):
    build_from_data also forgets the gates for the ancillas that were not measured,
    and after a CNOT from a to b and the measurement of a only, the next detector of
    b does not include the outcome of a. *)
Theorem C50_untouched_partial d1 gap gm sup rm recon reqm mid d2 out g reset req d3 c outcome o v1 v2 :
  reachable d1 -> Forall (fun o => switch_op o = true) mid ->
  dhist d1 (gap ++ DData gm sup rm recon reqm :: mid) d2 out ->
  build_from_anc g reset req d2 = (d3, Ok c) -> reads g outcome o ->
  (forall a, In a (labels d1) -> v1 a = gap_map gap v2 a) ->
  exists ls, Permutation ls (labels d1) /\
    Forall2 (fun a i => det_of d1 a (zq (total d2)) i /\
      ((forall v, gap_map gap v a = v a) ->
       forall n, dget a (num_rounds d3) = Some n -> 1 <= n -> noiseless reset n [a] o v1 v2 ->
       (n < (if reset then 2 else 3) -> v2 a = false) -> parity outcome i = false)) ls c.
Proof. intros Hr. exact (apart_lemma d1 gap (DData gm sup rm recon reqm) mid d2 out g reset req d3 c outcome o v1 v2 (reachable_wf _ Hr) eq_refl). Qed.
Print Assumptions C50_untouched_partial.
(* a CNOT between a and b, the measurement of a and b, and a third patch c: its
   next detector lists two outcomes *)
Example C50_case : exists d1 d2 out d3 i j k,
  let gap := [DUpdD [("b", ["b"; "a"])]] in
  reachable d1 /\
  dhist d1 (gap ++ [DData ex_rec [("a", ["q"]); ("b", ["r"])] true ["a"; "b"] None; DDeact ["a"; "b"]]) d2 out /\
  build_from_anc ex_rec true None d2 = (d3, Ok [i; j; k]) /\ (forall v, gap_map gap v "c" = v "c") /\
  dget "c" (num_rounds d3) = Some 2 /\ length (tg k) = 2%nat /\ tg i = [] /\ tg j = [].
Proof.
  do 7 eexists. cbv zeta. split.
  { exists ["a"; "b"; "c"], "post-gate", None. eexists. exists [DAct ["a"; "b"; "c"]; ex_round].
    split; [vm_compute; reflexivity|]. econstructor; [vm_compute; reflexivity|].
    econstructor; [vm_compute; reflexivity|]. constructor. }
  split; [apply run_dhist; vm_compute; reflexivity|]. split; [vm_compute; reflexivity|].
  split; [reflexivity|]. repeat split; vm_compute; reflexivity.
Qed.
Theorem C50_other_patch_refuted : exists d0 d1 d2 out1 out2 d3 i j v1 v2 l,
  let gap := [DUpdD [("b", ["b"; "a"])]; DData ex_rec [("a", ["q"])] true ["a"] None; DDeact ["a"]] in
  det_init ["a"; "b"] "post-gate" None = Ok d0 /\
  dhist d0 [DAct ["a"; "b"]; ex_round] d1 out1 /\ dhist d1 gap d2 out2 /\
  build_from_anc ex_rec true None d2 = (d3, Ok [i; j]) /\ reads ex_rec (ex_out l) (ex_o l) /\
  (forall a, In a ["a"; "b"] -> v1 a = gap_map gap v2 a) /\
  dget "b" (num_rounds d3) = Some 2 /\ noiseless true 2 ["b"] (ex_o l) v1 v2 /\
  (* the last outcome of a is the one before the CNOT *)
  ex_o l "a" (-1) = v2 "a" /\
  parity (ex_out l) j = true /\ det_of d0 "b" (zq 1) j.
Proof.
  do 8 eexists. exists (fun a => true), (fun a => eqb a "a"), [("a", -1); ("b", -1)]. cbv zeta.
  split; [vm_compute; reflexivity|]. split; [apply run_dhist; vm_compute; reflexivity|].
  split; [apply run_dhist; vm_compute; reflexivity|]. split; [vm_compute; reflexivity|]. split; [apply ex_reads|].
  split; [intros a [<-|[<-|[]]]; vm_compute; reflexivity|]. split; [vm_compute; reflexivity|].
  split; [intros a [<-|[]]; vm_compute; auto|]. split; [reflexivity|]. split; [vm_compute; reflexivity|].
  eexists. split; [vm_compute; reflexivity|]. split; vm_compute; reflexivity.
Qed.
Print Assumptions C50_other_patch_refuted.
