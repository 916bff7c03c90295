(** Properties of the QEC rounds (C34-C37, C58, C59). Vocabulary in SpecTrack. [ord] is
    the order in which Python sets are iterated: any permutation. *)
From Coq Require Import QArith Qcanon.
From Verif Require Import Base StimM SetupM NoiseM SpecNoise LayoutM GenM DetM BlockM SpecGen SpecTrack
  OneP LiftP SpecFix FixP Props_Noise Props_Gen.
Open Scope Z_scope.

(* the noise model and the detectors of a layout *)
Definition world_of (l : layout) : world :=
  (model_init Circ ex_setup (combine (map fst (l_nodes l)) (range (Z.of_nat (length (l_nodes l))))),
   match get_role l "anc" with
   | Ok ancs => match det_init ancs "post-gate" None with
                | Ok d => fst (activate ancs d)
                | Err _ => Build_detectors [] PostGate [] [] [] [] [] 0
                end
   | Err _ => Build_detectors [] PostGate [] [] [] [] [] 0
   end).
Definition ex_ord (k : nat) (s : list string) : list string := if Nat.even k then s else rev s.
Lemma ex_ord_perm k s : Permutation (ex_ord k s) s.
Proof. unfold ex_ord. destruct (Nat.even k); [apply Permutation_refl|apply Permutation_sym, Permutation_rev]. Qed.

(** C34 In every step of a round every qubit of the layout is in one operation. *)
Theorem C34_rot_css ord a l reset : (forall k s, Permutation (ord k s) s) -> 0 <= ga_dx a -> 0 <= ga_dz a ->
  rot_surface_code_rectangle a = Ok l -> one_each l (css_round ord "rotated_surface_code" l reset).
Proof. intros Hp. exact (rot_css_one a l ord Hp reset). Qed.
Print Assumptions C34_rot_css.
Theorem C34_unrot_css ord a l reset : (forall k s, Permutation (ord k s) s) -> 0 <= ga_dx a -> 0 <= ga_dz a ->
  unrot_surface_code_rectangle a = Ok l -> one_each l (css_round ord "unrotated_surface_code" l reset).
Proof. intros Hp. exact (unrot_css_one a l ord Hp reset). Qed.
Print Assumptions C34_unrot_css.
Theorem C34_css_pipelined ord a l reset : (forall k s, Permutation (ord k s) s) -> 0 <= ga_dx a -> 0 <= ga_dz a ->
  rot_surface_code_rectangle a = Ok l -> one_each l (css_pipe_round ord l reset).
Proof. intros Hp. exact (rot_css_pipe_one a l ord Hp reset). Qed.
Print Assumptions C34_css_pipelined.
Theorem C34_xzzx_pipelined ord a l reset : (forall k s, Permutation (ord k s) s) -> 0 <= ga_dx a -> 0 <= ga_dz a ->
  rot_surface_code_rectangle a = Ok l -> one_each l (xzzx_pipe_round ord l reset).
Proof. intros Hp. exact (rot_xzzx_pipe_one a l ord Hp reset). Qed.
Print Assumptions C34_xzzx_pipelined.
Theorem C34_google ord a l : (forall k s, Permutation (ord k s) s) -> 0 <= ga_dx a -> 0 <= ga_dz a ->
  rot_surface_code_rectangle a = Ok l -> one_each l (google_round ord l).
Proof. intros Hp. exact (rot_google_one a l ord Hp). Qed.
Print Assumptions C34_google.
Example C34_case : rot_surface_code_rectangle (args 3 2) = Ok rot32 /\ unrot_surface_code_rectangle (args 3 2) = Ok unrot32 /\
  nth_error (css_round ex_ord "rotated_surface_code" rot32 true) 10 =
  Some (Ok [Call OCZ ["X1"; "D1"; "X2"; "D5"]; Call OCZ ["Z1"; "D2"; "Z2"; "D3"]; Call OIDLE ["Z3"; "D6"; "D4"]]).
Proof. split; [vm_compute; reflexivity|]. split; vm_compute; reflexivity. Qed.
(* In the step before the last Hadamard gates, the XZZX round that is not pipelined
   applies again the gates of an earlier step. *)
Theorem C34_xzzx_refuted : exists a l reset, rot_surface_code_rectangle a = Ok l /\ 1 <= ga_dx a /\ 1 <= ga_dz a /\
  ~ one_each l (xzzx_round ex_ord l reset).
Proof.
  exists (args 3 2), rot32, true. split; [vm_compute; reflexivity|]. split; [discriminate|]. split; [discriminate|].
  intros (qs & inc & steps & Hq & _ & E & F).
  assert (Len : forall b, In (Ok b) (xzzx_round ex_ord rot32 true) -> (length (operands b) <= length qs)%nat \/ b = [Call OINC inc]).
  { intros b H. rewrite E in H. cbn [flat_map app] in H. destruct H as [H|[H|H]].
    - injection H as <-. auto.
    - injection H as <-. left. cbn. lia.
    - left. apply in_flat_map in H as (s & Hs & [H|[H|[]]]).
      + injection H as <-. rewrite Forall_forall in F. destruct (F s Hs) as [_ P]. now rewrite (Permutation_length P).
      + injection H as <-. cbn. lia. }
  vm_compute in Hq. injection Hq as <-.
  assert (B : exists c r, nth_error (xzzx_round ex_ord rot32 true) 16 = Some (Ok (Call OCZ c :: r)) /\ length (operands (Call OCZ c :: r)) = 17%nat)
    by (do 2 eexists; split; vm_compute; reflexivity).
  destruct B as (c & r & Hb & Hl). apply nth_error_In in Hb. destruct (Len _ Hb) as [H|H]; [rewrite Hl in H; cbn in H; lia|discriminate].
Qed.
Print Assumptions C34_xzzx_refuted.

(** C35 The outcome of an ancilla of a CSS round is its stabilizer: X or Z on all its
    neighbours; if the ancilla is not reset, times Z on the ancilla. *)
Theorem C35_rot_css_partial ord a l reset dets : (forall k s, Permutation (ord k s) s) ->
  1 <= ga_dx a -> 2 <= ga_dz a -> rot_surface_code_rectangle a = Ok l ->
  measures_with fst (negb reset) l (css l) (qec_round (css_round ord "rotated_surface_code") l reset dets).
Proof. intros Hp Hx Hz E. apply (rot_css_is ord Hp a l Hx Hz E). Qed.
Print Assumptions C35_rot_css_partial.
Theorem C35_unrot_css_partial ord a l reset dets : (forall k s, Permutation (ord k s) s) ->
  1 <= ga_dx a -> 2 <= ga_dz a -> unrot_surface_code_rectangle a = Ok l ->
  measures_with fst (negb reset) l (css l) (qec_round (css_round ord "unrotated_surface_code") l reset dets).
Proof. intros Hp Hx Hz E. apply (unrot_css_is ord Hp a l Hx Hz E). Qed.
Print Assumptions C35_unrot_css_partial.
Theorem C35_css_pipelined ord a l reset dets : (forall k s, Permutation (ord k s) s) ->
  1 <= ga_dx a -> 1 <= ga_dz a -> rot_surface_code_rectangle a = Ok l ->
  measures_with fst (negb reset) l (css l) (qec_round (css_pipe_round ord) l reset dets).
Proof. intros Hp Hx Hz E. apply (css_pipe_is ord Hp a l Hx Hz E). Qed.
Print Assumptions C35_css_pipelined.
Definition runs (f : ST world circuit) (l : layout) : bool :=
  match f (world_of l) with (_, Ok _) => true | _ => false end.
Example C35_case :
  wf_inds (inds (fst (world_of rot32))) /\ wf_inds (inds (fst (world_of unrot32))) /\
  runs (qec_round (css_round ex_ord "rotated_surface_code") rot32 true None) rot32 = true /\
  runs (qec_round (css_round ex_ord "unrotated_surface_code") unrot32 false (Some ["X1"])) unrot32 = true /\
  runs (qec_round (css_pipe_round ex_ord) rot32 true None) rot32 = true /\
  css rot32 "X1" = (["D2"; "D1"], []) /\ css rot32 "Z1" = ([], ["D4"; "D3"; "D2"; "D1"]).
Proof.
  split; [vm_compute; split; repeat constructor; simpl; intuition discriminate|].
  split; [vm_compute; split; repeat constructor; simpl; intuition discriminate|]. vm_compute. auto 10.
Qed.
(* If dz = 1 the qubits rotated before the first step are not those the Z-type ancillas
   need: a Z-type ancilla measures XZ. *)
Definition rot21 : layout := match rot_surface_code_rectangle (args 2 1) with Ok l => l | Err _ => rot32 end.
Definition unrot21 : layout := match unrot_surface_code_rectangle (args 2 1) with Ok l => l | Err _ => rot32 end.
(* the factors at [q] of the outcome of [a]; None if the outcome is random *)
Definition is_at (f : ST world circuit) (l : layout) (a q : string) : option (option (bool * bool)) :=
  let qi := inds (fst (world_of l)) in
  match f (world_of l) with
  | (_, Ok c) => match dget a qi, dget q qi with
                 | Some i, Some j => Some (match back (gates c) (outcome (gates c) i) identity_op with
                                           | Some P => Some (px P j, pz P j)
                                           | None => None
                                           end)
                 | _, _ => None
                 end
  | _ => None
  end.
Lemma not_measures pre l st f a q ancs o : get_role l "anc" = Ok ancs -> In a ancs -> wf_inds (inds (fst (world_of l))) ->
  is_at f l a q = Some o -> o <> Some (mem q (fst (st a)), mem q (snd (st a)) || (pre && eqb q a)) -> ~ measures_with fst pre l st f.
Proof.
  intros Ha Hi W E N M. unfold is_at in E. cbv zeta in E. destruct (f (world_of l)) as [w' [c|]] eqn:Ef; [|discriminate].
  destruct (dget a (inds (fst (world_of l)))) as [i|] eqn:Ei; [|discriminate].
  destruct (M _ _ _ _ _ _ Ha W Ef Hi Ei) as (P & B & R & _). rewrite B in E.
  destruct (dget q (inds (fst (world_of l)))) as [j|] eqn:Ej; [|discriminate]. injection E as <-.
  apply N. destruct (R q j Ej) as [-> ->]. reflexivity.
Qed.
Theorem C35_narrow_refuted :
  (exists a l, 1 <= ga_dx a /\ ga_dz a = 1 /\ rot_surface_code_rectangle a = Ok l /\
    ~ measures_with fst false l (css l) (qec_round (css_round ex_ord "rotated_surface_code") l true None)) /\
  (exists a l, 1 <= ga_dx a /\ ga_dz a = 1 /\ unrot_surface_code_rectangle a = Ok l /\
    ~ measures_with fst false l (css l) (qec_round (css_round ex_ord "unrotated_surface_code") l true None)).
Proof.
  split.
  - exists (args 2 1), rot21. split; [discriminate|]. split; [reflexivity|]. split; [vm_compute; reflexivity|].
    eapply (not_measures _ _ _ _ "Z1" "D2"); [vm_compute; reflexivity|simpl; auto| |vm_compute; reflexivity|vm_compute; discriminate].
    vm_compute. split; repeat constructor; simpl; intuition discriminate.
  - exists (args 2 1), unrot21. split; [discriminate|]. split; [reflexivity|]. split; [vm_compute; reflexivity|].
    eapply (not_measures _ _ _ _ "Z1" "D1"); [vm_compute; reflexivity|simpl; auto| |vm_compute; reflexivity|vm_compute; discriminate].
    vm_compute. split; repeat constructor; simpl; intuition discriminate.
Qed.
Print Assumptions C35_narrow_refuted.

(** C36 A CSS round changes no operator of the data qubits that commutes with all the
    stabilizers, and makes every other one random. *)
Theorem C36_rot_css_partial ord a l dets : (forall k s, Permutation (ord k s) s) ->
  1 <= ga_dx a -> 2 <= ga_dz a -> rot_surface_code_rectangle a = Ok l ->
  (forall reset, preserves fst l (css l) (qec_round (css_round ord "rotated_surface_code") l reset dets)) /\
  destroys fst l (css l) (qec_round (css_round ord "rotated_surface_code") l true dets).
Proof. intros Hp Hx Hz E. apply (rot_css_is ord Hp a l Hx Hz E). Qed.
Print Assumptions C36_rot_css_partial.
Theorem C36_unrot_css_partial ord a l dets : (forall k s, Permutation (ord k s) s) ->
  1 <= ga_dx a -> 2 <= ga_dz a -> unrot_surface_code_rectangle a = Ok l ->
  (forall reset, preserves fst l (css l) (qec_round (css_round ord "unrotated_surface_code") l reset dets)) /\
  destroys fst l (css l) (qec_round (css_round ord "unrotated_surface_code") l true dets).
Proof. intros Hp Hx Hz E. apply (unrot_css_is ord Hp a l Hx Hz E). Qed.
Print Assumptions C36_unrot_css_partial.
Theorem C36_css_pipelined ord a l dets : (forall k s, Permutation (ord k s) s) ->
  1 <= ga_dx a -> 1 <= ga_dz a -> rot_surface_code_rectangle a = Ok l ->
  (forall reset, preserves fst l (css l) (qec_round (css_pipe_round ord) l reset dets)) /\
  destroys fst l (css l) (qec_round (css_pipe_round ord) l true dets).
Proof. intros Hp Hx Hz E. apply (css_pipe_is ord Hp a l Hx Hz E). Qed.
Print Assumptions C36_css_pipelined.
(* the logical X operator commutes with the stabilizers, X on one qubit does not *)
Example C36_case : let none := fun _ : string => false in
  Forall (commutes_with (css rot32) (on ["D1"; "D3"; "D5"]) none) ["X1"; "X2"; "Z1"; "Z2"; "Z3"] /\
  ~ commutes_with (css rot32) (on ["D1"]) none "Z1" /\
  (forall a, In a ["X1"; "X2"; "Z1"; "Z2"; "Z3"] -> on ["D1"; "D3"; "D5"] a = false /\ none a = false).
Proof.
  split; [repeat constructor; vm_compute; reflexivity|]. split; [vm_compute; discriminate|].
  intros a H. simpl in H. split; [|reflexivity]. repeat (destruct H as [<-|H]; [reflexivity|]). destruct H.
Qed.
Theorem C36_narrow_refuted : exists a l, 1 <= ga_dx a /\ ga_dz a = 1 /\ rot_surface_code_rectangle a = Ok l /\
  ~ preserves fst l (css l) (qec_round (css_round ex_ord "rotated_surface_code") l true None).
Proof.
  exists (args 2 1), rot21. split; [discriminate|]. split; [reflexivity|]. split; [vm_compute; reflexivity|]. intros H.
  assert (W : wf_inds (inds (fst (world_of rot21)))) by (vm_compute; split; repeat constructor; simpl; intuition discriminate).
  destruct (qec_round (css_round ex_ord "rotated_surface_code") rot21 true None (world_of rot21)) as [w' [c|]] eqn:E; [|vm_compute in E; discriminate].
  (* the logical operator X on both data qubits *)
  specialize (H _ _ _ ["Z1"] (on ["D1"; "D2"]) (fun _ => false) (Pauli (fun i => (i =? 0) || (i =? 1)) (fun _ => false)) eq_refl W E).
  destruct H as (P' & B & R & _).
  - intros a [<-|[]]. auto.
  - intros a [<-|[]]. vm_compute. reflexivity.
  - split; [|intros i Hi; split; [|reflexivity]].
    + intros q i Hq. vm_compute in Hq. vm_compute. repeat match type of Hq with (if ?b then _ else _) = _ => destruct b end; inversion Hq; auto.
    + vm_compute in Hi. vm_compute. destruct i as [|p|p]; [exfalso; auto|destruct p; auto; exfalso; auto|reflexivity].
  - vm_compute in E. injection E as _ <-. vm_compute in B. discriminate.
Qed.
Print Assumptions C36_narrow_refuted.

(** C37 The XZZX round that is not pipelined does not measure the XZZX stabilizers,
    because of the repeated gates (C34): there are ancillas with random outcomes. *)
Definition rot33 : layout := match rot_surface_code_rectangle (args 3 3) with Ok l => l | Err _ => rot32 end.
Theorem C37_xzzx_refuted : exists a l, 3 <= ga_dx a /\ 3 <= ga_dz a /\ rot_surface_code_rectangle a = Ok l /\
  ~ measures_with fst false l (xzzx l) (qec_round (xzzx_round ex_ord) l true None).
Proof.
  exists (args 3 3), rot33. split; [discriminate|]. split; [discriminate|]. split; [vm_compute; reflexivity|].
  eapply (not_measures _ _ _ _ "X2" "D5"); [vm_compute; reflexivity|simpl; auto| |vm_compute; reflexivity|vm_compute; discriminate].
  vm_compute. split; repeat constructor; simpl; intuition discriminate.
Qed.
Print Assumptions C37_xzzx_refuted.
(* The misspelt name is the only fault: the round with step g corrected, which differs
   from the code in that step only, measures the XZZX stabilizers on every layout,
   changes no operator that commutes with them and makes every other one random. *)
Theorem C37_repaired_partial ord a l dets : (forall k s, Permutation (ord k s) s) ->
  2 <= ga_dx a -> 2 <= ga_dz a -> rot_surface_code_rectangle a = Ok l ->
  (forall reset, measures_with fst (negb reset) l (xzzx l) (qec_round (xzzx_round_fixed ord) l reset dets)) /\
  (forall reset, preserves fst l (xzzx l) (qec_round (xzzx_round_fixed ord) l reset dets)) /\
  destroys fst l (xzzx l) (qec_round (xzzx_round_fixed ord) l true dets).
Proof. intros Hp Hx Hz E. apply (fixed_is a l ord Hp Hx Hz E). Qed.
Print Assumptions C37_repaired_partial.
Theorem C37_only_step_g ord l (reset : bool) k : k <> (if reset then 16 else 14)%nat ->
  nth_error (xzzx_round_fixed ord l reset) k = nth_error (xzzx_round ord l reset) k.
Proof. exact (fixed_only_g ord l reset k). Qed.
Print Assumptions C37_only_step_g.
Example C37_case : rot_surface_code_rectangle (args 3 3) = Ok rot33 /\ wf_inds (inds (fst (world_of rot33))) /\
  runs (qec_round (xzzx_round_fixed ex_ord) rot33 true None) rot33 = true /\
  map (xzzx rot33) ["X2"; "Z2"] = [(["D5"; "D3"], ["D6"; "D2"]); (["D6"], ["D3"])] /\
  nth_error (xzzx_round_fixed ex_ord rot33 true) 16 <> nth_error (xzzx_round ex_ord rot33 true) 16.
Proof.
  split; [vm_compute; reflexivity|]. split; [vm_compute; split; repeat constructor; simpl; intuition discriminate|].
  split; [vm_compute; reflexivity|]. split; [vm_compute; reflexivity|]. intros E. vm_compute in E. discriminate E.
Qed.

(** C58 The pipelined XZZX round measures the XZZX stabilizers, changes no operator that
    commutes with them and makes every other one random. *)
Theorem C58_xzzx_pipelined_partial ord a l dets : (forall k s, Permutation (ord k s) s) ->
  2 <= ga_dx a -> 2 <= ga_dz a -> rot_surface_code_rectangle a = Ok l ->
  (forall reset, measures_with fst (negb reset) l (xzzx l) (qec_round (xzzx_pipe_round ord) l reset dets)) /\
  (forall reset, preserves fst l (xzzx l) (qec_round (xzzx_pipe_round ord) l reset dets)) /\
  destroys fst l (xzzx l) (qec_round (xzzx_pipe_round ord) l true dets).
Proof. intros Hp Hx Hz E. apply (xzzx_pipe_is ord Hp a l Hx Hz E). Qed.
Print Assumptions C58_xzzx_pipelined_partial.
Example C58_case : rot_surface_code_rectangle (args 3 3) = Ok rot33 /\ wf_inds (inds (fst (world_of rot33))) /\
  runs (qec_round (xzzx_pipe_round ex_ord) rot33 true None) rot33 = true /\
  runs (google_qec_round ex_ord rot33 None) rot33 = true /\
  map (xzzx rot33) ["X2"; "Z2"] = [(["D5"; "D3"], ["D6"; "D2"]); (["D6"], ["D3"])].
Proof.
  split; [vm_compute; reflexivity|]. split; [vm_compute; split; repeat constructor; simpl; intuition discriminate|]. vm_compute. auto.
Qed.

(* With one row or column some data qubits have no Hadamard gate to undo the one in the middle. *)
Theorem C58_narrow_refuted : exists a l, 1 <= ga_dx a /\ 1 <= ga_dz a /\ rot_surface_code_rectangle a = Ok l /\
  ~ measures_with fst false l (xzzx l) (qec_round (xzzx_pipe_round ex_ord) l true None).
Proof.
  exists (args 2 1), rot21. split; [discriminate|]. split; [discriminate|]. split; [vm_compute; reflexivity|].
  eapply (not_measures _ _ _ _ "Z1" "D1"); [vm_compute; reflexivity|simpl; auto| |vm_compute; reflexivity|vm_compute; discriminate].
  vm_compute. split; repeat constructor; simpl; intuition discriminate.
Qed.
Print Assumptions C58_narrow_refuted.

(** C59 Google's XZZX round: the same; it resets the ancillas at the end, so an outcome
    is the stabilizer times Z on the ancilla before the round. *)
Theorem C59_google ord a l dets : (forall k s, Permutation (ord k s) s) ->
  0 <= ga_dx a -> 0 <= ga_dz a -> rot_surface_code_rectangle a = Ok l ->
  measures_with fst true l (xzzx l) (google_qec_round ord l dets) /\ preserves fst l (xzzx l) (google_qec_round ord l dets).
Proof. intros Hp. exact (google_is ord Hp a l dets). Qed.
Print Assumptions C59_google.
