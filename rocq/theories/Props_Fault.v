(** Faults in the memory experiments (C74-C76). Vocabulary in SpecFault. [ordt t] is the order
    in which Python sets are iterated in the t-th block: any permutation. *)
From Coq Require Import QArith Qcanon.
From Verif Require Import SpecLayout LayoutP RotP Base StimM SetupM NoiseM SpecNoise LayoutM GenM DetM BlockM ExpM SpecGen SpecTrack SpecExp SpecFault
  FaultP8 FaultP9 FaultP11 FaultP12 FaultDecP Props_Noise Props_Gen Props_Round Props_Exp.
Open Scope Z_scope.

(** C74 In a memory experiment on a generated layout, fewer faults than the distance of
    the code never change the observable without changing a detector. *)
Theorem C74_rot_css_partial ordt a l R di rot reset dets gauge w w' c fs : (forall t n s, Permutation (ordt t n s) s) ->
  wf_inds (inds (fst w)) -> NoDup (labels (snd w)) -> 1 <= ga_dx a -> 2 <= ga_dz a ->
  rot_surface_code_rectangle a = Ok l -> watched l rot dets ->
  memory ordt RotCss l R di rot reset dets gauge w = (w', Ok c) ->
  Forall (possible c) fs -> undetected c fs -> logical_error c fs ->
  (Z.to_nat (if rot then ga_dz a else ga_dx a) <= length fs)%nat.
Proof. intros Hp W N Hx Hz E V. exact (fault_rot_css ordt Hp a l R di rot reset dets gauge w w' c W N fs V Hx Hz E). Qed.
Print Assumptions C74_rot_css_partial.
Theorem C74_unrot_css_partial ordt a l R di rot reset dets gauge w w' c fs : (forall t n s, Permutation (ordt t n s) s) ->
  wf_inds (inds (fst w)) -> NoDup (labels (snd w)) -> 1 <= ga_dx a -> 2 <= ga_dz a ->
  unrot_surface_code_rectangle a = Ok l -> watched l rot dets ->
  memory ordt UnrotCss l R di rot reset dets gauge w = (w', Ok c) ->
  Forall (possible c) fs -> undetected c fs -> logical_error c fs ->
  (Z.to_nat (if rot then ga_dz a else ga_dx a) <= length fs)%nat.
Proof. intros Hp W N Hx Hz E V. exact (fault_unrot_css ordt Hp a l R di rot reset dets gauge w w' c W N fs V Hx Hz E). Qed.
Print Assumptions C74_unrot_css_partial.
Theorem C74_css_pipelined ordt a l R di rot reset dets gauge w w' c fs : (forall t n s, Permutation (ordt t n s) s) ->
  wf_inds (inds (fst w)) -> NoDup (labels (snd w)) -> 1 <= ga_dx a -> 1 <= ga_dz a ->
  rot_surface_code_rectangle a = Ok l -> watched l rot dets ->
  memory ordt CssPipelined l R di rot reset dets gauge w = (w', Ok c) ->
  Forall (possible c) fs -> undetected c fs -> logical_error c fs ->
  (Z.to_nat (if rot then ga_dz a else ga_dx a) <= length fs)%nat.
Proof. intros Hp W N Hx Hz E V. exact (fault_css_pipelined ordt Hp a l R di rot reset dets gauge w w' c W N fs V Hx Hz E). Qed.
Print Assumptions C74_css_pipelined.
Theorem C74_xzzx_pipelined_partial ordt a l R di rot reset dets gauge w w' c fs : (forall t n s, Permutation (ordt t n s) s) ->
  wf_inds (inds (fst w)) -> NoDup (labels (snd w)) -> 2 <= ga_dx a -> 2 <= ga_dz a ->
  rot_surface_code_rectangle a = Ok l -> watched l rot dets ->
  memory ordt XzzxPipelined l R di rot reset dets gauge w = (w', Ok c) ->
  Forall (possible c) fs -> undetected c fs -> logical_error c fs ->
  (Z.to_nat (if rot then ga_dz a else ga_dx a) <= length fs)%nat.
Proof. intros Hp W N Hx Hz E V. exact (fault_xzzx_pipelined ordt Hp a l R di rot reset dets gauge w w' c W N fs V Hx Hz E). Qed.
Print Assumptions C74_xzzx_pipelined_partial.
Theorem C74_google_partial ordt a l R di rot dets gauge w w' c fs : (forall t n s, Permutation (ordt t n s) s) ->
  wf_inds (inds (fst w)) -> NoDup (labels (snd w)) -> 2 <= ga_dx a -> 2 <= ga_dz a ->
  rot_surface_code_rectangle a = Ok l -> watched l rot dets ->
  memory_google ordt l R di rot dets gauge w = (w', Ok c) ->
  Forall (possible c) fs -> undetected c fs -> logical_error c fs ->
  (Z.to_nat (if rot then ga_dz a else ga_dx a) <= length fs)%nat.
Proof. intros Hp W N Hx Hz E V. exact (fault_google ordt a l R di rot dets gauge w w' c fs Hp W N V Hx Hz E). Qed.
Print Assumptions C74_google_partial.
(** Other cases are false: on one row (the round couples a check qubit while the
    data qubit is in the other basis) and for the XZZX round that is not pipelined two
    faults that the noise causes change the observable of a code of distance three and no
    detector. *)
Definition rot31 : layout := match rot_surface_code_rectangle (args 3 1) with Ok l => l | Err _ => rot32 end.
Definition unrot31 : layout := match unrot_surface_code_rectangle (args 3 1) with Ok l => l | Err _ => rot32 end.
Theorem C74_one_row_refuted :
  (exists c fs, rot_surface_code_rectangle (args 3 1) = Ok rot31 /\ ex_run RotCss rot31 2 false true = Ok c /\
    Forall (possible c) fs /\ Forall (caused c) fs /\ undetected c fs /\ logical_error c fs /\ length fs = 2%nat) /\
  (exists c fs, unrot_surface_code_rectangle (args 3 1) = Ok unrot31 /\ ex_run UnrotCss unrot31 2 false true = Ok c /\
    Forall (possible c) fs /\ Forall (caused c) fs /\ undetected c fs /\ logical_error c fs /\ length fs = 2%nat) /\
  (exists c fs, rot_surface_code_rectangle (args 3 1) = Ok rot31 /\ ex_run XzzxPipelined rot31 2 false true = Ok c /\
    Forall (possible c) fs /\ Forall (caused c) fs /\ undetected c fs /\ logical_error c fs /\ length fs = 2%nat).
Proof.
  split; [|split].
  - exists (ex_circuit RotCss rot31 2 false true), [Double 70 4 true false 2 true false; Single 98 0 true false].
    split; [reflexivity|]. split; [vm_compute; reflexivity|]. split; [apply possibleb_ok; vm_compute; reflexivity|]. split; [apply causedb_ok; vm_compute; reflexivity|].
    split; [apply undetectedb_ok; vm_compute; reflexivity|]. split; [apply logicalb_ok; vm_compute; reflexivity|reflexivity].
  - exists (ex_circuit UnrotCss unrot31 2 false true), [Single 6 0 true false; Single 18 3 true false].
    split; [reflexivity|]. split; [vm_compute; reflexivity|]. split; [apply possibleb_ok; vm_compute; reflexivity|]. split; [apply causedb_ok; vm_compute; reflexivity|].
    split; [apply undetectedb_ok; vm_compute; reflexivity|]. split; [apply logicalb_ok; vm_compute; reflexivity|reflexivity].
  - exists (ex_circuit XzzxPipelined rot31 2 false true), [Single 6 2 true false; Double 48 3 true false 1 true false].
    split; [reflexivity|]. split; [vm_compute; reflexivity|]. split; [apply possibleb_ok; vm_compute; reflexivity|]. split; [apply causedb_ok; vm_compute; reflexivity|].
    split; [apply undetectedb_ok; vm_compute; reflexivity|]. split; [apply logicalb_ok; vm_compute; reflexivity|reflexivity].
Qed.
Print Assumptions C74_one_row_refuted.
Theorem C74_xzzx_refuted : exists c fs, rot_surface_code_rectangle (args 3 3) = Ok rot33 /\ ex_run Xzzx rot33 1 false true = Ok c /\
  Forall (possible c) fs /\ Forall (caused c) fs /\ undetected c fs /\ logical_error c fs /\ length fs = 2%nat.
Proof.
  exists (ex_circuit Xzzx rot33 1 false true), [Double 50 16 true true 5 true false; Single 18 2 true false].
  split; [reflexivity|]. split; [vm_compute; reflexivity|]. split; [apply possibleb_ok; vm_compute; reflexivity|]. split; [apply causedb_ok; vm_compute; reflexivity|].
  split; [apply undetectedb_ok; vm_compute; reflexivity|]. split; [apply logicalb_ok; vm_compute; reflexivity|reflexivity].
Qed.
Print Assumptions C74_xzzx_refuted.
(* a case: three wrong readouts on the logical operator change the observable and no
   detector *)
Example C74_case : wf_inds (inds (fst (world_of rot32))) /\ NoDup (labels (snd (world_of rot32))) /\ watched rot32 false None /\
  rot_surface_code_rectangle (args 3 2) = Ok rot32 /\
  (exists c, ex_run RotCss rot32 2 false true = Ok c /\ Forall (possible c) [Readout 10; Readout 12; Readout 14] /\
    undetected c [Readout 10; Readout 12; Readout 14] /\ logical_error c [Readout 10; Readout 12; Readout 14]) /\
  (exists c, ex_run CssPipelined rot32 2 false true = Ok c /\ undetected c [Readout 10; Readout 12; Readout 14] /\ logical_error c [Readout 10; Readout 12; Readout 14]) /\
  (exists c, ex_run XzzxPipelined rot32 2 false true = Ok c /\ undetected c [Readout 10; Readout 12; Readout 14] /\ logical_error c [Readout 10; Readout 12; Readout 14]) /\
  (exists c, ex_google rot32 2 false = Ok c /\ undetected c [Readout 10; Readout 12; Readout 14] /\ logical_error c [Readout 10; Readout 12; Readout 14]).
Proof.
  split; [nodup|]. split; [nodup|]. split; [intros st ds _ E; discriminate E|]. split; [reflexivity|]. split; [|split; [|split]].
  - exists (ex_circuit RotCss rot32 2 false true). split; [vm_compute; reflexivity|]. split; [apply possibleb_ok; vm_compute; reflexivity|].
    split; [apply undetectedb_ok; vm_compute; reflexivity|apply logicalb_ok; vm_compute; reflexivity].
  - exists (ex_circuit CssPipelined rot32 2 false true). split; [vm_compute; reflexivity|].
    split; [apply undetectedb_ok; vm_compute; reflexivity|apply logicalb_ok; vm_compute; reflexivity].
  - exists (ex_circuit XzzxPipelined rot32 2 false true). split; [vm_compute; reflexivity|].
    split; [apply undetectedb_ok; vm_compute; reflexivity|apply logicalb_ok; vm_compute; reflexivity].
  - exists (match ex_google rot32 2 false with Ok c => c | Err _ => [] end). split; [vm_compute; reflexivity|].
    split; [apply undetectedb_ok; vm_compute; reflexivity|apply logicalb_ok; vm_compute; reflexivity].
Qed.

(** C75 The noise in the circuit of a memory experiment on a generated layout only causes
    faults of that kind, whatever the noise model: its channels on two qubits come right
    after a gate between them. So the distance is also that of the circuit with its noise. *)
Theorem C75_possible ordt (rotated : bool) a l k R di rot reset dets gauge w w' c f : (forall t n s, Permutation (ordt t n s) s) ->
  wf_inds (inds (fst w)) -> 0 <= ga_dx a -> 0 <= ga_dz a ->
  (if rotated then rot_surface_code_rectangle a else unrot_surface_code_rectangle a) = Ok l ->
  In k (if rotated then [RotCss; CssPipelined; Xzzx; XzzxPipelined] else [UnrotCss]) ->
  memory ordt k l R di rot reset dets gauge w = (w', Ok c) -> caused c f -> possible c f.
Proof. intros Hp W Hx Hz. exact (caused_memory ordt Hp a l Hx Hz rotated k R di rot reset dets gauge w w' c f W). Qed.
Print Assumptions C75_possible.
Theorem C75_possible_google ordt a l R di rot dets gauge w w' c f : (forall t n s, Permutation (ordt t n s) s) ->
  wf_inds (inds (fst w)) -> 0 <= ga_dx a -> 0 <= ga_dz a -> rot_surface_code_rectangle a = Ok l ->
  memory_google ordt l R di rot dets gauge w = (w', Ok c) -> caused c f -> possible c f.
Proof. intros Hp W Hx Hz. exact (caused_google ordt Hp a l Hx Hz R di rot dets gauge w w' c f W). Qed.
Print Assumptions C75_possible_google.
Theorem C75_distance ordt (rotated : bool) a l k R di rot reset dets gauge w w' c fs : (forall t n s, Permutation (ordt t n s) s) ->
  wf_inds (inds (fst w)) -> NoDup (labels (snd w)) -> 2 <= ga_dx a -> 2 <= ga_dz a ->
  (if rotated then rot_surface_code_rectangle a else unrot_surface_code_rectangle a) = Ok l -> watched l rot dets ->
  In k (if rotated then [RotCss; CssPipelined; XzzxPipelined] else [UnrotCss]) ->
  memory ordt k l R di rot reset dets gauge w = (w', Ok c) ->
  Forall (caused c) fs -> undetected c fs -> logical_error c fs ->
  (Z.to_nat (if rot then ga_dz a else ga_dx a) <= length fs)%nat.
Proof. exact (caused_distance ordt rotated a l k R di rot reset dets gauge w w' c fs). Qed.
Print Assumptions C75_distance.
Theorem C75_distance_google ordt a l R di rot dets gauge w w' c fs : (forall t n s, Permutation (ordt t n s) s) ->
  wf_inds (inds (fst w)) -> NoDup (labels (snd w)) -> 2 <= ga_dx a -> 2 <= ga_dz a ->
  rot_surface_code_rectangle a = Ok l -> watched l rot dets ->
  memory_google ordt l R di rot dets gauge w = (w', Ok c) ->
  Forall (caused c) fs -> undetected c fs -> logical_error c fs ->
  (Z.to_nat (if rot then ga_dz a else ga_dx a) <= length fs)%nat.
Proof. exact (caused_distance_google ordt a l R di rot dets gauge w w' c fs). Qed.
Print Assumptions C75_distance_google.
(* a case: faults of the three kinds; the noise causes the undetected error of C74_case *)
Example C75_case : wf_inds (inds (fst (world_of rot32))) /\ NoDup (labels (snd (world_of rot32))) /\ watched rot32 false None /\
  rot_surface_code_rectangle (args 3 2) = Ok rot32 /\
  exists c, ex_run RotCss rot32 2 false true = Ok c /\
    Forall (caused c) [Single 20 6 true false; Double 38 6 true true 0 false true; Readout 10; Readout 12; Readout 14] /\
    possible c (Double 38 6 true true 0 false true) /\ ~ possible c (Double 38 6 true true 1 false true) /\
    undetected c [Readout 10; Readout 12; Readout 14] /\ logical_error c [Readout 10; Readout 12; Readout 14] /\
    logical_error c [Double 38 6 true true 0 false true].
Proof.
  split; [nodup|]. split; [nodup|]. split; [intros st ds _ E; discriminate E|]. split; [reflexivity|].
  exists (ex_circuit RotCss rot32 2 false true). split; [vm_compute; reflexivity|]. split; [apply causedb_ok; vm_compute; reflexivity|].
  split; [assert (P : forall c f, Forall (possible c) [f] -> possible c f) by (intros c f H; now inversion H); apply P, possibleb_ok; vm_compute; reflexivity|]. split.
  - intros [_ H]. apply just_coupledb_complete in H. vm_compute in H. discriminate H.
  - split; [apply undetectedb_ok; vm_compute; reflexivity|]. split; apply logicalb_ok; vm_compute; reflexivity.
Qed.

(** C76 The distance is attained: as many wrong readouts as the distance of the code change
    the observable and no detector, in every memory experiment, and the noise causes them if
    the measurements have a flip probability. *)
Theorem C76_attained ordt (rotated : bool) a l k R di rot reset dets gauge w w' c :
  wf_inds (inds (fst w)) -> NoDup (labels (snd w)) -> 1 <= ga_dx a -> 1 <= ga_dz a ->
  (if rotated then rot_surface_code_rectangle a else unrot_surface_code_rectangle a) = Ok l ->
  memory ordt k l R di rot reset dets gauge w = (w', Ok c) ->
  exists fs, length fs = Z.to_nat (if rot then ga_dz a else ga_dx a) /\ Forall (possible c) fs /\
    ((forall i, In i c -> is_meas (nm i) = true -> ar i <> []) -> Forall (caused c) fs) /\ undetected c fs /\ logical_error c fs.
Proof.
  intros W N Hx Hz E. destruct rotated.
  - exact (reached_rot a l ordt k R di rot reset dets gauge w w' c W N Hx Hz E).
  - exact (reached_unrot a l ordt k R di rot reset dets gauge w w' c W N Hx Hz E).
Qed.
Print Assumptions C76_attained.
Theorem C76_attained_google ordt a l R di rot dets gauge w w' c :
  wf_inds (inds (fst w)) -> NoDup (labels (snd w)) -> 1 <= ga_dx a -> 1 <= ga_dz a -> rot_surface_code_rectangle a = Ok l ->
  memory_google ordt l R di rot dets gauge w = (w', Ok c) ->
  exists fs, length fs = Z.to_nat (if rot then ga_dz a else ga_dx a) /\ Forall (possible c) fs /\
    ((forall i, In i c -> is_meas (nm i) = true -> ar i <> []) -> Forall (caused c) fs) /\ undetected c fs /\ logical_error c fs.
Proof. exact (reached_google a l ordt R di rot dets gauge w w' c). Qed.
Print Assumptions C76_attained_google.
(* a case: all the measurements of this circuit have a flip probability *)
Example C76_case : wf_inds (inds (fst (world_of rot32))) /\ NoDup (labels (snd (world_of rot32))) /\
  rot_surface_code_rectangle (args 3 2) = Ok rot32 /\
  exists c, ex_run Xzzx rot32 2 false true = Ok c /\ (forall i, In i c -> is_meas (nm i) = true -> ar i <> []) /\
    undetected c [Readout 10; Readout 12; Readout 14] /\ logical_error c [Readout 10; Readout 12; Readout 14].
Proof.
  split; [nodup|]. split; [nodup|]. split; [reflexivity|]. exists (ex_circuit Xzzx rot32 2 false true). split; [vm_compute; reflexivity|]. split.
  - assert (K : forall c : circuit, forallb (fun i => negb (is_meas (nm i)) || match ar i with [] => false | _ => true end) c = true -> forall i, In i c -> is_meas (nm i) = true -> ar i <> []).
    { intros c H i Hi M E. rewrite forallb_forall in H. specialize (H i Hi). rewrite M, E in H. discriminate H. }
    apply K. vm_compute. reflexivity.
  - split; [apply undetectedb_ok; vm_compute; reflexivity|apply logicalb_ok; vm_compute; reflexivity].
Qed.
