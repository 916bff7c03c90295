(** Properties of the error probabilities: C19, C20, C21. *)
From Coq Require Import QArith Qcanon Reals.
From Verif Require Import Base SetupM StimM NoiseM ProbM ProbP.
Open Scope Z_scope.

(* the operators of biased_prefactors are the non-identity n-qubit Paulis, once each *)
Theorem C19_operators n op :
  (In op (operators n) <->
   length op = n /\ Forall (fun p => In p ["I"; "X"; "Y"; "Z"]) op /\ op <> repeat "I" n) /\
  NoDup (operators n).
Proof. exact (conj (operators_spec n op) (operators_NoDup n)). Qed.
Print Assumptions C19_operators.

(** C19. [l] is a probability distribution over those operators in which every
    operator containing P has eta times the weight x of the others. *)
Theorem C19_biased_prefactors p eta n :
  p = "X" \/ p = "Y" \/ p = "Z" -> (1 <= n)%nat -> (Q2Qc 0 <= eta)%Qc ->
  exists l x, prefactors (in_op (VStr p)) eta n = Ok l /\
    Z.of_nat (length l) = 4 ^ Z.of_nat n - 1 /\ sumQ l = Q2Qc 1 /\
    Forall (fun y => (Q2Qc 0 <= y)%Qc) l /\ (Q2Qc 0 < x)%Qc /\
    l = map (fun op => if mem p op then (eta * x)%Qc else x) (operators n).
Proof. exact (biased_lemma p eta n). Qed.
Print Assumptions C19_biased_prefactors.
Example C19_nonvacuous : (1 <= 2)%nat /\ (Q2Qc 0 <= Q2Qc 3)%Qc /\
  is_ok (prefactors (in_op (VStr "Z")) (Q2Qc 3) 2) = true.
Proof. split; [auto|]. split; [discriminate|vm_compute; reflexivity]. Qed.

(** C20. *)
Theorem C20_num_biased_ops n p :
  p = "X" \/ p = "Y" \/ p = "Z" ->
  num_biased_ops n = 4 ^ Z.of_nat n - 3 ^ Z.of_nat n /\
  num_biased_ops n = Z.of_nat (length (filter (mem p) (operators n))).
Proof.
  exact (fun Hp => conj (num_biased_ops_closed n)
           (eq_trans (num_biased_ops_closed n) (eq_sym (biased_count_ops p n Hp)))).
Qed.
Print Assumptions C20_num_biased_ops.

(** C21. *)
Theorem C21_idle_probs_valid t1 t2 d : (0 < t1 -> 0 < t2 -> t2 <= 2 * t1 -> 0 < d ->
  exists x y z, idle_error_probs t1 t2 d = Ok (x, y, z) /\
    0 <= x /\ 0 <= y /\ 0 <= z /\ x + y + z < 1)%R.
Proof. exact (idle_ok t1 t2 d). Qed.
Print Assumptions C21_idle_probs_valid.
Theorem C21_idle_probs_rejects t1 t2 d :
  (idle_error_probs t1 t2 d = Err ValueError <-> (t1 <= 0 \/ t2 <= 0 \/ d <= 0))%R.
Proof. exact (idle_rejects t1 t2 d). Qed.
Print Assumptions C21_idle_probs_rejects.
(* above 2*T1 the formula is not a probability for some duration *)
Theorem C21_unphysical_T2 t1 t2 : (0 < t1 -> 2 * t1 < t2 ->
  exists d x y z, 0 < d /\ idle_error_probs t1 t2 d = Ok (x, y, z) /\ z < 0)%R.
Proof. exact (idle_negative t1 t2). Qed.
Print Assumptions C21_unphysical_T2.
Example C21_nonvacuous : (0 < 30 /\ 0 < 40 /\ 40 <= 2 * 30 /\ 0 < 1)%R.
Proof. repeat split; apply Rlt_le || idtac; try (apply IZR_lt; reflexivity).
  rewrite <- mult_IZR. now apply IZR_lt. Qed.
