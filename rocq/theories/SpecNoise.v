(** Vocabulary of the statements about models (properties C01, C02, C17, C18).
    Nothing here is used by the model of the code. *)
From Coq Require Import QArith Qcanon.
From Verif Require Import Base SetupM StimM NoiseM.
Open Scope Z_scope.

(* j counts back to the k-th last occurrence of x in the record l *)
Definition kth_last {A} `{Eqb A} (l : list A) (x : A) (k j : Z) : Prop :=
  1 <= j <= Z.of_nat (length l) /\
  nth_error l (length l - Z.to_nat j) = Some x /\
  Z.of_nat (count x (skipn (length l - Z.to_nat j) l)) = k.

(* a history of calls that all return a circuit; the circuits are concatenated *)
Inductive history : model -> list (op * list string) -> model -> circuit -> Prop :=
| hist_nil m : history m [] m []
| hist_cons m o qs m1 c1 l m2 c2 :
    apply o qs m = (m1, Ok c1) -> history m1 l m2 c2 ->
    history m ((o, qs) :: l) m2 (c1 ++ c2).

(* the qubit_inds dictionary: distinct labels, distinct indices *)
Definition wf_inds (qi : dict string Z) : Prop := NoDup (dkeys qi) /\ NoDup (dvals qi).

(* the same model object with the class replaced by NoiselessModel *)
Definition as_noiseless (m : model) : model :=
  {| kind := Noiseless; stp := stp m; inds := inds m; order := order m; num := num m |}.
(* NoiselessModel.idle has no duration *)
Definition without_duration (o : op) : op := match o with OIDLED _ => OIDLE | _ => o end.

(* applications of noise channels, one per qubit (pair), insensitive to grouping *)
Fixpoint pairs_of {A} (l : list A) : list (list A) :=
  match l with a :: b :: r => [a; b] :: pairs_of r | _ => [] end.
Definition instr_noise (i : instr) : list (gname * list target * list arg) :=
  if is_noise (nm i)
  then map (fun t => (nm i, t, ar i))
           (if is_two (nm i) then pairs_of (tg i) else map (fun t => [t]) (tg i))
  else [].
Definition noise_of (c : circuit) : list (gname * list target * list arg) :=
  flat_map instr_noise c.

(* which channel with which parameter follows (or precedes) each one-qubit
   operation of CircuitNoiseModel *)
Definition channel1 (o : op) : option (gname * string) :=
  match o with
  | OX => Some (DEPOLARIZE1, "x_error_prob")
  | OZ => Some (DEPOLARIZE1, "z_error_prob")
  | OH => Some (DEPOLARIZE1, "h_error_prob")
  | OS => Some (DEPOLARIZE1, "s_error_prob")
  | OSDAG => Some (DEPOLARIZE1, "sdag_error_prob")
  | OR | ORZ => Some (X_ERROR, "reset_error_prob")
  | ORX | ORY => Some (Z_ERROR, "reset_error_prob")
  | OM | OMZ => Some (X_ERROR, "meas_error_prob")
  | OMX | OMY => Some (Z_ERROR, "meas_error_prob")
  | OIDLE => Some (DEPOLARIZE1, "idle_error_prob")
  | _ => None
  end.
Definition channel2 (o : op) : option (gname * string) :=
  match o with
  | OCX => Some (DEPOLARIZE2, "cnot_error_prob")
  | OCZ => Some (DEPOLARIZE2, "cz_error_prob")
  | OSWAP => Some (DEPOLARIZE2, "swap_error_prob")
  | _ => None
  end.
(* the i-th channel application is on exactly these qubits with the probability
   the setup gives for them *)
Definition channel_for (m : model) (g : gname) (p : string) (qs : list string)
  (a : gname * list target * list arg) : Prop :=
  exists is v x, get_inds m qs = Ok is /\ param (stp m) p qs = Ok v /\ as_num v = Ok x /\
                 a = (g, map TQ is, [ANum x]).
