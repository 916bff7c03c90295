(** idle_error_probs of surface_sim/models/util.py:70-111 over the real numbers
    (floating point rounding is not modelled). *)
From Coq Require Import Reals.
From Verif Require Import Base.
Open Scope R_scope.

Definition idle_error_probs (relax deph dur : R) : res (R * R * R) :=
  if Rle_dec relax 0 then Err ValueError
  else if Rle_dec deph 0 then Err ValueError
  else if Rle_dec dur 0 then Err ValueError
  else
    let relax_prob := 1 - exp (- dur / relax) in
    let deph_prob := 1 - exp (- dur / deph) in
    let x := (1 / 4) * relax_prob in
    let z := (1 / 2) * deph_prob - (1 / 4) * relax_prob in
    Ok (x, x, z).
