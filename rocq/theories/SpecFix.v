(** The XZZX round with the misspelt name of rot_surface_code_xzzx.py:199 corrected: the
    circuit of step g starts empty. Not the code of the repository: it is used to show
    that nothing else in that round is wrong (C37). *)
From Coq Require Import QArith Qcanon.
From Verif Require Import Base StimM SetupM NoiseM LayoutM DetM BlockM.

Definition xzzx_round_fixed (ord : nat -> list string -> list string) (l : layout) (anc_reset : bool) : blocks := generator (
  if negb (eqb (l_code l) "rotated_surface_code") then Err TypeError else
  do data <- get_role l "data";
  do anc <- get_role l "anc";
  do xs <- get_stabs l "x_type";
  let qubits := dedup (data ++ anc) in
  let rot k := do r <- xzzx_rot l anc xs; Ok (had_block ord k qubits r) in
  let had := Ok [Call OH data; Call OIDLE anc] in
  Ok (round_start data anc anc_reset ++
      [rot 0%nat; tick_block; cz_block ord 2 l qubits 0; tick_block; had; tick_block;
       cz_block ord 3 l qubits 1; tick_block; cz_block ord 4 l qubits 2; tick_block; had; tick_block;
       cz_block ord 5 l qubits 3; tick_block; (* step g: was xzzx_g *)
       rot 6%nat; tick_block] ++
      round_end data anc)).
