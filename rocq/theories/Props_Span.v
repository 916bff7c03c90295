(** Properties of the stabilizer generators of the generated layouts: they are complete
    and independent (C71). Vocabulary in SpecGen and SpecSpan. *)
From Coq Require Import QArith Qcanon.
From Verif Require Import Base Lib StimM LayoutM SpecLayout GenM SpecGen GenP GeomP RotP RotP2 UnrotP SpecSpan SpanP SpanP2.
Open Scope Z_scope.

(** C71 In the generated layouts every Z-type (X-type) operator that commutes with the
    X-type (Z-type) stabilizers is a product of Z-type (X-type) stabilizers, or such a
    product times log_z (log_x); and no product of distinct stabilizers is the identity. *)
Theorem C71_rot a : 1 <= ga_dx a -> 1 <= ga_dz a -> exists l data xs zs lx lz,
  rot_surface_code_rectangle a = Ok l /\ css_code l (ga_log a) data xs zs lx lz /\ complete l data xs zs lx lz.
Proof. exact (rot_complete_lemma a). Qed.
Print Assumptions C71_rot.
Theorem C71_unrot a : 1 <= ga_dx a -> 1 <= ga_dz a -> exists l data xs zs lx lz,
  unrot_surface_code_rectangle a = Ok l /\ css_code l (ga_log a) data xs zs lx lz /\ complete l data xs zs lx lz.
Proof. exact (unrot_complete_lemma a). Qed.
Print Assumptions C71_unrot.
(* the last row of the 3x3 rotated code commutes with the X-type stabilizers and is log_z
   times four Z-type stabilizers; the last row of the unrotated 2x2 code likewise *)
Definition sargs (dx dz : Z) : gen_args :=
  {| ga_dx := dx; ga_dz := dz; ga_log := "L0"; ga_pt := (coord 0, coord 0); ga_data := 1; ga_zanc := 1; ga_xanc := 1; ga_ind := 0 |}.
Definition spans (gen : gen_args -> res layout) (dx dz : Z) (op gens : list string) : bool :=
  match gen (sargs dx dz) with
  | Err _ => false
  | Ok l => match get_stabs l "x_type", get_role l "data", dget "L0" (l_logz l) with
            | Ok xs, Ok data, Some lz =>
                forallb (fun x => Nat.even (weight (on op) (support l x))) xs &&
                forallb (fun q => Bool.eqb (on op q) (xorb (product l gens q) (on lz q))) data
            | _, _, _ => false end end.
Example C71_case : spans rot_surface_code_rectangle 3 3 ["D7"; "D8"; "D9"] ["Z1"; "Z2"; "Z3"; "Z4"] = true /\
  spans unrot_surface_code_rectangle 2 2 ["D4"; "D5"] ["Z1"; "Z2"] = true /\
  spans rot_surface_code_rectangle 3 3 ["D7"; "D8"; "D9"] ["Z1"; "Z2"; "Z3"] = false.
Proof. vm_compute. auto. Qed.
