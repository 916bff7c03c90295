(** Vocabulary of the statements about the ideal circuit of experiments (C85). *)
From Coq Require Import QArith Qcanon.
From Verif Require Import Base StimM SetupM NoiseM LayoutM SpecFresh.

(* the experiments on one layout *)
Definition one_layout (e : experiment) : Prop := match e with ECnots _ _ _ _ _ _ _ _ _ _ _ => False | _ => True end.
