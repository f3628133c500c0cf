(** * Vocabulary: the bell and low-shelf designs in f32 (C101). *)

From Coq Require Import ZArith Reals.
From Verif Require Import Base F32 F32Lemmas Num.
Local Open Scope R_scope.

(** What is asked of the external square root: a relative error of at most 2^-20 from 2^-80 to 2^40. *)
Definition close_sqrt (MO : MathOps f32) : Prop := forall x : f32, fin x = true -> pow2 (-80) <= val x <= pow2 40 ->
  fin (m_sqrt x) = true /\ Rabs (val (m_sqrt x) - sqrt (val x)) <= pow2 (-20) * sqrt (val x).

(** A gain whose magnitude is between 1/G and G; a negative one asks for a cut. *)
Definition gain_within (G : R) (g : f32) : Prop := fin g = true /\ / G <= Rabs (val g) <= G.
