(** * Vocabulary: decibel conversions in f32 (C100). *)

From Coq Require Import ZArith Reals.
From Verif Require Import Base F32 F32Lemmas Num.
Local Open Scope R_scope.

Definition log10 (x : R) : R := ln x / ln 10.

(** What is asked of the external logarithm: a finite result within [e] of the logarithm, for every positive float. *)
Definition close_log10 (MO : MathOps f32) (e : R) : Prop := forall x : f32, fin x = true -> 0 < val x ->
  fin (m_log10 x) = true /\ Rabs (val (m_log10 x) - log10 (val x)) <= e.

(** What is asked of the external power: a relative error of at most [p] for ten to exponents from -37 to 37. *)
Definition close_powf (MO : MathOps f32) (p : R) : Prop := forall y : f32, fin y = true -> Rabs (val y) <= 37 ->
  fin (m_powf (of_int 10) y) = true /\ Rabs (val (m_powf (of_int 10) y) - Rpower 10 (val y)) <= p * Rpower 10 (val y).
