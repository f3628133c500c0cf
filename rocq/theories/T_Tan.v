(** * Theorems: the tangent polynomial used by the filter designs (C76). *)

From Coq Require Import ZArith Reals Lia Lra.
From Verif Require Import Base F32 Num M_FloatMath S_Biquad P_Butterworth P_Tan T_Biquad.
Local Open Scope R_scope.

(** C76: in exact arithmetic [fast_tan] is odd, strictly increasing, and at least x for x >= 0. *)
Theorem C76_fast_tan_shape : forall MO : MathOps R, exact_powi MO -> forall x y : R,
  fast_tan (- x) = - fast_tan x /\ (x < y -> fast_tan x < fast_tan y) /\ fast_tan 0 = 0 /\ (0 < x -> x <= fast_tan x).
Proof.
  intros MO H x y. rewrite !(fast_tan_R MO H). split; [unfold tan_poly; field|]. split; [apply tan_poly_incr|].
  split; [apply tan_poly_0|apply tan_poly_pos].
Qed.
Print Assumptions C76_fast_tan_shape.

(** C76: it is below the tangent on (0, pi/2) and on [0, 1] at most x^17/1000 below. *)
Theorem C76_fast_tan_accuracy : forall MO : MathOps R, exact_powi MO -> forall x : R,
  (0 < x < PI / 2 -> fast_tan x < tan x) /\ (0 <= x <= 1 -> 0 <= tan x - fast_tan x <= x ^ 17 / 1000).
Proof.
  intros MO H x. rewrite !(fast_tan_R MO H). split; [apply tan_poly_below|]. intros [H0 H1].
  pose proof one_below_pi2. destruct H0 as [H0|<-].
  - pose proof (tan_poly_below x ltac:(lra)). pose proof (tan_up_above x ltac:(lra)) as U. pose proof (upper_small x ltac:(lra)).
    unfold tan_up in U. lra.
  - rewrite tan_0, tan_poly_0. replace (0 ^ 17) with 0 by ring. lra.
Qed.
Print Assumptions C76_fast_tan_accuracy.

(** The hypothesis is met by the mathematical power; fast_tan 1 is about 1.5564, tan 1 about 1.5574. *)
Example C76_ex : exact_powi powi_math /\ 15564 / 10000 < @fast_tan R num_R powi_math 1 < 15565 / 10000.
Proof.
  assert (E : exact_powi powi_math) by (intros x n Hn; reflexivity). split; [exact E|]. rewrite (fast_tan_R _ E). unfold tan_poly.
  rewrite !pow1. lra.
Qed.
