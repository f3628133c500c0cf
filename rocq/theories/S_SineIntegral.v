(** * Specification: the sine integral. *)

From Coq Require Import Reals.
From Coquelicot Require Import Coquelicot.
Local Open Scope R_scope.

(** Si(x): the integral of sin(t)/t from 0 to x. *)
Definition sine_integral (x : R) : R := RInt (fun t => sin t / t) 0 x.
