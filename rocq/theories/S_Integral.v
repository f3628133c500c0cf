(** * Specification: finite sums and the composite Simpson rule. *)

From Coq Require Import Reals Arith.
Local Open Scope R_scope.

(** g 0 + g 1 + ... + g (n-1) *)
Fixpoint rsum (n : nat) (g : nat -> R) : R := match n with O => 0 | S k => rsum k g + g k end.

(** The composite Simpson rule with 2m intervals of width h:
    h/3 (f(a) + 4 (f(a+h) + f(a+3h) + ...) + 2 (f(a+2h) + f(a+4h) + ...) + f(b)). *)
Definition odd_nodes (f : R -> R) (a h : R) (m : nat) : R := rsum m (fun i => f (a + (2 * INR i + 1) * h)).
Definition even_nodes (f : R -> R) (a h : R) (m : nat) : R := rsum (m - 1) (fun i => f (a + (2 * INR i + 2) * h)).
Definition simpson (f : R -> R) (a b : R) (m : nat) : R :=
  let h := (b - a) / (2 * INR m) in h / 3 * (f a + 4 * odd_nodes f a h m + 2 * even_nodes f a h m + f b).
