(** * Specification: polynomials as coefficient lists, lowest degree first. *)

From Coq Require Import List Reals.
Import ListNotations.
Open Scope R_scope.

(** [peval [c0; c1; ...] x = c0 + c1 x + c2 x^2 + ...]; degree below [length c]. *)
Fixpoint peval (c : list R) (x : R) : R :=
  match c with
  | [] => 0
  | a :: r => a + x * peval r x
  end.
