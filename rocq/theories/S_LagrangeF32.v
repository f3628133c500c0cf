(** * Vocabulary: how strongly Lagrange interpolation depends on its samples. *)

From Coq Require Import List Reals.
Import ListNotations.
Local Open Scope R_scope.

(** The i-th of n Lagrange basis polynomials over the nodes 0, 1, ..., n - 1: 1 at node i and 0
    at the others. *)
Definition basis (n i : nat) (x : R) : R :=
  fold_right Rmult 1 (map (fun j => if Nat.eqb i j then 1 else (x - INR j) / (INR i - INR j)) (seq 0 n)).

(** The sum of the magnitudes |ys[i] * basis i| of all contributions at the position x. *)
Definition spread (ys : list R) (x : R) : R :=
  fold_right Rplus 0 (map (fun i => Rabs (nth i ys 0 * basis (length ys) i x)) (seq 0 (length ys))).
