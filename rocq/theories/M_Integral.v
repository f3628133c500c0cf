(** * Model of src/float/integral.rs and of [si] in src/float/math.rs. *)

From Coq Require Import ZArith List Bool.
From Verif Require Import Base F32 Num M_Sine.
Import ListNotations.
Open Scope Z_scope.

(** [iter().step_by(2)]: the elements at positions 0, 2, 4, ... *)
Fixpoint step_by_2 {A} (l : list A) : list A :=
  match l with
  | [] => []
  | x :: [] => [x]
  | x :: _ :: r => x :: step_by_2 r
  end.

(** [y[a..b]]: panics unless a <= b <= len. *)
Definition slice_range {A} (y : list A) (a b : nat) : outcome (list A) :=
  if (a <=? b)%nat && (b <=? length y)%nat then Ret (firstn (b - a) (skipn a y)) else Panic.

Section Integral.
Context {F : Type} {NF : Num F}.
Local Open Scope num_scope.

(** [iter().sum::<f32>()]: adds in order, starting at zero. (Recent versions of core start
    at -0.0: see [simpsons_rule_from].) *)
Definition sum (l : list F) : F := fold_left nadd l (nint 0).
Definition sum_from (z : F) (l : list F) : F := fold_left nadd l z.

(** src/float/integral.rs:7-9: filling [y]; [f] is a [fn(f32) -> f32] and may panic. *)
Fixpoint map_outcome (f : F -> outcome F) (xs : list F) : outcome (list F) :=
  match xs with
  | [] => Ret []
  | x :: r => do y <- f x ; do ys <- map_outcome f r ; Ret (y :: ys)
  end.

(** src/float/integral.rs:1-18. For N = 0 the upper bound [N - 1] of the second range
    underflows, but the first range 1..0 has panicked before. *)
Definition simpsons_rule (N : nat) (f : F -> outcome F) (a b : F) : outcome F :=
  let h := (b - a) / nint (Z.of_nat N) in
  let x := map (fun i => a + nint (Z.of_nat i) * h) (seq 0 N) in
  do y <- map_outcome f x ;
  do fa <- f a ;
  do s1 <- slice_range y 1 N ;
  do s2 <- slice_range y 2 (N - 1) ;
  do s3 <- slice_range y 1 N ;
  do fb <- (if Nat.eqb (Nat.modulo N 2) 0 then f b else Ret (nint 0)) ;
  Ret (h / nint 3 *
       (fa + nint 4 * sum (step_by_2 s1) + nint 2 * sum (step_by_2 s2)
           + nint 4 * sum (step_by_2 s3) + fb)).

(** src/float/integral.rs:1-18 again, with the value [z] at which the version of core in use
    starts a sum. *)
Definition simpsons_rule_from (z : F) (N : nat) (f : F -> outcome F) (a b : F) : outcome F :=
  let h := (b - a) / nint (Z.of_nat N) in
  let x := map (fun i => a + nint (Z.of_nat i) * h) (seq 0 N) in
  do y <- map_outcome f x ;
  do fa <- f a ;
  do s1 <- slice_range y 1 N ;
  do s2 <- slice_range y 2 (N - 1) ;
  do s3 <- slice_range y 1 N ;
  do fb <- (if Nat.eqb (Nat.modulo N 2) 0 then f b else Ret (nint 0)) ;
  Ret (h / nint 3 *
       (fa + nint 4 * sum_from z (step_by_2 s1) + nint 2 * sum_from z (step_by_2 s2)
           + nint 4 * sum_from z (step_by_2 s3) + fb)).
End Integral.

(** src/float/math.rs:217-220 *)
Definition si {NP : NanPolicy} {B : Build} (x : f32) : outcome f32 :=
  simpsons_rule 1000 sinc (of_int 0) x.
