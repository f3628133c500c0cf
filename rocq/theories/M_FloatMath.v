(** * Model of src/float/math.rs: the methods that are plain arithmetic on [f32]
    (the table and fixed-point based ones are in M_Sine.v and M_Oscillator.v). *)

From Coq Require Import ZArith Bool.
From Verif Require Import Base F32 Num.
Open Scope Z_scope.

Section Math.
Context {F : Type} {NF : Num F} {MO : MathOps F}.
Local Open Scope num_scope.

(** src/float/math.rs:54-56 *)
Definition sinh_ (x : F) : F := (m_exp x - m_exp (- x)) * ndy 1 (-1).

(** src/float/math.rs:66-68 *)
Definition cosh_ (x : F) : F := (m_exp x + m_exp (- x)) * ndy 1 (-1).

(** src/float/math.rs:87-98; [res += e] is [res + e], the literals are f32 literals
    and their quotients f32 quotients. *)
Definition fast_tan (x : F) : F :=
  let res := nint 0 in
  let res := res + x in
  let res := res + (nint 1 / nint 3) * m_powi x 3 in
  let res := res + (nint 2 / nint 15) * m_powi x 5 in
  let res := res + (nint 17 / nint 315) * m_powi x 7 in
  let res := res + (nint 62 / nint 2835) * m_powi x 9 in
  let res := res + (nint 1382 / nint 155925) * m_powi x 11 in
  let res := res + (nint 21844 / nint 6081075) * m_powi x 13 in
  let res := res + (nint 929569 / nint 638512875) * m_powi x 15 in
  res.

(** src/float/math.rs:106-108 (the inner [exp_approx]) *)
Definition exp_approx (x : F) : F := (nint 1 + x) + (x * x) / nint 2.

(** src/float/math.rs:105-118 *)
Definition tanh_ (x : F) : F :=
  let exp_x := exp_approx x in
  let exp_neg_x := exp_approx (- x) in
  let sinh_x := (exp_x - exp_neg_x) / nint 2 in
  let cosh_x := (exp_x + exp_neg_x) / nint 2 in
  sinh_x / cosh_x.
End Math.
