(** * One model text, two readings: [f32] (the code) and [R] (exact arithmetic).

    [Num] collects the operators of the Rust type [f32] the models use; it has no
    laws, so nothing is assumed by being generic over it. *)

From Coq Require Import ZArith Reals Bool.
From Flocq Require Import Core.
From Verif Require Import Base F32.
Open Scope Z_scope.

Class Num (F : Type) := {
  nadd : F -> F -> F;
  nsub : F -> F -> F;
  nmul : F -> F -> F;
  ndiv : F -> F -> F;
  nneg : F -> F;
  nabs : F -> F;                 (* [f32::abs] *)
  nlt : F -> F -> bool;          (* [x < y] *)
  nle : F -> F -> bool;          (* [x <= y] *)
  neq : F -> F -> bool;          (* [x == y] *)
  npos : F -> bool;              (* [x.is_sign_positive()]; over R: [0 <= x] *)
  ndy : Z -> Z -> F;             (* the literal m * 2^e *)
  ntrunc : Z -> Z -> F -> Z      (* [x as iN]: truncate, saturate at the two bounds *)
}.

Section Lit.
Context {F : Type} {NF : Num F}.
(** Integer literal such as [2.0], and the cast [n as f32]. *)
Definition nint (z : Z) : F := ndy z 0.
End Lit.

#[global] Instance num_f32 {NP : NanPolicy} : Num f32 := {|
  nadd := fadd; nsub := fsub; nmul := fmul; ndiv := fdiv; nneg := fneg; nabs := fabs;
  nlt := flt; nle := fle; neq := feq; npos := is_sign_positive; ndy := lit; ntrunc := to_int |}.

#[global] Instance num_R : Num R | 10 := {|
  nadd := Rplus; nsub := Rminus; nmul := Rmult; ndiv := Rdiv; nneg := Ropp; nabs := Rabs;
  nlt := Rlt_bool; nle := Rle_bool; neq := Req_bool; npos := Rle_bool 0;
  ndy := fun m e => (IZR m * bpow radix2 e)%R;
  ntrunc := fun lo hi x => Z.max lo (Z.min hi (Ztrunc x)) |}.

(** The transcendental and rounding routines the crate takes from outside
    ([micromath::F32Ext] on the target, [std] in tests). *)
Class MathOps (F : Type) := {
  m_floor : F -> F;
  m_sqrt : F -> F;
  m_exp : F -> F;
  m_log10 : F -> F;
  m_powf : F -> F -> F;
  m_powi : F -> Z -> F
}.

Declare Scope num_scope.
Delimit Scope num_scope with num.
Notation "x + y" := (nadd x y) : num_scope.
Notation "x - y" := (nsub x y) : num_scope.
Notation "x * y" := (nmul x y) : num_scope.
Notation "x / y" := (ndiv x y) : num_scope.
Notation "- x" := (nneg x) : num_scope.
Notation "x <? y" := (nlt x y) : num_scope.
Notation "x <=? y" := (nle x y) : num_scope.
Notation "x =? y" := (neq x y) : num_scope.
