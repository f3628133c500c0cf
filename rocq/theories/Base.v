(** * Machine-level vocabulary: outcomes, Rust integers, build settings.

    Nothing here models a particular function of /repo; it models the Rust
    language constructs the functions are made of. *)

From Coq Require Import ZArith List Bool Lia.
Import ListNotations.
Open Scope Z_scope.

(** The result of running a piece of Rust code: a value, a panic, or undefined
    behaviour (an access outside the allocation behind a raw pointer). *)
Inductive outcome (A : Type) : Type :=
| Ret (a : A)
| Panic
| UB.
Arguments Ret {A} a.
Arguments Panic {A}.
Arguments UB {A}.

Definition bind {A B} (x : outcome A) (f : A -> outcome B) : outcome B :=
  match x with
  | Ret a => f a
  | Panic => Panic
  | UB => UB
  end.

Notation "'do' x <- e ; f" := (bind e (fun x => f))
  (at level 200, x pattern, e at level 100, f at level 200, right associativity).

(** Rust's [Result]. *)
Inductive result (A E : Type) : Type :=
| Ok (a : A)
| Err (e : E).
Arguments Ok {A E} a.
Arguments Err {A E} e.

(** Build settings: pointer width of the target, and whether integer overflow
    checks are compiled in ([true] = debug profile, [false] = release profile). *)
Inductive ptr_width := W16 | W32 | W64.
Class Build := { ptr_w : ptr_width; ovf_checks : bool }.

Section Ints.
Context {B : Build}.

Definition usize_bits : Z := match ptr_w with W16 => 16 | W32 => 32 | W64 => 64 end.
Definition usize_mod : Z := 2 ^ usize_bits.
Definition usize_max : Z := usize_mod - 1.
Definition isize_max : Z := 2 ^ (usize_bits - 1) - 1.
Definition isize_min : Z := - 2 ^ (usize_bits - 1).

Definition is_usize (z : Z) : Prop := 0 <= z <= usize_max.
Definition is_isize (z : Z) : Prop := isize_min <= z <= isize_max.

(** [z as usize] for an integer [z]. *)
Definition as_usize (z : Z) : Z := z mod usize_mod.
(** [z as isize] for an integer [z] (two's complement). *)
Definition as_isize (z : Z) : Z :=
  (z + 2 ^ (usize_bits - 1)) mod usize_mod - 2 ^ (usize_bits - 1).

(** [a + b], [a - b] on [usize]. *)
Definition usize_add (a b : Z) : outcome Z :=
  if a + b <=? usize_max then Ret (a + b)
  else if ovf_checks then Panic else Ret (as_usize (a + b)).
Definition usize_sub (a b : Z) : outcome Z :=
  if b <=? a then Ret (a - b)
  else if ovf_checks then Panic else Ret (as_usize (a - b)).

(** [a + b] on [isize]. *)
Definition isize_add (a b : Z) : outcome Z :=
  if (isize_min <=? a + b) && (a + b <=? isize_max) then Ret (a + b)
  else if ovf_checks then Panic else Ret (as_isize (a + b)).

(** [isize::rem_euclid]: panics on a zero divisor and on [MIN.rem_euclid(-1)],
    in every build. *)
Definition isize_rem_euclid (a b : Z) : outcome Z :=
  if b =? 0 then Panic
  else if (a =? isize_min) && (b =? -1) then Panic
  else Ret (a mod Z.abs b).

(** [i32] arithmetic with overflow checks. *)
Definition i32_ok (z : Z) : bool := (- 2 ^ 31 <=? z) && (z <=? 2 ^ 31 - 1).
Definition i32_wrap (z : Z) : Z := (z + 2 ^ 31) mod 2 ^ 32 - 2 ^ 31.
Definition i32_chk (z : Z) : outcome Z :=
  if i32_ok z then Ret z else if ovf_checks then Panic else Ret (i32_wrap z).
Definition i32_add (a b : Z) : outcome Z := i32_chk (a + b).
Definition i32_mul (a b : Z) : outcome Z := i32_chk (a * b).
(** [i32::saturating_mul]. *)
Definition i32_saturating_mul (a b : Z) : Z :=
  Z.max (- 2 ^ 31) (Z.min (2 ^ 31 - 1) (a * b)).

(** [u32] addition with overflow checks. *)
Definition u32_add (a b : Z) : outcome Z :=
  if a + b <? 2 ^ 32 then Ret (a + b)
  else if ovf_checks then Panic else Ret ((a + b) mod 2 ^ 32).

(** [x >> d] and [x << d] on [u32] with a shift amount that may be too large:
    a panic with overflow checks, masked to 5 bits without. *)
Definition u32_shr (x d : Z) : outcome Z :=
  if d <? 32 then Ret (Z.shiftr x d)
  else if ovf_checks then Panic else Ret (Z.shiftr x (d mod 32)).
Definition u32_shl (x d : Z) : outcome Z :=
  if d <? 32 then Ret (Z.shiftl x d mod 2 ^ 32)
  else if ovf_checks then Panic else Ret (Z.shiftl x (d mod 32) mod 2 ^ 32).
End Ints.

(** [u32::wrapping_add]. *)
Definition u32_wrapping_add (a b : Z) : Z := (a + b) mod 2 ^ 32.
(** [z as i16] (two's complement narrowing). *)
Definition as_i16 (z : Z) : Z := (z + 2 ^ 15) mod 2 ^ 16 - 2 ^ 15.

Definition is_u32 (z : Z) : Prop := 0 <= z < 2 ^ 32.
Definition is_u8 (z : Z) : Prop := 0 <= z < 2 ^ 8.
Definition is_i16 (z : Z) : Prop := - 2 ^ 15 <= z < 2 ^ 15.

(** Replace element [i] of a list (no effect when out of range). *)
Fixpoint upd {A} (l : list A) (i : nat) (v : A) : list A :=
  match l, i with
  | [], _ => []
  | _ :: l', O => v :: l'
  | x :: l', S i' => x :: upd l' i' v
  end.

(** Element of a list at a [Z] position. *)
Definition nthz {A} (l : list A) (i : Z) : option A :=
  if i <? 0 then None else nth_error l (Z.to_nat i).
