(** * Rust's [f32] as IEEE-754 binary32 (Flocq), with Rust's casts.

    Language semantics, not code of /repo: the arithmetic operators of [f32]
    (round to nearest, ties to even, no contraction, no flush-to-zero), its
    comparison operators, [as] casts, and the [core]/[std] methods with an exact
    definition ([abs], [neg], [clamp], [rem_euclid], [is_sign_positive], ...). *)

From Coq Require Import ZArith Reals Bool Lia.
From Flocq Require Import Core IEEE754.BinarySingleNaN IEEE754.Binary IEEE754.Bits.
From Verif Require Import Base.
Open Scope Z_scope.

Definition f32 : Type := binary32.

#[global] Instance prec_pos : Prec_gt_0 24 := eq_refl.
#[global] Instance prec_emax : Prec_lt_emax 24 128 := eq_refl.

(** Real value (0 for NaN and infinities), finiteness, NaN test, sign bit. *)
Definition val (x : f32) : R := B2R 24 128 x.
Definition fin (x : f32) : bool := Binary.is_finite 24 128 x.
Definition isnan (x : f32) : bool := Binary.is_nan 24 128 x.
Definition isinf (x : f32) : bool := match x with Binary.B754_infinity _ _ _ => true | _ => false end.
Definition sgn (x : f32) : bool := Binary.Bsign 24 128 x.

(** The sign and payload of a NaN produced by an operation are not specified by
    Rust; a policy chooses them. Theorems quantify over all policies. *)
Inductive arith_op := OpAdd | OpSub | OpMul | OpDiv | OpRem.
Class NanPolicy := nan_result : arith_op -> f32 -> f32 -> { x : f32 | Binary.is_nan 24 128 x = true }.

(** A concrete policy (propagate the first NaN operand), used only to run examples. *)
Definition default_policy : NanPolicy := fun _ => binop_nan_pl32.

Section Ops.
Context {NP : NanPolicy}.

Definition fadd (x y : f32) : f32 := Binary.Bplus 24 128 prec_pos prec_emax (nan_result OpAdd) mode_NE x y.
Definition fsub (x y : f32) : f32 := Binary.Bminus 24 128 prec_pos prec_emax (nan_result OpSub) mode_NE x y.
Definition fmul (x y : f32) : f32 := Binary.Bmult 24 128 prec_pos prec_emax (nan_result OpMul) mode_NE x y.
Definition fdiv (x y : f32) : f32 := Binary.Bdiv 24 128 prec_pos prec_emax (nan_result OpDiv) mode_NE x y.
End Ops.

(** [-x] and [x.abs()] only touch the sign bit, also on NaN. *)
Definition fneg (x : f32) : f32 :=
  match x with
  | Binary.B754_zero _ _ s => Binary.B754_zero _ _ (negb s)
  | Binary.B754_infinity _ _ s => Binary.B754_infinity _ _ (negb s)
  | Binary.B754_nan _ _ s pl H => Binary.B754_nan _ _ (negb s) pl H
  | Binary.B754_finite _ _ s m e H => Binary.B754_finite _ _ (negb s) m e H
  end.
Definition fabs (x : f32) : f32 :=
  match x with
  | Binary.B754_zero _ _ s => Binary.B754_zero _ _ false
  | Binary.B754_infinity _ _ s => Binary.B754_infinity _ _ false
  | Binary.B754_nan _ _ s pl H => Binary.B754_nan _ _ false pl H
  | Binary.B754_finite _ _ s m e H => Binary.B754_finite _ _ false m e H
  end.

(** Comparison operators: false whenever an operand is NaN. *)
Definition fcmp (x y : f32) : option comparison := Binary.Bcompare 24 128 x y.
Definition flt (x y : f32) : bool := match fcmp x y with Some Lt => true | _ => false end.
Definition fle (x y : f32) : bool := match fcmp x y with Some Lt | Some Eq => true | _ => false end.
Definition fgt (x y : f32) : bool := flt y x.
Definition fge (x y : f32) : bool := fle y x.
Definition feq (x y : f32) : bool := match fcmp x y with Some Eq => true | _ => false end.

Definition is_sign_positive (x : f32) : bool := negb (sgn x).
Definition is_sign_negative (x : f32) : bool := sgn x.

(** The literal [m * 2^e], rounded to nearest even (exact when representable);
    [of_int z] is also the cast [z as f32] from any integer type. *)
Definition lit (m e : Z) : f32 := Binary.binary_normalize 24 128 prec_pos prec_emax mode_NE m e false.
Definition of_int (z : Z) : f32 := lit z 0.

Definition f_zero : f32 := Binary.B754_zero 24 128 false.
Definition f_inf : f32 := Binary.B754_infinity 24 128 false.
Definition f_one : f32 := of_int 1.
(** [f32::EPSILON] = 2^-23, [f32::MAX] = (2^24-1)*2^104. *)
Definition f_epsilon : f32 := lit 1 (-23).
Definition f_max : f32 := lit 16777215 104.
(** [core::f32::consts::PI] = 0x40490fdb; FRAC_PI_2, FRAC_PI_4 and TAU have the same significand. *)
Definition f_pi : f32 := lit 13176795 (-22).
Definition f_frac_pi_2 : f32 := lit 13176795 (-23).
Definition f_frac_pi_4 : f32 := lit 13176795 (-24).
Definition f_tau : f32 := lit 13176795 (-21).

(** [x as iN/uN]: truncation, saturating at the bounds, NaN to 0. *)
Definition to_int (lo hi : Z) (x : f32) : Z :=
  match x with
  | Binary.B754_nan _ _ _ _ _ => 0
  | Binary.B754_infinity _ _ s => if s then lo else hi
  | _ => Z.max lo (Z.min hi (Binary.Btrunc 24 128 x))
  end.
Definition to_u32 : f32 -> Z := to_int 0 (2 ^ 32 - 1).
Definition to_i16 : f32 -> Z := to_int (- 2 ^ 15) (2 ^ 15 - 1).
Definition to_usize {B : Build} : f32 -> Z := to_int 0 usize_max.
Definition to_isize {B : Build} : f32 -> Z := to_int isize_min isize_max.

(** [f32::clamp] (core): asserts [min <= max], then two comparisons. *)
Definition fclamp (x lo hi : f32) : outcome f32 :=
  if fle lo hi then
    let x1 := if flt x lo then lo else x in
    Ret (if fgt x1 hi then hi else x1)
  else Panic.

(** [x % y] (IEEE remainder with truncated quotient, exact). *)
Section Rem.
Context {NP : NanPolicy}.
Definition frem (x y : f32) : f32 :=
  match x, y with
  | Binary.B754_nan _ _ _ _ _, _ | _, Binary.B754_nan _ _ _ _ _
  | Binary.B754_infinity _ _ _, _ | _, Binary.B754_zero _ _ _ =>
      proj1_sig (nan_result OpRem x y)
  | Binary.B754_zero _ _ _, _ | _, Binary.B754_infinity _ _ _ => x
  | Binary.B754_finite _ _ sx mx ex _, Binary.B754_finite _ _ sy my ey _ =>
      let e := Z.min ex ey in
      let nx := cond_Zopp sx (Zpos mx) * 2 ^ (ex - e) in
      let ny := Zpos my * 2 ^ (ey - e) in
      Binary.binary_normalize 24 128 prec_pos prec_emax mode_NE (Z.rem nx ny) e sx
  end.

(** [f32::rem_euclid] (identical in std and micromath):
    [let r = self % rhs; if r < 0.0 { r + rhs.abs() } else { r }]. *)
Definition frem_euclid (x y : f32) : f32 :=
  let r := frem x y in
  if flt r f_zero then fadd r (fabs y) else r.
End Rem.

(** Bit pattern of a float and back: [to_le_bytes]/[from_le_bytes] and
    [to_bits]/[from_bits] all expose these 32 bits. *)
Definition to_bits (x : f32) : Z := bits_of_b32 x.
Definition from_bits (w : Z) : f32 := b32_of_bits w.
