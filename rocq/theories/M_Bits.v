(** * Model of src/float/conversion.rs and src/float/bit_manipulation.rs. *)

From Coq Require Import ZArith List Bool.
From Verif Require Import Base F32 Num.
Import ListNotations.
Open Scope Z_scope.

(** [u32::to_le_bytes] and its inverse; [f32::to_le_bytes] and [f32::from_le_bytes] are
    these on the bit pattern (language semantics). *)
Definition le_bytes (w : Z) : list Z :=
  [w mod 2 ^ 8; (w / 2 ^ 8) mod 2 ^ 8; (w / 2 ^ 16) mod 2 ^ 8; (w / 2 ^ 24) mod 2 ^ 8].
Definition of_le_bytes (l : list Z) : Z := fold_right (fun b r => b + 2 ^ 8 * r) 0 l.

(** src/float/conversion.rs:12-17 *)
Record components := Comp { c_sign : bool; c_exponent : Z; c_mantissa : Z }.

(** src/float/conversion.rs:3-10: offset and mask of the three fields. In
    tock-registers (source not available here) [Field.mask] is the mask before shifting. *)
Definition sign_shift := 31.  Definition sign_mask := 1.
Definition exp_shift := 23.   Definition exp_mask := 255.
Definition mant_shift := 0.   Definition mant_mask := 8388607.

Section Bits.
Context {NP : NanPolicy} {B : Build}.

(** src/float/conversion.rs:50-52: the loop over the bytes *)
Fixpoint raw_loop (i : Z) (bytes : list Z) (full_integer : Z) : outcome Z :=
  match bytes with
  | [] => Ret full_integer
  | b :: r =>
      do s <- u32_shl b (8 * i) ;
      do f <- u32_add full_integer s ;
      raw_loop (i + 1) r f
  end.

(** src/float/conversion.rs:45-56 *)
Definition to_raw_word (x : f32) : outcome Z := raw_loop 0 (le_bytes (to_bits x)) 0.

(** src/float/conversion.rs:58-63 *)
Definition from_raw_word (w : Z) : f32 := from_bits (of_le_bytes (le_bytes w)).

(** src/float/conversion.rs:65-74 *)
Definition word_to_components (w : Z) : outcome components :=
  do s <- u32_shr w sign_shift ;
  do e <- u32_shr w exp_shift ;
  do m <- u32_shr w mant_shift ;
  Ret (Comp (negb (Z.land s sign_mask =? 0)) (Z.land e exp_mask mod 2 ^ 8) (Z.land m mant_mask)).

(** src/float/conversion.rs:76-81 *)
Definition to_f32_components (x : f32) : outcome components :=
  do w <- to_raw_word x ; word_to_components w.

(** src/float/conversion.rs:83-91 *)
Definition word_from_components (c : components) : outcome Z :=
  do s <- u32_shl (if c_sign c then 1 else 0) sign_shift ;
  do e <- u32_shl (c_exponent c) exp_shift ;
  do se <- u32_add s e ;
  do m <- u32_shl (c_mantissa c) mant_shift ;
  u32_add se m.

(** src/float/conversion.rs:93-99 *)
Definition from_f32_components (c : components) : outcome f32 :=
  do w <- word_from_components c ; Ret (from_raw_word w).

(** src/float/bit_manipulation.rs:6: [0x7FFFFFFF_u32 as f32], which rounds to 2^31 *)
Definition max_range : f32 := of_int 2147483647.

(** src/float/bit_manipulation.rs:8-11 *)
Inductive BitReductionError := OverBitReduction | InputExceedsRange.

(** src/float/bit_manipulation.rs:13-40 *)
Definition bit_reduce_unchecked (input : f32) (bit_depth : Z) : outcome f32 :=
  if negb (bit_depth =? 0) then
    if is_sign_positive input then
      let scaled := to_u32 (fmul input max_range) in
      do a <- u32_shr scaled bit_depth ;
      do b <- u32_shl a bit_depth ;
      let shifted := of_int b in
      Ret (fdiv shifted max_range)
    else if is_sign_negative input then
      let scaled := to_u32 (fmul (fneg input) max_range) in
      do a <- u32_shr scaled bit_depth ;
      do b <- u32_shl a bit_depth ;
      let shifted := of_int b in
      Ret (fdiv (fneg shifted) max_range)
    else Ret input
  else Ret input.

(** src/float/bit_manipulation.rs:42-53 *)
Definition bit_reduce (input : f32) (bit_depth : Z) : outcome (result f32 BitReductionError) :=
  if 30 <? bit_depth then Ret (Err OverBitReduction)
  else if flt input (of_int (-1)) || fgt input (of_int 1) then Ret (Err InputExceedsRange)
  else do y <- bit_reduce_unchecked input bit_depth ; Ret (Ok y).

(** src/float/bit_manipulation.rs:55-69 *)
Definition bit_reduce_exp_unchecked (input : f32) (bit_depth : Z) : outcome f32 :=
  if negb (bit_depth =? 0) then
    do c <- to_f32_components input ;
    do a <- u32_shr (c_mantissa c) bit_depth ;
    do b <- u32_shl a bit_depth ;
    from_f32_components (Comp (c_sign c) (c_exponent c) b)
  else Ret input.

(** src/float/bit_manipulation.rs:71-77 *)
Definition bit_reduce_exp (input : f32) (bit_depth : Z) : outcome (result f32 BitReductionError) :=
  if 23 <? bit_depth then Ret (Err OverBitReduction)
  else do y <- bit_reduce_exp_unchecked input bit_depth ; Ret (Ok y).
End Bits.
