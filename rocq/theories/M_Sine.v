(** * Model of src/fixed_point/math.rs, src/oscillator/lookup_tables/mod.rs and the
    sine functions of src/float/math.rs. *)

From Coq Require Import ZArith List Bool.
From Verif Require Import Base F32 Num M_Memory.
Import ListNotations.
Open Scope Z_scope.

Section FixedPoint.
Context {B : Build}.

(** src/fixed_point/math.rs:31 *)
Definition sin_B : list Z := [102944; -42334; 5223; -307; 10].
(** [B[d]]: panics when out of range. *)
Definition sin_index (d : Z) : outcome Z :=
  match nthz sin_B d with Some b => Ret b | None => Panic end.

(** src/fixed_point/math.rs:39-47: the [while d != 0] loop; [fuel] is [d] itself,
    which every round decreases by one. *)
Fixpoint sin_loop (z : Z) (d : nat) (res : Z) : outcome Z :=
  match d with
  | O => Ret res
  | S d' =>
      do b <- sin_index (Z.of_nat d) ;
      do r1 <- i32_add res b ;
      do r2 <- i32_mul r1 z ;
      do r3 <- i32_mul (Z.shiftr r2 15) z ;
      sin_loop z d' (Z.shiftr r3 15)
  end.

(** src/fixed_point/math.rs:29-54 *)
Definition sin_i16_unchecked (phase degree : Z) : outcome Z :=
  do res <- sin_loop phase (Z.to_nat degree) 0 ;
  do b <- sin_index 0 ;
  do r <- i32_add res b ;
  Ret (as_i16 (Z.shiftr (i32_saturating_mul r phase) 16)).

(** src/fixed_point/math.rs:9-15 *)
Definition sin_i16 (phase degree : Z) : outcome Z :=
  if 4 <? degree then sin_i16_unchecked phase 4 else sin_i16_unchecked phase degree.

(** src/oscillator/lookup_tables/mod.rs:6: [(u16::MAX / N as u16) as usize] *)
Definition sine_min_step (N : Z) : outcome Z :=
  let n16 := N mod 2 ^ 16 in
  if n16 =? 0 then Panic else Ret (65535 / n16).

(** src/oscillator/lookup_tables/mod.rs:12-13: one entry *)
Definition sine_entry (min_step index : Z) : outcome Z :=
  do m <- i32_mul (i32_wrap index) (i32_wrap min_step) ;
  do p <- i32_chk (m - 32767) ;
  sin_i16_unchecked (as_i16 p) 4.

(** src/oscillator/lookup_tables/mod.rs:11-15: the [while] loop over the indices *)
Fixpoint sine_fill (min_step : Z) (fuel : nat) (index : Z) : outcome (list Z) :=
  match fuel with
  | O => Ret []
  | S f =>
      do e <- sine_entry min_step index ;
      do r <- sine_fill min_step f (index + 1) ;
      Ret (e :: r)
  end.

(** src/oscillator/lookup_tables/mod.rs:5-18 *)
Definition sine_table (N : Z) : outcome (list Z) :=
  do step <- sine_min_step N ; sine_fill step (Z.to_nat N) 0.
End FixedPoint.

Section Float.
Context {NP : NanPolicy} {B : Build}.

(** src/float/math.rs:132 = 195 *)
Definition normalized_rads (x : f32) : f32 :=
  fsub (fdiv (frem_euclid (fsub (fdiv x (of_int 2)) f_frac_pi_4) f_pi) f_frac_pi_4) (of_int 2).

(** src/float/math.rs:131-138 *)
Definition fixed_point_sin (x : f32) : outcome f32 :=
  let quadrant_rads := fsub (fabs (normalized_rads x)) (of_int 1) in
  do s <- sin_i16_unchecked (to_i16 (fmul (of_int 32767) quadrant_rads)) 4 ;
  Ret (fdiv (of_int s) (of_int 32767)).

(** src/float/math.rs:151-153 *)
Definition fixed_point_cos (x : f32) : outcome f32 := fixed_point_sin (fsub f_frac_pi_2 x).

(** [SINE_LOOKUP[i]]: checked indexing. *)
Definition table_index (t : list Z) (i : Z) : outcome Z :=
  match nthz t i with Some v => Ret v | None => Panic end.

(** src/float/math.rs:192-210 *)
Definition lookup_sin (x : f32) : outcome f32 :=
  do table <- sine_table 4096 ;
  let len := Z.of_nat (length table) in
  let quadrant_rads := fdiv (fabs (normalized_rads x)) (of_int 2) in
  let f_index := fmul (of_int (len - 1)) quadrant_rads in
  let i_index := to_usize f_index in
  if negb (i_index =? len - 1) then
    do a <- table_index table i_index ;
    do b <- table_index table (i_index + 1) ;
    Ret (fdiv (lerp_unchecked (of_int a) (of_int b) (fsub f_index (of_int i_index))) (of_int 32767))
  else
    do a <- table_index table i_index ;
    Ret (fdiv (of_int a) (of_int 32767)).

(** src/float/math.rs:225-231 and 213-215 *)
Definition sinc (x : f32) : outcome f32 :=
  if feq x (of_int 0) then Ret (of_int 1)
  else do s <- fixed_point_sin x ; Ret (fdiv s x).
End Float.
