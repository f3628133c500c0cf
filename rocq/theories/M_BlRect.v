(** * Model of [lookup_bl_rect] in src/float/math.rs. *)

From Coq Require Import ZArith List Bool.
From Verif Require Import Base F32 Num M_Memory.
Import ListNotations.
Open Scope Z_scope.

(** Length of [BANDLIMITED_RECT] (src/oscillator/lookup_tables/bl_rect.rs:1).
    The entries are in [M_BlRectTable]; the theorems of C77 hold for every table of this
    length. *)
Definition bl_rect_len : Z := 5075.

Section BlRect.
Context {NP : NanPolicy} {B : Build}.

(** src/float/math.rs:158-187. [table] is the contents of [BANDLIMITED_RECT], an allocation
    of its own. *)
Definition lookup_bl_rect (table : list f32) (x : f32) : outcome f32 :=
  let h := [table] in
  let buffer := from_slice 0 0 (Z.of_nat (length table)) in
  do len <- usize_sub (ms_length buffer) 1 ;
  if fle x (of_int 0) then Ret (of_int 0)
  else if fle x (lit 1 (-2)) then
    let f_index := fmul x (of_int 4) in
    ms_lerp_unchecked h buffer (fmul f_index (of_int len))
  else if fle x (lit 1 (-1)) then
    let f_index := fmul (fsub (lit 1 (-2)) (fsub x (lit 1 (-2)))) (of_int 4) in
    ms_lerp_unchecked h buffer (fmul f_index (of_int len))
  else if fle x (lit 3 (-2)) then
    let f_index := fmul (fsub x (lit 1 (-1))) (of_int 4) in
    do v <- ms_lerp_unchecked h buffer (fmul f_index (of_int len)) ;
    Ret (fmul (of_int (-1)) v)
  else if flt x (of_int 1) then
    let f_index := fmul (fsub (lit 1 (-2)) (fsub x (lit 3 (-2)))) (of_int 4) in
    do v <- ms_lerp_unchecked h buffer (fmul f_index (of_int len)) ;
    Ret (fmul (of_int (-1)) v)
  else Ret (of_int 0).
End BlRect.
