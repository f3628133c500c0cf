(** * Model of src/delay_line.rs, src/all_pass.rs and src/comb.rs. *)

From Coq Require Import ZArith List Bool.
From Verif Require Import Base F32 Num M_Memory.
Import ListNotations.
Open Scope Z_scope.

Section Delay.
Context {F : Type} {NF : Num F} {MO : MathOps F} {B : Build}.

(** src/delay_line.rs:6-11 *)
Record delay_line := DL { dl_buf : mslice; dl_idx : Z }.

(** src/delay_line.rs:14-16 *)
Definition dl_new (buffer : mslice) : delay_line := DL buffer 0.

(** src/delay_line.rs:18-21 *)
Definition dl_change_buffer (d : delay_line) (s : mslice) : delay_line := DL s (dl_idx d).

(** src/delay_line.rs:28-30 *)
Definition dl_read (h : heap F) (d : delay_line) : outcome F :=
  get_unchecked h (dl_buf d) (dl_idx d).

(** src/delay_line.rs:32-34 *)
Definition dl_read_wrapped_at (h : heap F) (d : delay_line) (offset : Z) : outcome F :=
  do i <- isize_add (as_isize (dl_idx d)) offset ; get_wrapped h (dl_buf d) i.

(** src/delay_line.rs:36-38 *)
Definition dl_read_lerp_wrapped_at (h : heap F) (d : delay_line) (offset : F) : outcome F :=
  ms_lerp_wrapped h (dl_buf d) (nadd (nint (dl_idx d)) offset).

(** src/delay_line.rs:40-42 *)
Definition dl_read_lagrange_wrapped_at (h : heap F) (d : delay_line) (offset : F) : outcome F :=
  lagrange_wrapped h (dl_buf d) (nadd (nint (dl_idx d)) offset) 5.

(** src/delay_line.rs:49-53 = 57-61 ([advance]) *)
Definition dl_advance (d : delay_line) : outcome delay_line :=
  do l1 <- usize_sub (ms_len (dl_buf d)) 1 ;
  if dl_idx d =? l1 then Ret (DL (dl_buf d) 0)
  else do i <- usize_add (dl_idx d) 1 ; Ret (DL (dl_buf d) i).

(** src/delay_line.rs:44-54 *)
Definition dl_write_and_advance (h : heap F) (d : delay_line) (v : F)
  : outcome (heap F * delay_line) :=
  do h' <- assign_unchecked h (dl_buf d) (dl_idx d) v ;
  do d' <- dl_advance d ;
  Ret (h', d').

(** src/delay_line.rs:64-66 *)
Definition dl_len (d : delay_line) : Z := ms_len (dl_buf d).

(** src/all_pass.rs:7-18; [change_buffer] (20-23) is [dl_change_buffer] on the field. *)
Record all_pass := AP { ap_dl : delay_line }.
Definition ap_new (buffer : mslice) : all_pass := AP (dl_new buffer).
Definition ap_change_buffer (a : all_pass) (s : mslice) : all_pass := AP (dl_change_buffer (ap_dl a) s).

Local Open Scope num_scope.

(** src/all_pass.rs:29-39 *)
Definition ap_tick (h : heap F) (a : all_pass) (input : F) : outcome (heap F * all_pass * F) :=
  do delayed <- dl_read h (ap_dl a) ;
  let output := (- input) + delayed in
  let feedback := ndy 1 (-1) in
  do w <- dl_write_and_advance h (ap_dl a) (input + delayed * feedback) ;
  let '(h', d') := w in
  Ret (h', AP d', output).

(** src/comb.rs:7-15 *)
Record comb := CB {
  cb_dl : delay_line; cb_feedback : F; cb_state : F; cb_damp : F; cb_damp_inv : F }.

(** src/comb.rs:18-26 *)
Definition cb_new (buffer : mslice) : comb :=
  CB (dl_new buffer) (ndy 1 (-1)) (nint 0) (ndy 1 (-1)) (ndy 1 (-1)).

(** src/comb.rs:28-31 *)
Definition cb_change_buffer (c : comb) (s : mslice) : comb :=
  CB (dl_change_buffer (cb_dl c) s) (cb_feedback c) (cb_state c) (cb_damp c) (cb_damp_inv c).

(** src/comb.rs:37-40 *)
Definition cb_set_dampening (c : comb) (value : F) : comb :=
  CB (cb_dl c) (cb_feedback c) (cb_state c) value (nint 1 - value).

(** src/comb.rs:42-44 *)
Definition cb_set_feedback (c : comb) (value : F) : comb :=
  CB (cb_dl c) value (cb_state c) (cb_damp c) (cb_damp_inv c).

(** src/comb.rs:46-55 *)
Definition cb_tick (h : heap F) (c : comb) (input : F) : outcome (heap F * comb * F) :=
  do output <- dl_read h (cb_dl c) ;
  let st := output * cb_damp_inv c + cb_state c * cb_damp c in
  do w <- dl_write_and_advance h (cb_dl c) (input + st * cb_feedback c) ;
  let '(h', d') := w in
  Ret (h', CB d' (cb_feedback c) st (cb_damp c) (cb_damp_inv c), output).
End Delay.
Arguments comb F : clear implicits.
