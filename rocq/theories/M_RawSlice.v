(** * Model of the raw slice accessors of src/memory/memory_slice.rs and of the units built on it. *)

From Coq Require Import ZArith List Bool.
From Verif Require Import Base F32 Num M_Memory M_Delay.
Import ListNotations.
Open Scope Z_scope.

(** A raw slice pointer [*const [f32]] / [*mut [f32]] (language semantics): address and length. *)
Record rawslice := RS { rs_ptr : ptr; rs_len : Z }.

(** src/memory/memory_slice.rs:280-283 ([as_slice]) *)
Definition as_slice (s : mslice) : rawslice := RS (ms_ptr s) (ms_len s).
(** src/memory/memory_slice.rs:333-336 ([as_slice_mut]) *)
Definition as_slice_mut (s : mslice) : rawslice := RS (ms_ptr s) (ms_len s).

(** src/delay_line.rs:23-26 *)
Definition dl_get_ptr_slice_mut (d : delay_line) : rawslice := as_slice_mut (dl_buf d).
(** src/all_pass.rs:25-27 *)
Definition ap_get_ptr_slice_mut (a : all_pass) : rawslice := dl_get_ptr_slice_mut (ap_dl a).
(** src/comb.rs:33-35 *)
Definition cb_get_ptr_slice_mut {F} (c : comb F) : rawslice := dl_get_ptr_slice_mut (cb_dl c).

(** What a caller does with one (language semantics): index and store through the dereferenced
    pointer, bounds-checked against the length the raw slice carries. *)
Definition raw_index {F} (h : heap F) (r : rawslice) (i : Z) : outcome F :=
  if i <? rs_len r then do p <- ptr_add h (rs_ptr r) i ; ptr_read h p else Panic.
Definition raw_store {F} (h : heap F) (r : rawslice) (i : Z) (v : F) : outcome (heap F) :=
  if i <? rs_len r then do p <- ptr_add h (rs_ptr r) i ; ptr_write h p v else Panic.
