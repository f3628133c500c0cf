(** * The calls on slices and units, one memory access at a time.

    Threads interleave between memory accesses, not between calls. This file writes the
    calls of src/memory/memory_slice.rs, delay_line.rs, all_pass.rs and comb.rs as
    programs whose steps are single samples read or written; [exec] runs one without
    interruption. T_Threads.v proves that it then is the call of M_Memory.v or M_Delay.v.
    [read_volatile] and [write_volatile] are single accesses, and memory is sequentially
    consistent: in Rust that holds for programs without data races, which is what the
    theorems establish first. *)

From Coq Require Import ZArith List Bool.
From Verif Require Import Base F32 Num M_Memory M_Delay.
Import ListNotations.
Open Scope Z_scope.

Section Prog.
Context {F : Type}.

(** Language semantics: a program is finished, or reads or writes sample [i] of [s]. *)
Inductive prog (A : Type) :=
| Done (o : outcome A)
| Load (s : mslice) (i : Z) (k : F -> prog A)
| Store (s : mslice) (i : Z) (v : F) (k : prog A).
Arguments Done {A} o.
Arguments Load {A} s i k.
Arguments Store {A} s i v k.

Fixpoint exec {A} (h : heap F) (p : prog A) : outcome (heap F * A) :=
  match p with
  | Done o => do a <- o ; Ret (h, a)
  | Load s i k => do v <- get_unchecked h s i ; exec h (k v)
  | Store s i v k => do h' <- assign_unchecked h s i v ; exec h' k
  end.

(** Run [p], then [k] on its result. *)
Fixpoint pbind {A C} (p : prog A) (k : A -> prog C) : prog C :=
  match p with
  | Done (Ret a) => k a
  | Done Panic => Done Panic
  | Done UB => Done UB
  | Load s i f => Load s i (fun v => pbind (f v) k)
  | Store s i v q => Store s i v (pbind q k)
  end.

Context {NF : Num F} {B : Build}.

(** src/memory/memory_slice.rs:142-148 *)
Definition p_get (s : mslice) (index : Z) : prog (result F MemSliceError) :=
  if ms_len s <=? index then Done (Ret (Err IndexOutOfBound))
  else Load s index (fun v => Done (Ret (Ok v))).

(** src/memory/memory_slice.rs:303-313 *)
Definition p_assign (s : mslice) (index : Z) (v : F) : prog (result unit MemSliceError) :=
  if ms_len s <=? index then Done (Ret (Err IndexOutOfBound))
  else Store s index v (Done (Ret (Ok tt))).

(** src/memory/memory_slice.rs:154-166 *)
Definition p_get_wrapped (s : mslice) (index : Z) : prog F :=
  if (as_isize (ms_len s) <=? index) || (index <? 0) then
    pbind (Done (isize_rem_euclid index (as_isize (ms_len s))))
      (fun r => Load s (as_usize r) (fun v => Done (Ret v)))
  else Load s (as_usize index) (fun v => Done (Ret v)).

(** src/delay_line.rs:28-30 *)
Definition p_dl_read (d : delay_line) : prog F := Load (dl_buf d) (dl_idx d) (fun v => Done (Ret v)).

(** src/delay_line.rs:32-34 *)
Definition p_dl_read_wrapped_at (d : delay_line) (offset : Z) : prog F :=
  pbind (Done (isize_add (as_isize (dl_idx d)) offset)) (fun i => p_get_wrapped (dl_buf d) i).

(** src/delay_line.rs:44-54 *)
Definition p_dl_write_and_advance (d : delay_line) (v : F) : prog delay_line :=
  Store (dl_buf d) (dl_idx d) v (Done (dl_advance d)).

Local Open Scope num_scope.

(** src/all_pass.rs:29-39 *)
Definition p_ap_tick (a : all_pass) (input : F) : prog (all_pass * F) :=
  pbind (p_dl_read (ap_dl a)) (fun delayed =>
  pbind (p_dl_write_and_advance (ap_dl a) (input + delayed * ndy 1 (-1))) (fun d' =>
  Done (Ret (AP d', (- input) + delayed)))).

(** src/comb.rs:46-55 *)
Definition p_cb_tick (c : comb F) (input : F) : prog (comb F * F) :=
  pbind (p_dl_read (cb_dl c)) (fun output =>
  let st := output * cb_damp_inv c + cb_state c * cb_damp c in
  pbind (p_dl_write_and_advance (cb_dl c) (input + st * cb_feedback c)) (fun d' =>
  Done (Ret (CB d' (cb_feedback c) st (cb_damp c) (cb_damp_inv c), output)))).
End Prog.
Arguments prog F A : clear implicits.
Arguments Done {F A} o.
Arguments Load {F A} s i k.
Arguments Store {F A} s i v k.
