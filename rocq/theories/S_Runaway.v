(** * Vocabulary: units that stand past the end of their buffer (C109).

    [change_buffer] (src/delay_line.rs:18-21, src/comb.rs:28-31, src/all_pass.rs:20-23) keeps the position of the
    line; with a shorter buffer the position may lie past the end of the new one. *)

From Coq Require Import ZArith List.
From Verif Require Import Base Num M_Memory M_Delay S_Delay.
Import ListNotations.
Open Scope Z_scope.

(** What is left of the allocation of a slice from its position [p] on. *)
Definition rest {F : Type} (h : heap F) (s : mslice) (p : Z) : mslice :=
  match ms_ptr s with
  | PNull => null_slice
  | PAt b o =>
      match nth_error h b with
      | None => null_slice
      | Some blk => MS (PAt b (o + p)) (Z.max 0 (Z.of_nat (length blk) - (o + p)))
      end
  end.

(** The line stands past the end of its buffer, which is not empty. *)
Definition past_end (d : delay_line) : Prop := 1 <= ms_len (dl_buf d) <= dl_idx d.

(** The number of ticks in a sequence of comb calls. *)
Fixpoint comb_ticks {F : Type} (ops : list (comb_op F)) : nat :=
  match ops with
  | [] => O
  | CTick _ :: r => S (comb_ticks r)
  | _ :: r => comb_ticks r
  end.

(** The same comb, its line replaced by a fresh one over another buffer. *)
Definition over {F : Type} (c : comb F) (s : mslice) : comb F :=
  CB (dl_new s) (cb_feedback c) (cb_state c) (cb_damp c) (cb_damp_inv c).
