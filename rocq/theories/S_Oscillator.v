(** * Specification vocabulary for the oscillators (histories of calls). *)

From Coq Require Import ZArith List Bool Reals.
From Flocq Require Import Core.
From Verif Require Import Base F32 Num M_Memory M_Oscillator.
Import ListNotations.
Open Scope Z_scope.

(** A call on a phase accumulator. *)
Inductive pa_call :=
  | CallNext                      (* next_value *)
  | CallNextNormalized            (* next_value_normalized *)
  | CallSetFreq (freq : f32)      (* set_freq_unchecked *)
  | CallSetSr (sr : f32)          (* set_sr_unchecked *)
  | CallSetShift (shift : Z).     (* set_phase_shift *)

(** Arguments that fit their Rust type. *)
Definition call_ok (c : pa_call) : Prop :=
  match c with CallSetShift s => is_u32 s | _ => True end.

Section Run.
Context {NP : NanPolicy}.
(** Execute a history on the model; the state at the end. *)
Definition pa_call_step (a : phase_acc) (c : pa_call) : phase_acc :=
  match c with
  | CallNext => snd (pa_next_value a)
  | CallNextNormalized => snd (pa_next_value_normalized a)
  | CallSetFreq f => pa_set_freq_unchecked a f
  | CallSetSr s => pa_set_sr_unchecked a s
  | CallSetShift s => pa_set_phase_shift a s
  end.
Definition pa_run (a : phase_acc) (cs : list pa_call) : phase_acc := fold_left pa_call_step cs a.

(** Phase increment of one tick at a frequency and a sample rate: the product in f32,
    truncated and saturated to 32 bits. *)
Definition phase_step (freq sr : f32) : Z := to_u32 (fmul freq (fdiv (of_int (2 ^ 32)) sr)).

(** Sum of the increments of a history, given the frequency and rate in force before it. *)
Fixpoint phase_sum (freq sr : f32) (cs : list pa_call) : Z :=
  match cs with
  | [] => 0
  | CallNext :: r | CallNextNormalized :: r => phase_step freq sr + phase_sum freq sr r
  | CallSetFreq f :: r => phase_sum f sr r
  | CallSetSr s :: r => phase_sum freq s r
  | CallSetShift _ :: r => phase_sum freq sr r
  end.

(** The last frequency, rate and shift set by a history. *)
Fixpoint last_freq (freq : f32) (cs : list pa_call) : f32 :=
  match cs with [] => freq | CallSetFreq f :: r => last_freq f r | _ :: r => last_freq freq r end.
Fixpoint last_sr (sr : f32) (cs : list pa_call) : f32 :=
  match cs with [] => sr | CallSetSr s :: r => last_sr s r | _ :: r => last_sr sr r end.
Fixpoint last_shift (s : Z) (cs : list pa_call) : Z :=
  match cs with [] => s | CallSetShift s' :: r => last_shift s' r | _ :: r => last_shift s r end.
End Run.

(** The 32-bit phase the next call will produce, and its real position in the cycle. *)
Definition next_phase {NP : NanPolicy} (a : phase_acc) : Z := fst (pa_next_value a).
Definition turn (z : Z) : R := (IZR z / IZR (2 ^ 32))%R.

(** The ideal triangle over one cycle: -1 at 0, 1 at one half, -1 at 1. *)
Definition ideal_triangle (v : R) : R := (1 - Rabs (4 * v - 2))%R.

(** The last sample of the slice is the last sample of its allocation. *)
Definition ends_allocation (h : heap f32) (s : mslice) : Prop :=
  match ms_ptr s with
  | PNull => True
  | PAt b o => exists blk, nth_error h b = Some blk /\ o + ms_len s = Z.of_nat (length blk)
  end.
