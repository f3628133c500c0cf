(** * Specification vocabulary: histories of calls on whole oscillators. *)

From Coq Require Import ZArith List Bool Reals.
From Flocq Require Import Core.
From Verif Require Import Base F32 F32Lemmas Num M_Memory M_Sine M_Oscillator S_Oscillator.
Import ListNotations.
Open Scope Z_scope.

(** A call on an oscillator; a wavetable oscillator has no waveform to set. *)
Inductive osc_call :=
  | OscNext
  | OscFreq (freq : f32)
  | OscSr (sr : f32)
  | OscShift (turns : f32)
  | OscWave (w : waveform).

(** Execute a history; the samples in order and the oscillator at the end. *)
Fixpoint fo_run {NP : NanPolicy} {B : Build} {MO : MathOps f32} (o : fosc) (cs : list osc_call) : outcome (list f32 * fosc) :=
  match cs with
  | [] => Ret ([], o)
  | OscNext :: r => do yo <- fo_next o ; do q <- fo_run (snd yo) r ; Ret (fst yo :: fst q, snd q)
  | OscFreq f :: r => fo_run (fo_set_freq_unchecked o f) r
  | OscSr s :: r => fo_run (fo_set_sr_unchecked o s) r
  | OscShift t :: r => fo_run (fo_set_phase_shift_unchecked o t) r
  | OscWave w :: r => fo_run (fo_set_wave o w) r
  end.
Fixpoint wo_run {NP : NanPolicy} {B : Build} (h : heap f32) (o : wosc) (cs : list osc_call) : outcome (list f32 * wosc) :=
  match cs with
  | [] => Ret ([], o)
  | OscNext :: r => do yo <- wo_next h o ; do q <- wo_run h (snd yo) r ; Ret (fst yo :: fst q, snd q)
  | OscFreq f :: r => wo_run h (wo_set_freq_unchecked o f) r
  | OscSr s :: r => wo_run h (wo_set_sr_unchecked o s) r
  | OscShift t :: r => wo_run h (wo_set_phase_shift_unchecked o t) r
  | OscWave w :: r => wo_run h o r
  end.

(** What a phase shift given in turns amounts to, in 2^-32 turns: exact (truncated) from 0 up to 1,
    nothing at all for negative numbers and NaN, and the largest shift from 1 on. *)
Definition shift_of (t : f32) : Z :=
  if isnan t then 0
  else if Rle_bool (ext t) 0 then 0
  else if Rle_bool 1 (ext t) then 2 ^ 32 - 1
  else Zfloor (val t * IZR (2 ^ 32)).

(** The same history as seen by the accumulator. *)
Fixpoint acc_calls (cs : list osc_call) : list pa_call :=
  match cs with
  | [] => []
  | OscNext :: r => CallNext :: acc_calls r
  | OscFreq f :: r => CallSetFreq f :: acc_calls r
  | OscSr s :: r => CallSetSr s :: acc_calls r
  | OscShift t :: r => CallSetShift (shift_of t) :: acc_calls r
  | OscWave _ :: r => acc_calls r
  end.
(** The last waveform set. *)
Fixpoint last_wave (w : waveform) (cs : list osc_call) : waveform :=
  match cs with [] => w | OscWave w' :: r => last_wave w' r | _ :: r => last_wave w r end.
Fixpoint nexts (cs : list osc_call) : nat :=
  match cs with [] => 0%nat | OscNext :: r => S (nexts r) | _ :: r => nexts r end.

(** The phase, in 2^-32 turns, of the sample that follows a history of a new oscillator. *)
Definition phase_after {NP : NanPolicy} (freq sr : f32) (cs : list osc_call) : Z :=
  (phase_sum freq sr (acc_calls cs ++ [CallNext]) + last_shift 0 (acc_calls cs)) mod 2 ^ 32.

(** The sample a waveform gives at a phase z. *)
Definition waveform_value (w : waveform) (z : Z) (y : f32) : Prop :=
  match w with
  | Sine => (Rabs (val y - sin (2 * PI * turn z)) <= 16 / 100000)%R
  | Sawtooth => (Rabs (val y - (2 * turn z - 1)) <= pow2 (-23))%R
  | Triangle => (Rabs (val y - ideal_triangle (turn z)) <= pow2 (-21))%R
  | Rectangle => y = of_int (if z <? 2 ^ 31 - 64 then -1 else if z <? 2 ^ 32 - 128 then 1 else 3)
  end.
