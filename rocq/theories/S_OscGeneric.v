(** * Specification vocabulary: oscillators over any phase accumulator. *)

From Coq Require Import ZArith List Bool Reals.
From Flocq Require Import Core.
From Verif Require Import Base F32 F32Lemmas Num M_Memory M_Sine M_Oscillator M_OscGeneric S_Oscillator S_OscHistory S_Memory.
Import ListNotations.
Open Scope Z_scope.

Section Gen.
Context {NP : NanPolicy} {B : Build} {MO : MathOps f32} {S : Type} (I : accumulator S).

(** Execute a history of calls on an oscillator; the samples in order and the oscillator at the end. *)
Fixpoint gf_run (o : gfosc S) (cs : list osc_call) : outcome (list f32 * gfosc S) :=
  match cs with
  | [] => Ret ([], o)
  | OscNext :: r => do yo <- gf_next I o ; do q <- gf_run (snd yo) r ; Ret (fst yo :: fst q, snd q)
  | OscFreq f :: r => do o' <- gf_set_freq I o f ; gf_run o' r
  | OscSr s :: r => do o' <- gf_set_sr I o s ; gf_run o' r
  | OscShift t :: r => do o' <- gf_set_shift I o t ; gf_run o' r
  | OscWave w :: r => gf_run (gf_set_wave o w) r
  end.
Fixpoint gw_run (h : heap f32) (o : gwosc S) (cs : list osc_call) : outcome (list f32 * gwosc S) :=
  match cs with
  | [] => Ret ([], o)
  | OscNext :: r => do yo <- gw_next I h o ; do q <- gw_run h (snd yo) r ; Ret (fst yo :: fst q, snd q)
  | OscFreq f :: r => do o' <- gw_set_freq I o f ; gw_run h o' r
  | OscSr s :: r => do o' <- gw_set_sr I o s ; gw_run h o' r
  | OscShift t :: r => do o' <- gw_set_shift I o t ; gw_run h o' r
  | OscWave w :: r => gw_run h o r
  end.

(** The accumulator alone, told the same things: one [next_value_normalized] per sample, each
    setting handed on as it is, a shift in turns as [shift_of] of it, a waveform not at all.
    The phases it gave and its state at the end. *)
Fixpoint drive (a : S) (cs : list osc_call) : outcome (list f32 * S) :=
  match cs with
  | [] => Ret ([], a)
  | OscNext :: r => do va <- ac_next_norm I a ; do q <- drive (snd va) r ; Ret (fst va :: fst q, snd q)
  | OscFreq f :: r => do a' <- ac_set_freq I a f ; drive a' r
  | OscSr s :: r => do a' <- ac_set_sr I a s ; drive a' r
  | OscShift t :: r => do a' <- ac_set_shift I a (shift_of t) ; drive a' r
  | OscWave _ :: r => drive a r
  end.
End Gen.

(** The waveform in force at each [next]. *)
Fixpoint waves (w : waveform) (cs : list osc_call) : list waveform :=
  match cs with
  | [] => []
  | OscNext :: r => w :: waves w r
  | OscWave w' :: r => waves w' r
  | _ :: r => waves w r
  end.

(** What a waveform gives for a phase v, an f32 the accumulator answered. The sine is finite and
    in range whatever v is; the rest is about phases from 0 to 1. *)
Definition shape (w : waveform) (v y : f32) : Prop :=
  match w with
  | Sine => fin y = true /\ (rnd (-32768 / 32767) <= val y <= 1)%R /\
      (fin v = true -> (0 <= val v <= 1)%R -> (Rabs (val y - sin (2 * PI * val v)) <= 16 / 100000)%R)
  | Sawtooth => fin v = true -> (0 <= val v <= 1)%R ->
      fin y = true /\ (-1 <= val y <= 1)%R /\ val y = rnd (2 * val v - 1)
  | Triangle => fin v = true -> (0 <= val v <= 1)%R ->
      fin y = true /\ (-1 <= val y <= 1)%R /\ (Rabs (val y - ideal_triangle (val v)) <= pow2 (-22))%R
  | Rectangle => fin v = true -> (0 <= val v <= 1)%R ->
      ((val v < 1 / 2)%R -> y = of_int (-1)) /\ ((1 / 2 <= val v < 1)%R -> y = of_int 1) /\ (val v = 1%R -> y = of_int 3)
  end.

(** The sample k + 1 of a table of n samples, k the integer part of the f32 product n v, is in the table. *)
Definition table_pos_of (n : Z) (v : f32) : R := rnd (IZR n * val v).
Definition inside_table (n : Z) (v : f32) : Prop :=
  fin v = true /\ (0 <= val v <= 1)%R /\ Zfloor (table_pos_of n v) + 1 < n.

(** The value of a table between two of its samples. *)
Definition table_value (l : list f32) (n : Z) (v y : f32) : Prop :=
  let x := table_pos_of n v in let k := Zfloor x in let f := (x - IZR k)%R in
  exists p q, nthz l k = Some p /\ nthz l (k + 1) = Some q /\ fin y = true /\
    (Rabs (val y - (val p * (1 - f) + val q * f)) <= pow2 (-22) * Rmax (Rabs (val p)) (Rabs (val q)) + pow2 (-148))%R.
