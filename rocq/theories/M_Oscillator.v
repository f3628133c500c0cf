(** * Model of src/oscillator/phase_accumulator.rs, osc_functional.rs and
    osc_wavetable.rs.

    The oscillators are generic over [PA : PhaseAccumulator]; the model fixes [PA] to
    [SoftPhaseAccumulator], the only implementation in the crate. *)

From Coq Require Import ZArith List Bool.
From Verif Require Import Base F32 Num M_Memory M_Sine.
Import ListNotations.
Open Scope Z_scope.

(** [u32::MAX as f32] (src/oscillator/phase_accumulator.rs:21,27,49 and
    osc_functional.rs:71): the cast rounds to nearest, giving 2^32. *)
Definition u32_max_f : f32 := of_int (2 ^ 32 - 1).

(** src/oscillator/phase_accumulator.rs:53-59 *)
Record phase_acc := PA { pa_counter : Z; pa_freq : f32; pa_shift : Z; pa_min_step : f32 }.

(** src/oscillator/phase_accumulator.rs:61-65 *)
Inductive FrequencyError := FreqZero | FreqNegative | BiggerThanNyquist.

Section Acc.
Context {NP : NanPolicy}.

(** src/oscillator/phase_accumulator.rs:16-23 *)
Definition pa_new (freq sr : f32) : phase_acc := PA 0 freq 0 (fdiv u32_max_f sr).

(** src/oscillator/phase_accumulator.rs:26-28 *)
Definition pa_set_sr_unchecked (a : phase_acc) (sr : f32) : phase_acc :=
  PA (pa_counter a) (pa_freq a) (pa_shift a) (fdiv u32_max_f sr).

(** src/oscillator/phase_accumulator.rs:31-33 *)
Definition pa_set_freq_unchecked (a : phase_acc) (freq : f32) : phase_acc :=
  PA (pa_counter a) freq (pa_shift a) (pa_min_step a).

(** src/oscillator/phase_accumulator.rs:36-38 *)
Definition pa_set_phase_shift (a : phase_acc) (shift : Z) : phase_acc :=
  PA (pa_counter a) (pa_freq a) shift (pa_min_step a).

(** src/oscillator/phase_accumulator.rs:69-73 *)
Definition pa_tick (a : phase_acc) : phase_acc :=
  PA (u32_wrapping_add (pa_counter a) (to_u32 (fmul (pa_freq a) (pa_min_step a))))
     (pa_freq a) (pa_shift a) (pa_min_step a).

(** src/oscillator/phase_accumulator.rs:41-44 *)
Definition pa_next_value (a : phase_acc) : Z * phase_acc :=
  let a := pa_tick a in (u32_wrapping_add (pa_counter a) (pa_shift a), a).

(** src/oscillator/phase_accumulator.rs:47-50 *)
Definition pa_next_value_normalized (a : phase_acc) : f32 * phase_acc :=
  let a := pa_tick a in
  (fdiv (of_int (u32_wrapping_add (pa_counter a) (pa_shift a))) (fadd u32_max_f (of_int 1)), a).

(** src/oscillator/phase_accumulator.rs:75-85. [self] is taken by value (the type is
    neither [Copy] nor [Clone]) and dropped at the end; the second component is what is
    left in the local [self] at that moment, which no caller can reach. *)
Definition pa_set_freq (self : phase_acc) (freq : f32) : result unit FrequencyError * phase_acc :=
  if feq freq (of_int 0) then (Err FreqZero, self)
  else if flt freq (of_int 0) then (Err FreqNegative, self)
  else (Ok tt, pa_set_freq_unchecked self freq).
End Acc.

(** src/oscillator/mod.rs:10-16 *)
Inductive waveform := Sine | Rectangle | Sawtooth | Triangle.

(** src/oscillator/osc_functional.rs:13-20 *)
Record fosc := FO { fo_acc : phase_acc; fo_wave : waveform }.

Section Osc.
Context {NP : NanPolicy} {B : Build} {MO : MathOps f32}.

(** src/oscillator/osc_functional.rs:23-28 *)
Definition fo_new (a : phase_acc) : fosc := FO a Sine.

(** src/oscillator/osc_functional.rs:40-42 *)
Definition fo_next_saw (o : fosc) : f32 * fosc :=
  let '(v, a) := pa_next_value_normalized (fo_acc o) in
  (fsub (fmul v (of_int 2)) (of_int 1), FO a (fo_wave o)).

(** src/oscillator/osc_functional.rs:45-47 *)
Definition fo_next_rect (o : fosc) : f32 * fosc :=
  let '(s, o) := fo_next_saw o in
  (fsub (fmul (m_floor (fadd s (of_int 1))) (of_int 2)) (of_int 1), o).

(** src/oscillator/osc_functional.rs:50-52 *)
Definition fo_next_sine (o : fosc) : outcome (f32 * fosc) :=
  let '(v, a) := pa_next_value_normalized (fo_acc o) in
  do y <- fixed_point_sin (lerp_unchecked (of_int 0) f_tau v) ;
  Ret (y, FO a (fo_wave o)).

(** src/oscillator/osc_functional.rs:55-62 *)
Definition fo_next_tri (o : fosc) : f32 * fosc :=
  let '(x, o) := fo_next_saw o in
  if is_sign_positive x
  then (fsub (fmul (fsub (of_int 1) x) (of_int 2)) (of_int 1), o)
  else (fsub (fmul (fsub (of_int 1) (fneg x)) (of_int 2)) (of_int 1), o).

(** src/oscillator/osc_functional.rs:30-37 *)
Definition fo_next (o : fosc) : outcome (f32 * fosc) :=
  match fo_wave o with
  | Sine => fo_next_sine o
  | Rectangle => Ret (fo_next_rect o)
  | Sawtooth => Ret (fo_next_saw o)
  | Triangle => Ret (fo_next_tri o)
  end.

(** [(shift * u32::MAX as f32) as u32], src/oscillator/osc_functional.rs:71 and
    osc_wavetable.rs:37 *)
Definition shift_u32 (shift : f32) : Z := to_u32 (fmul shift u32_max_f).

(** src/oscillator/osc_functional.rs:65-67 *)
Definition fo_set_freq_unchecked (o : fosc) (freq : f32) : fosc :=
  FO (pa_set_freq_unchecked (fo_acc o) freq) (fo_wave o).
(** src/oscillator/osc_functional.rs:70-72 *)
Definition fo_set_phase_shift_unchecked (o : fosc) (shift : f32) : fosc :=
  FO (pa_set_phase_shift (fo_acc o) (shift_u32 shift)) (fo_wave o).
(** src/oscillator/osc_functional.rs:75-77 *)
Definition fo_set_wave (o : fosc) (w : waveform) : fosc := FO (fo_acc o) w.
(** src/oscillator/osc_functional.rs:80-82 *)
Definition fo_set_sr_unchecked (o : fosc) (sr : f32) : fosc :=
  FO (pa_set_sr_unchecked (fo_acc o) sr) (fo_wave o).

(** src/oscillator/osc_wavetable.rs:6-12 *)
Record wosc := WO { wo_table : mslice; wo_acc : phase_acc }.

(** src/oscillator/osc_wavetable.rs:15-17 *)
Definition wo_new (t : mslice) (a : phase_acc) : wosc := WO t a.

(** src/oscillator/osc_wavetable.rs:19-28 *)
Definition wo_next (h : heap f32) (o : wosc) : outcome (f32 * wosc) :=
  let '(v, a) := pa_next_value_normalized (wo_acc o) in
  do y <- ms_lerp_unchecked h (wo_table o) (fmul (of_int (ms_len (wo_table o))) v) ;
  Ret (y, WO (wo_table o) a).

(** src/oscillator/osc_wavetable.rs:31-33 *)
Definition wo_set_freq_unchecked (o : wosc) (freq : f32) : wosc :=
  WO (wo_table o) (pa_set_freq_unchecked (wo_acc o) freq).
(** src/oscillator/osc_wavetable.rs:36-38 *)
Definition wo_set_phase_shift_unchecked (o : wosc) (shift : f32) : wosc :=
  WO (wo_table o) (pa_set_phase_shift (wo_acc o) (shift_u32 shift)).
(** src/oscillator/osc_wavetable.rs:41-43 *)
Definition wo_set_sr_unchecked (o : wosc) (sr : f32) : wosc :=
  WO (wo_table o) (pa_set_sr_unchecked (wo_acc o) sr).
End Osc.
