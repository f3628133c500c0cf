(** * Model of src/stereo.rs, src/decibels.rs, src/clipping.rs and src/float/dsp_util.rs. *)

From Coq Require Import ZArith List Bool.
From Verif Require Import Base F32 Num.
Import ListNotations.
Open Scope Z_scope.

(** src/stereo.rs:6-10 *)
Inductive PanningError := TooLeft | TooRight.

(** [core::num::FpCategory] *)
Inductive FpCategory := Nan | Infinite | Zero | Subnormal | Normal.

Section Levels.
Context {F : Type} {NF : Num F} {MO : MathOps F}.
Local Open Scope num_scope.

(** ** src/stereo.rs *)

(** src/stereo.rs:12-23 *)
Definition check_pan_error (amount : F) : result F PanningError :=
  if amount <? nint (-1) then Err TooLeft
  else if nint 1 <? amount then Err TooRight
  else Ok amount.

(** src/stereo.rs:59-62 *)
Definition equal_amplitude_pan_unchecked (amount : F) : F * F :=
  ((nint 1 - amount) * ndy 1 (-1), (nint 1 + amount) * ndy 1 (-1)).

(** src/stereo.rs:64-68 *)
Definition equal_power_pan_unchecked (amount : F) : F * F :=
  let linear := equal_amplitude_pan_unchecked amount in
  (m_sqrt (fst linear), m_sqrt (snd linear)).

(** src/stereo.rs:41-45 *)
Definition stereo_pan_unchecked (amount : F) (samples : F * F) : F * F :=
  let pan := equal_power_pan_unchecked amount in
  (fst samples * fst pan, snd samples * snd pan).

(** src/stereo.rs:47-51 *)
Definition mono_pan_unchecked (amount sample : F) : F * F :=
  let pan := equal_amplitude_pan_unchecked amount in
  (sample * fst pan, sample * snd pan).

(** src/stereo.rs:53-57 *)
Definition crossfade_correlated_unchecked (amount : F) (sample : F * F) : F :=
  let pan := equal_amplitude_pan_unchecked amount in
  fst sample * fst pan + snd sample * snd pan.

(** src/stereo.rs:29-31 *)
Definition stereo_pan (amount : F) (samples : F * F) : result (F * F) PanningError :=
  match check_pan_error amount with
  | Ok a => Ok (stereo_pan_unchecked a samples)
  | Err e => Err e
  end.

(** src/stereo.rs:33-35 *)
Definition mono_pan (amount sample : F) : result (F * F) PanningError :=
  match check_pan_error amount with
  | Ok a => Ok (mono_pan_unchecked a sample)
  | Err e => Err e
  end.

(** ** src/decibels.rs *)

(** src/decibels.rs:21-24 *)
Definition to_decibels_unchecked (x : F) : F := nint 20 * m_log10 x.

(** src/decibels.rs:26-33 *)
Definition to_decibels (x : F) : result F FpCategory :=
  if x <? nint 0 then Err Nan else Ok (to_decibels_unchecked x).

(** src/decibels.rs:35-46 *)
Definition to_decibels_checked (x : F) : result F FpCategory :=
  if x <? nint 0 then Err Nan
  else if x =? nint 0 then Err Infinite
  else Ok (to_decibels_unchecked x).

(** src/decibels.rs:48-51 *)
Definition to_volt_ratio (x : F) : F := m_powf (nint 10) (x / nint 20).

(** ** src/clipping.rs; [todo!()] panics *)

(** src/clipping.rs:8-16 *)
Definition tanh_clip (sample : F) : outcome F :=
  if nint 1 <? sample then Ret (nint 1)
  else if sample <? nint (-1) then Ret (nint (-1))
  else Panic.

(** src/clipping.rs:18-26 *)
Definition poly_clip (sample _n : F) : outcome F :=
  if nint 1 <? sample then Ret (nint 1)
  else if sample <? nint (-1) then Ret (nint (-1))
  else Panic.

(** src/clipping.rs:28-36 *)
Definition sigmoid_clip (sample _k : F) : outcome F :=
  if nint 1 <? sample then Ret (nint 1)
  else if sample <? nint (-1) then Ret (nint (-1))
  else Panic.

(** ** src/float/dsp_util.rs *)

(** src/float/dsp_util.rs:21-24 *)
Definition samples_to_seconds (x sr : F) : F := x / sr.
(** src/float/dsp_util.rs:34-37 *)
Definition samples_to_millis (x sr : F) : F := (x / sr) * nint 1000.
(** src/float/dsp_util.rs:47-50 *)
Definition seconds_to_samples (x sr : F) : F := x * sr.
(** src/float/dsp_util.rs:60-63 *)
Definition millis_to_samples (x sr : F) : F := (x * sr) / nint 1000.
End Levels.

(** src/clipping.rs:4-6 *)
Definition digital_clip (sample : f32) : outcome f32 := fclamp sample (of_int (-1)) (of_int 1).
