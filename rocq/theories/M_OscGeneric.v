(** * Model of src/oscillator/osc_functional.rs and osc_wavetable.rs over any
    [PhaseAccumulator].

    The trait is public, so the oscillators can be built over an accumulator that is not in
    the crate. An implementation is any state type with five functions; each of them may
    panic. [M_Oscillator.v] has the same code with [SoftPhaseAccumulator] filled in. *)

From Coq Require Import ZArith List Bool.
From Verif Require Import Base F32 Num M_Memory M_Sine M_Oscillator.
Import ListNotations.
Open Scope Z_scope.

(** src/oscillator/phase_accumulator.rs:3-11. [new] (line 5) is left out: the oscillators take
    an accumulator that is already built. Simplification: an implementation changes its own
    state only, so it has no access to the memory the oscillators read. *)
Record accumulator (S : Type) := Acc {
  ac_set_sr : S -> f32 -> outcome S;          (* set_sr_unchecked, line 6 *)
  ac_set_freq : S -> f32 -> outcome S;        (* set_freq_unchecked, line 7 *)
  ac_set_shift : S -> Z -> outcome S;         (* set_phase_shift, line 8 *)
  ac_next : S -> outcome (Z * S);             (* next_value, line 9 *)
  ac_next_norm : S -> outcome (f32 * S)       (* next_value_normalized, line 10 *)
}.
Arguments Acc {S}. Arguments ac_set_sr {S}. Arguments ac_set_freq {S}. Arguments ac_set_shift {S}.
Arguments ac_next {S}. Arguments ac_next_norm {S}.

(** src/oscillator/phase_accumulator.rs:13-51: the implementation in the crate. *)
Definition soft_acc {NP : NanPolicy} : accumulator phase_acc :=
  Acc (fun a x => Ret (pa_set_sr_unchecked a x)) (fun a x => Ret (pa_set_freq_unchecked a x))
      (fun a n => Ret (pa_set_phase_shift a n)) (fun a => Ret (pa_next_value a)) (fun a => Ret (pa_next_value_normalized a)).

(** src/oscillator/osc_functional.rs:13-20 *)
Record gfosc (S : Type) := GF { gf_acc : S; gf_wave : waveform }.
Arguments GF {S}. Arguments gf_acc {S}. Arguments gf_wave {S}.
(** src/oscillator/osc_wavetable.rs:6-12 *)
Record gwosc (S : Type) := GW { gw_table : mslice; gw_acc : S }.
Arguments GW {S}. Arguments gw_table {S}. Arguments gw_acc {S}.

Section Osc.
Context {NP : NanPolicy} {B : Build} {MO : MathOps f32} {S : Type} (I : accumulator S).

(** src/oscillator/osc_functional.rs:23-28 *)
Definition gf_new (a : S) : gfosc S := GF a Sine.

(** src/oscillator/osc_functional.rs:40-42 *)
Definition gf_next_saw (o : gfosc S) : outcome (f32 * gfosc S) :=
  do r <- ac_next_norm I (gf_acc o) ;
  Ret (fsub (fmul (fst r) (of_int 2)) (of_int 1), GF (snd r) (gf_wave o)).

(** src/oscillator/osc_functional.rs:45-47 *)
Definition gf_next_rect (o : gfosc S) : outcome (f32 * gfosc S) :=
  do r <- gf_next_saw o ;
  Ret (fsub (fmul (m_floor (fadd (fst r) (of_int 1))) (of_int 2)) (of_int 1), snd r).

(** src/oscillator/osc_functional.rs:50-52 *)
Definition gf_next_sine (o : gfosc S) : outcome (f32 * gfosc S) :=
  do r <- ac_next_norm I (gf_acc o) ;
  do y <- fixed_point_sin (lerp_unchecked (of_int 0) f_tau (fst r)) ;
  Ret (y, GF (snd r) (gf_wave o)).

(** src/oscillator/osc_functional.rs:55-62 *)
Definition gf_next_tri (o : gfosc S) : outcome (f32 * gfosc S) :=
  do r <- gf_next_saw o ;
  if is_sign_positive (fst r)
  then Ret (fsub (fmul (fsub (of_int 1) (fst r)) (of_int 2)) (of_int 1), snd r)
  else Ret (fsub (fmul (fsub (of_int 1) (fneg (fst r))) (of_int 2)) (of_int 1), snd r).

(** src/oscillator/osc_functional.rs:30-37 *)
Definition gf_next (o : gfosc S) : outcome (f32 * gfosc S) :=
  match gf_wave o with
  | Sine => gf_next_sine o
  | Rectangle => gf_next_rect o
  | Sawtooth => gf_next_saw o
  | Triangle => gf_next_tri o
  end.

(** src/oscillator/osc_functional.rs:65-67 *)
Definition gf_set_freq (o : gfosc S) (freq : f32) : outcome (gfosc S) :=
  do a <- ac_set_freq I (gf_acc o) freq ; Ret (GF a (gf_wave o)).
(** src/oscillator/osc_functional.rs:70-72 *)
Definition gf_set_shift (o : gfosc S) (shift : f32) : outcome (gfosc S) :=
  do a <- ac_set_shift I (gf_acc o) (to_u32 (fmul shift u32_max_f)) ; Ret (GF a (gf_wave o)).
(** src/oscillator/osc_functional.rs:75-77 *)
Definition gf_set_wave (o : gfosc S) (w : waveform) : gfosc S := GF (gf_acc o) w.
(** src/oscillator/osc_functional.rs:80-82 *)
Definition gf_set_sr (o : gfosc S) (sr : f32) : outcome (gfosc S) :=
  do a <- ac_set_sr I (gf_acc o) sr ; Ret (GF a (gf_wave o)).

(** src/oscillator/osc_wavetable.rs:15-17 *)
Definition gw_new (t : mslice) (a : S) : gwosc S := GW t a.

(** src/oscillator/osc_wavetable.rs:19-28 *)
Definition gw_next (h : heap f32) (o : gwosc S) : outcome (f32 * gwosc S) :=
  do r <- ac_next_norm I (gw_acc o) ;
  do y <- ms_lerp_unchecked h (gw_table o) (fmul (of_int (ms_len (gw_table o))) (fst r)) ;
  Ret (y, GW (gw_table o) (snd r)).

(** src/oscillator/osc_wavetable.rs:31-33 *)
Definition gw_set_freq (o : gwosc S) (freq : f32) : outcome (gwosc S) :=
  do a <- ac_set_freq I (gw_acc o) freq ; Ret (GW (gw_table o) a).
(** src/oscillator/osc_wavetable.rs:36-38 *)
Definition gw_set_shift (o : gwosc S) (shift : f32) : outcome (gwosc S) :=
  do a <- ac_set_shift I (gw_acc o) (to_u32 (fmul shift u32_max_f)) ; Ret (GW (gw_table o) a).
(** src/oscillator/osc_wavetable.rs:41-43 *)
Definition gw_set_sr (o : gwosc S) (sr : f32) : outcome (gwosc S) :=
  do a <- ac_set_sr I (gw_acc o) sr ; Ret (GW (gw_table o) a).
End Osc.
