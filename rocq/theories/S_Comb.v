(** * Vocabulary for the comb filter under changing settings. *)

From Coq Require Import Reals.
From Verif Require Import Base F32 Num M_Delay S_Delay.
Local Open Scope R_scope.

(** A call with an input within [M], a dampening in [0, 15/16] or a feedback within [f]. *)
Definition damp_ok (d : f32) : Prop := fin d = true /\ 0 <= val d <= 15 / 16.
Definition fb_ok (f : R) (g : f32) : Prop := fin g = true /\ Rabs (val g) <= f.
Definition op_ok (M f : R) (op : comb_op f32) : Prop :=
  match op with CTick x => bounded M x | CDamp v => damp_ok v | CFeedback v => fb_ok f v end.

(** The same call in exact arithmetic. *)
Definition real_op (op : comb_op f32) : comb_op R :=
  match op with CTick x => CTick (val x) | CDamp v => CDamp (val v) | CFeedback v => CFeedback (val v) end.
