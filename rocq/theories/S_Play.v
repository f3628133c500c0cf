(** * Specification for C122: playing an instrument. *)

From Coq Require Import ZArith List Bool Reals.
From Verif Require Import Base F32 Num M_Memory M_Delay M_Biquad M_Oscillator M_Envelope S_Memory S_BiquadF32 S_Comb S_Tail S_Envelope S_Network S_Voice S_Live.
Import ListNotations.

(** What a program does with a voice (C112) and a network of effects behind it (C115): something with the voice, or a
    setter call to one part of the network. *)
Inductive pop := PVoice (v : vop) | PTurn (w : list bool) (k : knob f32).

Section Play.
Context {NP : NanPolicy} {B : Build} {MO : MathOps f32}.
(** Every sample of the voice goes through the network at once. *)
Fixpoint play (h : heap f32) (n : net f32) (s : voice) (ops : list pop) : outcome (heap f32 * net f32 * voice * list f32) :=
  match ops with
  | [] => Ret (h, n, s, [])
  | PTurn w k :: r => play h (turn n w k) s r
  | PVoice v :: r =>
      do p <- voice_step v s ;
      do a <- net_run h n (fst p) ;
      do b <- play (fst (fst a)) (snd (fst a)) (snd p) r ;
      Ret (fst b, snd a ++ snd b)
  end.
End Play.

(** What the voice and what the network get to see. *)
Definition voice_part (ops : list pop) : list vop := flat_map (fun op => match op with PVoice v => [v] | _ => [] end) ops.
Definition effect_part (ops : list pop) : list (event f32) :=
  flat_map (fun op => match op with PVoice VSample => [S_Live.Tick (of_int 0)] | PVoice _ => [] | PTurn w k => [Turn w k] end) ops.

(** All buffers hold zeros and all settings, at the start and in every call, are finite (the dampening within [0, 15/16]). *)
Definition calm_comb (ev : event f32) : Prop :=
  match ev with Turn [] (KDamp v) => damp_ok v | Turn [] (KFeedback v) => fin v = true | _ => True end.
Definition calm_filter (ev : event f32) : Prop := match ev with Turn [] (KCoeffs c) => finite_coeffs c | _ => True end.
Definition calm_gain (ev : event f32) : Prop := match ev with Turn [] (KGain g) => fin g = true | _ => True end.
Fixpoint calm (p : plan f32) (evs : list (event f32)) : Prop :=
  match p with
  | PDelay l | PPass l => Forall silent l
  | PComb l d g => Forall silent l /\ damp_ok d /\ fin g = true /\ Forall calm_comb evs
  | PFilter c => finite_coeffs c /\ Forall calm_filter evs
  | PScale g => fin g = true /\ Forall calm_gain evs
  | PSeries p q | PMix p q => calm p (branch true evs) /\ calm q (branch false evs)
  end.
