(** * Specification for C112: a voice, that is, an oscillator times an envelope. *)

From Coq Require Import ZArith List Bool Reals.
From Verif Require Import Base F32 Num M_Oscillator M_Envelope S_Envelope.
Import ListNotations.

(** What a program does with a voice: take a sample, or call a method of its envelope or oscillator. *)
Inductive vop :=
| VSample                 (* osc.next() * env.tick() *)
| VEnv (c : call)         (* any method of the envelope; the value of tick is dropped *)
| VFreq (freq : f32)      (* set_freq_unchecked *)
| VPhase (shift : f32)    (* set_phase_shift_unchecked *)
| VWave (w : waveform)    (* set_wave *)
| VRate (sr : f32).       (* set_sr_unchecked of the oscillator *)

Section Voice.
Context {NP : NanPolicy} {B : Build} {MO : MathOps f32}.
Definition voice := (fosc * adsr)%type.

Definition voice_step (v : vop) (s : voice) : outcome (list f32 * voice) :=
  let (o, e) := s in
  match v with
  | VSample => do y <- fo_next o ; Ret ([fmul (fst y) (fst (tick e))], (snd y, snd (tick e)))
  | VEnv c => do r <- do_call c e ; Ret ([], (o, snd r))
  | VFreq f => Ret ([], (fo_set_freq_unchecked o f, e))
  | VPhase p => Ret ([], (fo_set_phase_shift_unchecked o p, e))
  | VWave w => Ret ([], (fo_set_wave o w, e))
  | VRate r => Ret ([], (fo_set_sr_unchecked o r, e))
  end.
(** The samples taken in a history, in order, and the voice afterwards. *)
Fixpoint voice_run (vs : list vop) (s : voice) : outcome (list f32 * voice) :=
  match vs with
  | [] => Ret ([], s)
  | v :: r => do p <- voice_step v s ; do q <- voice_run r (snd p) ; Ret (fst p ++ fst q, snd q)
  end.
End Voice.

(** What the envelope sees of a history. *)
Definition env_call (v : vop) : list call := match v with VSample => [Tick] | VEnv c => [c] | _ => [] end.
Definition env_calls (vs : list vop) : list call := flat_map env_call vs.
Definition samples (vs : list vop) : nat := length (filter (fun v => match v with VSample => true | _ => false end) vs).

(** The waveforms stay within 2^0, 2^1 and 2^2 (the rectangle has the value 3 at 128 phases, see C45). *)
Definition loudness (w : waveform) : Z := match w with Sawtooth | Triangle => 0 | Sine => 1 | Rectangle => 2 end.
Definition no_louder (e : Z) (v : vop) : Prop := match v with VWave w => (loudness w <= e)%Z | _ => True end.
