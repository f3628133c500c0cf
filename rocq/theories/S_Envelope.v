(** * Specification vocabulary for the envelope: call histories and power contracts. *)

From Coq Require Import ZArith List Bool Reals.
From Flocq Require Import Core.
From Verif Require Import Base F32 F32Lemmas Num M_Envelope.
Import ListNotations.
Local Open Scope R_scope.

(** The public methods of the envelope. *)
Inductive call :=
  | Tick | TriggerOn | TriggerOff | Reset
  | SetAttack (secs : f32) | SetDecay (secs : f32) | SetRelease (secs : f32)
  | SetSustain (level : f32) | SetSlope (slope : f32) | SetSr (sr : f32).

Section Run.
Context {NP : NanPolicy} {MO : MathOps f32}.

(** One call: the value returned (by [tick] only) and the new envelope. *)
Definition do_call (c : call) (e : adsr) : outcome (list f32 * adsr) :=
  match c with
  | Tick => Ret ([fst (tick e)], snd (tick e))
  | TriggerOn => Ret ([], trigger_on e)
  | TriggerOff => Ret ([], trigger_off e)
  | Reset => Ret ([], reset e)
  | SetAttack v => do e' <- set_attack e v ; Ret ([], e')
  | SetDecay v => do e' <- set_decay e v ; Ret ([], e')
  | SetRelease v => do e' <- set_release e v ; Ret ([], e')
  | SetSustain v => do e' <- set_sustain e v ; Ret ([], e')
  | SetSlope v => do e' <- set_slope e v ; Ret ([], e')
  | SetSr v => Ret ([], set_sr e v)
  end.

(** A history of calls: the outputs of its ticks in order and the final envelope. *)
Fixpoint run (cs : list call) (e : adsr) : outcome (list f32 * adsr) :=
  match cs with
  | [] => Ret ([], e)
  | c :: r => do p <- do_call c e ; do q <- run r (snd p) ; Ret (fst p ++ fst q, snd q)
  end.

(** n ticks: the envelope afterwards. *)
Fixpoint ticks (n : nat) (e : adsr) : adsr := match n with O => e | S k => ticks k (snd (tick e)) end.

(** A usable power routine: for bases in [0, 3] and exponents in [1/20, 20] the result is
    finite and not negative, and not below 1 if the base is not. *)
Definition power_ok : Prop := forall b y : f32, fin b = true -> 0 <= val b <= 3 -> fin y = true ->
  val (fdiv (of_int 1) (of_int 20)) <= val y <= 20 ->
  fin (m_powf b y) = true /\ 0 <= val (m_powf b y) /\ (1 <= val b -> 1 <= val (m_powf b y)).

(** ... that is also monotone in its base. *)
Definition power_monotone : Prop := forall b c y : f32, fin b = true -> fin c = true -> fin y = true ->
  0 <= val b -> val b <= val c -> val c <= 3 -> val (fdiv (of_int 1) (of_int 20)) <= val y <= 20 ->
  val (m_powf b y) <= val (m_powf c y).
End Run.

(** The parameter ranges of the properties: sample rates from 1 Hz to 2^22 Hz, ... *)
Definition good_sr (sr : f32) : Prop := fin sr = true /\ 1 <= val sr <= pow2 22.
(** ... stage times of at least one sample, or negative (treated as the longest time), ... *)
Definition good_time (secs sr : f32) : Prop := isnan secs = false /\ (ext secs < 0 \/ 1 <= ext secs * val sr).
(** ... sustain levels that are numbers and slopes that are numbers. *)
Definition good_call (sr : f32) (c : call) : Prop :=
  match c with
  | SetAttack v | SetDecay v | SetRelease v => good_time v sr
  | SetSustain v => isnan v = false
  | SetSlope v => isnan v = false
  | SetSr v => good_sr v
  | _ => True
  end.
(** The sample rate in force after a call. *)
Definition sr_after (sr : f32) (c : call) : f32 := match c with SetSr v => v | _ => sr end.
Fixpoint good_calls (sr : f32) (cs : list call) : Prop :=
  match cs with [] => True | c :: r => good_call sr c /\ good_calls (sr_after sr c) r end.

(** The envelopes a program can hold: a construction with parameters in range, then any
    history of calls in range. *)
Definition good_new {NP : NanPolicy} (a d s r slope sr : f32) : Prop :=
  good_sr sr /\ good_time a sr /\ good_time d sr /\ good_time r sr /\ isnan s = false /\
  fin slope = true /\ val (fdiv (of_int 1) (of_int 20)) <= val slope <= 20.
Definition reachable {NP : NanPolicy} {MO : MathOps f32} (e : adsr) : Prop :=
  exists a d s r slope sr e0 cs outs, good_new a d s r slope sr /\ adsr_new a d s r slope sr = Ret e0 /\
    good_calls sr cs /\ run cs e0 = Ret (outs, e).

(** The stage changes each call may make. *)
Definition allowed (c : call) (s s' : EnvelopeState) : Prop :=
  match c with
  | Tick => s' = s \/ (s = Attack /\ s' = Decay) \/ (s = Decay /\ s' = Sustain) \/ (s = Release /\ s' = Idle)
  | TriggerOn => s' = Attack
  | TriggerOff => match s with Attack | Decay | Sustain => s' = Release | Idle | Release => s' = s end
  | Reset => s' = Idle
  | _ => s' = s
  end.

(** Calls that read the sample rate. *)
Definition sets_time (c : call) : bool := match c with SetAttack _ | SetDecay _ | SetRelease _ => true | _ => false end.
