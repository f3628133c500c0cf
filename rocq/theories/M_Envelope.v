(** * Model of src/envelope.rs. *)

From Coq Require Import ZArith List Bool.
From Verif Require Import Base F32 Num.
Import ListNotations.
Open Scope Z_scope.

(** src/envelope.rs:9-17 *)
Inductive EnvelopeState := Idle | Attack | Decay | Release | Sustain.

(** src/envelope.rs:19-34 *)
Record adsr := ADSR {
  e_attack : f32; e_decay : f32; e_sustain : f32; e_release : f32; e_slope : f32;
  e_t : f32; e_state : EnvelopeState; e_value : f32; e_release_val : f32; e_sr : f32 }.

Section Envelope.
Context {NP : NanPolicy} {MO : MathOps f32}.

(** src/envelope.rs:179-181; 0.5 is [SHORTEST_TIME_BASE] (line 6) *)
Definition set_time_parameter (parameter_in_secs sr : f32) : outcome f32 :=
  fclamp (fdiv (of_int 1) (fmul parameter_in_secs sr)) (fdiv (lit 1 (-1)) sr) f_max.

(** src/envelope.rs:37-58; the fields are evaluated in the order written there *)
Definition adsr_new (attack_in_secs decay_in_secs sustain release_in_secs slope sr : f32) : outcome adsr :=
  do s <- fclamp sustain (of_int 0) (of_int 1) ;
  do d <- set_time_parameter decay_in_secs sr ;
  do a <- set_time_parameter attack_in_secs sr ;
  do r <- set_time_parameter release_in_secs sr ;
  Ret (ADSR a d s r slope (of_int 0) Idle (of_int 0) (of_int 0) sr).

(** src/envelope.rs:64-66 *)
Definition set_attack (e : adsr) (secs : f32) : outcome adsr :=
  do a <- set_time_parameter secs (e_sr e) ;
  Ret (ADSR a (e_decay e) (e_sustain e) (e_release e) (e_slope e) (e_t e) (e_state e) (e_value e) (e_release_val e) (e_sr e)).
(** src/envelope.rs:68-70 *)
Definition set_decay (e : adsr) (secs : f32) : outcome adsr :=
  do d <- set_time_parameter secs (e_sr e) ;
  Ret (ADSR (e_attack e) d (e_sustain e) (e_release e) (e_slope e) (e_t e) (e_state e) (e_value e) (e_release_val e) (e_sr e)).
(** src/envelope.rs:72-74 *)
Definition set_sustain (e : adsr) (sustain : f32) : outcome adsr :=
  do s <- fclamp sustain (of_int 0) (of_int 1) ;
  Ret (ADSR (e_attack e) (e_decay e) s (e_release e) (e_slope e) (e_t e) (e_state e) (e_value e) (e_release_val e) (e_sr e)).
(** src/envelope.rs:76-78 *)
Definition set_release (e : adsr) (secs : f32) : outcome adsr :=
  do r <- set_time_parameter secs (e_sr e) ;
  Ret (ADSR (e_attack e) (e_decay e) (e_sustain e) r (e_slope e) (e_t e) (e_state e) (e_value e) (e_release_val e) (e_sr e)).
(** src/envelope.rs:80-82; 20 is [BIGGEST_SLOPE] (line 7) *)
Definition set_slope (e : adsr) (slope : f32) : outcome adsr :=
  do s <- fclamp slope (fdiv (of_int 1) (of_int 20)) (of_int 20) ;
  Ret (ADSR (e_attack e) (e_decay e) (e_sustain e) (e_release e) s (e_t e) (e_state e) (e_value e) (e_release_val e) (e_sr e)).
(** src/envelope.rs:84-86 *)
Definition set_sr (e : adsr) (sr : f32) : adsr :=
  ADSR (e_attack e) (e_decay e) (e_sustain e) (e_release e) (e_slope e) (e_t e) (e_state e) (e_value e) (e_release_val e) sr.

(** The fields [t], [state] and [envelope_value] replaced. *)
Definition with_tsv (e : adsr) (t : f32) (s : EnvelopeState) (v : f32) : adsr :=
  ADSR (e_attack e) (e_decay e) (e_sustain e) (e_release e) (e_slope e) t s v (e_release_val e) (e_sr e).

(** src/envelope.rs:138-149 *)
Definition next_attack (e : adsr) : f32 * adsr :=
  let t := fadd (e_t e) (e_attack e) in
  let v := m_powf t (fdiv (of_int 1) (e_slope e)) in
  if fge v (of_int 1) then (of_int 1, with_tsv e (of_int 0) Decay (of_int 1))
  else (v, with_tsv e t Attack v).

(** src/envelope.rs:151-162 *)
Definition next_decay (e : adsr) : f32 * adsr :=
  let t := fadd (e_t e) (e_decay e) in
  let v := fadd (fmul (fsub (of_int 1) (m_powf t (e_slope e))) (fsub (of_int 1) (e_sustain e))) (e_sustain e) in
  if fle v (e_sustain e) then (e_sustain e, with_tsv e t Sustain (e_sustain e))
  else (v, with_tsv e t Decay v).

(** src/envelope.rs:164-176 *)
Definition next_release (e : adsr) : f32 * adsr :=
  let t := fadd (e_t e) (e_release e) in
  let v := fmul (fsub (of_int 1) (m_powf t (e_slope e))) (e_release_val e) in
  if fle v f_epsilon then (of_int 0, with_tsv e (of_int 0) Idle (of_int 0))
  else (v, with_tsv e t Release v).

(** src/envelope.rs:96-104 *)
Definition tick (e : adsr) : f32 * adsr :=
  match e_state e with
  | Idle => (of_int 0, e)
  | Sustain => (e_sustain e, e)
  | Attack => next_attack e
  | Decay => next_decay e
  | Release => next_release e
  end.

(** src/envelope.rs:106-109 *)
Definition reset (e : adsr) : adsr := with_tsv e (e_t e) Idle (of_int 0).

(** src/envelope.rs:111-121 *)
Definition trigger_on (e : adsr) : adsr :=
  match e_state e with
  | Idle | Attack => with_tsv e (of_int 0) Attack (e_value e)
  | Decay | Sustain | Release => with_tsv e (e_t e) Attack (e_value e)
  end.

(** src/envelope.rs:123-132 *)
Definition trigger_off (e : adsr) : adsr :=
  match e_state e with
  | Attack | Decay | Sustain =>
      ADSR (e_attack e) (e_decay e) (e_sustain e) (e_release e) (e_slope e) (of_int 0) Release (e_value e) (e_value e) (e_sr e)
  | _ => e
  end.
End Envelope.
