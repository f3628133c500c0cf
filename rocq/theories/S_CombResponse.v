(** * Vocabulary: the frequency response of the comb filter and of the all-pass unit. *)

From Coq Require Import List Reals.
From Verif Require Import Base F32 Num M_Memory M_Delay S_Delay S_Biquad.
Import ListNotations.
Local Open Scope R_scope.

(** The first [k + 1] samples of a signal. *)
Definition upto (x : nat -> R) (k : nat) : list R := map x (seq 0 (S k)).

(** A comb filter over the buffer [s] of the memory [h], used in any way whatsoever ([ops]), then
    set to [damp] and [g] and fed with the signal [x], answers in the long run with [y]. *)
Definition comb_settles_to {B : Build} (h : heap R) (s : mslice) (ops : list (comb_op R)) (damp g : R) (x y : nat -> R) : Prop :=
  forall eps, 0 < eps -> exists N, forall k, (N <= k)%nat ->
    exists h' c' ys, comb_run h (cb_new s) (ops ++ CDamp damp :: CFeedback g :: map CTick (upto x k)) = Ret (h', c', ys) /\
      Rabs (last ys 0 - y k) < eps.

(** It answers every sinusoid of angular frequency [w] with a sinusoid of the same frequency and
    [gain] times its amplitude, shifted in phase by the same angle. *)
Definition comb_gain {B : Build} (h : heap R) (s : mslice) (damp g w gain : R) : Prop :=
  exists theta, forall ops amp phi,
    comb_settles_to h s ops damp g (sinusoid amp w phi) (sinusoid (gain * amp) w (phi + theta)).

(** The same for the all-pass unit, after any inputs [xs]. *)
Definition ap_settles_to {B : Build} (h : heap R) (s : mslice) (xs : list R) (x y : nat -> R) : Prop :=
  forall eps, 0 < eps -> exists N, forall k, (N <= k)%nat ->
    exists h' a' ys, ap_run h (ap_new s) (xs ++ upto x k) = Ret (h', a', ys) /\ Rabs (last ys 0 - y k) < eps.

Definition ap_gain {B : Build} (h : heap R) (s : mslice) (w gain : R) : Prop :=
  exists theta, forall xs amp phi,
    ap_settles_to h s xs (sinusoid amp w phi) (sinusoid (gain * amp) w (phi + theta)).
