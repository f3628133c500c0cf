(** * Vocabulary: what remains once the input has stopped (C113). *)

From Coq Require Import ZArith List Reals.
From Flocq Require Import Core.
From Verif Require Import Base F32 F32Lemmas Num S_Delay.
Import ListNotations.
Local Open Scope R_scope.

(** Either zero. *)
Definition silent (x : f32) : Prop := fin x = true /\ val x = 0.

(** The smallest positive f32, 2^-149. *)
Definition tiny : R := pow2 (-149).

(** A value sent [k] times through a gain [g], rounded to nearest f32 each time. *)
Definition echo (g : R) (k : nat) (v : R) : R := Nat.iter k (fun w => rnd (w * g)) v.

(** What the sequence of outputs [ys] has at [i] if the [n] values of [l] circulate through the gain [g]. *)
Definition circulates (g : R) (l ys : list f32) : Prop :=
  forall i, (i < length ys)%nat ->
    val (nth i ys (of_int 0)) = echo g (i / length l) (val (nth (i mod length l) l (of_int 0))).

(** From some sample on the sequence stays finite and within [T]. *)
Definition settles_within (T : R) (y : nat -> f32) : Prop :=
  exists N, forall n, (N <= n)%nat -> fin (y n) = true /\ Rabs (val (y n)) <= T.

(** No input from some sample on. *)
Definition stops (x : nat -> f32) : Prop := exists N, forall n, (N <= n)%nat -> silent (x n).
