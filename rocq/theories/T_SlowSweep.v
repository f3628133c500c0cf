(** * C110: settings that are held for a while. *)

From Coq Require Import ZArith Reals Lra Lia Psatz Arith Bool List.
From Flocq Require Import Core.
From Verif Require Import Base F32 Num M_Biquad S_Biquad S_BiquadF32 S_Sweep P_DelayNum P_Biquad P_Butterworth P_Sweep P_SlowSweep T_Biquad.
Import ListNotations.
Local Open Scope R_scope.

(** For every finite choice of stable settings there is a number of samples such that all schedules that hold each new
    setting at least that long keep the output bounded, with one constant for all of them. *)
Theorem C110_held_settings_bounded : forall l : list (coeffs R), (forall c, In c l -> poles_inside c) ->
  exists L K, forall c : nat -> coeffs R, (forall n, In (c n) l) -> held L c ->
  forall M x, (forall n, Rabs (x n) <= M) -> forall n, Rabs (response_var (bq_new (c 0%nat)) c x n) <= K * M.
Proof.
  intros l Hl. destruct (list_tamed l) as (N & C & HC & HT); [intros c Hc; now apply poles_jury, Hl|].
  exists N, (C + sqrt (3 * C * C)). intros c Hc HH M x Hx n. assert (M0 : 0 <= M) by (pose proof (Rabs_pos (x O)); pose proof (Hx O); lra).
  rewrite var_out. pose proof (held_state N C c x M HC (fun n => proj1 (HT (c n) (Hc n))) HH Hx n) as S. cbv zeta in S.
  set (w := after_var (bq_new (c 0%nat)) c x) in *. eapply Rle_trans; [apply Rabs_triang|]. rewrite Rmult_plus_distr_r. apply Rplus_le_compat.
  - rewrite Rabs_mult. apply Rmult_le_compat; auto using Rabs_pos. apply (HT (c n) (Hc n)).
  - eapply Rle_trans; [apply sq_le_abs with (v := 3 * C * C * (M * M))|].
    + unfold norm2 in S. pose proof (Rle_0_sqr (z2 (w n))) as Q. unfold Rsqr in Q. lra.
    + rewrite sqrt_mult by nra. rewrite sqrt_square by exact M0. lra.
Qed.
Print Assumptions C110_held_settings_bounded.

(** The settings that overflow when they are changed every sample (C110_audio_rate_overflow_refuted) are safe when held. *)
Example C110_held_met : exists L K, forall c : nat -> coeffs R,
  (forall n, In (c n) [lowpass (MO := powi_math) 1000 1 48000; lowpass (MO := powi_math) 20000 1 48000]) -> held L c ->
  forall M x, (forall n, Rabs (x n) <= M) -> forall n, Rabs (response_var (bq_new (c 0%nat)) c x n) <= K * M.
Proof.
  apply C110_held_settings_bounded. intros c [<-|[<-|[]]].
  - destruct (C30_designs_stable powi_math 1000 1 48000 1) as [H _]; try lra; [exact powi_math_exact|exact powi_math_sqrt|]. apply H.
  - destruct (C30_designs_stable powi_math 20000 1 48000 1) as [H _]; try lra; [exact powi_math_exact|exact powi_math_sqrt|]. apply H.
Qed.
(** There are such schedules: one change after any number of samples. *)
Example C110_held_schedule (c d : coeffs R) L k : held L (fun n => if Nat.ltb n k then c else d).
Proof.
  intros n H j _. destruct (Nat.ltb_spec (S n) k) as [A|A].
  - exfalso. apply H. destruct (Nat.ltb_spec n k) as [B|B]; [reflexivity|lia].
  - destruct (Nat.ltb_spec (S n + j) k) as [B|B]; [lia|reflexivity].
Qed.
