(** * C110: settings that are held for a while, in single precision. *)

From Coq Require Import ZArith List Bool Reals Lia Lra Psatz.
From Flocq Require Import Core.
From Verif Require Import Base F32 F32Lemmas F32Exact F32Range Num M_FloatMath M_Biquad S_Biquad S_BiquadF32 S_Sweep S_SweepF32 P_Biquad P_HeldF32 T_BiquadF32 T_DesignF32 T_SweepF32 T_SweepTrack.
Import ListNotations.
Local Open Scope R_scope.

(** How high a filter peaks, from where its poles lie: 1 / (1 - |u|) for real poles u and v, and 1 / (1 - sqrt a2)
    for a complex pair. *)
Theorem C110_peak : forall c : coeffs R,
  (forall u v, u + v = - a1 c -> u * v = a2 c -> Rabs u < 1 -> Rabs v < 1 -> peak c (/ (1 - Rabs u))) /\
  (a1 c * a1 c <= 4 * a2 c -> a2 c < 1 -> peak c (/ (1 - sqrt (a2 c)))).
Proof.
  intros c. split.
  - intros u v E1 E2 Hu Hv. apply peak_sum with (Q := Rabs v); [split; [apply Rabs_pos|exact Hu]|split; [apply Rabs_pos|lra]|].
    exact (real_step (a1 c) (a2 c) u v E1 E2).
  - intros Hp Hq. destruct (complex_step (a1 c) (a2 c) Hp Hq) as [R S]. apply peak_sum with (Q := sqrt (a2 c)); [exact R|lra|exact S].
Qed.
Print Assumptions C110_peak.

(** The gain of schedules that hold each new setting long enough, in exact arithmetic and from the settings alone: if
    every setting rings by G in total and peaks at P, the schedule amplifies nothing more than
    G + P (a1 + 2 a2) (G + 1) times, a1 and a2 being the largest feedback coefficients. *)
Theorem C110_held_gain : forall (l : list (coeffs R)) (m : coeffs R) (G P : R),
  (forall d, In d l -> ringing d G /\ peak d P /\ within_limits m d) ->
  exists L, forall c : nat -> coeffs R, (forall n, In (c n) l) -> held L c -> sweep_gain c (G + P * (a1 m + 2 * a2 m) * (G + 1)).
Proof.
  intros l m G P Hl.
  destruct l as [|d0 l0]; [exists O; intros c Hc; destruct (Hc O)|]. set (l := d0 :: l0) in *.
  destruct (Hl d0 (or_introl eq_refl)) as (R0 & P0 & _ & _ & _ & L1 & L2).
  pose proof (R0 O) as G0. cbn [sum_f_R0] in G0. pose proof (Rabs_pos (response (bq_new (BC 1 0 0 (a1 d0) (a2 d0))) unit_impulse 0)) as G1.
  pose proof (P0 O) as P1. pose proof (Rabs_pos (response (bq_new (recursive d0)) unit_impulse 0)) as P2.
  pose proof (Rabs_pos (a1 d0)) as A1. pose proof (Rabs_pos (a2 d0)) as A2.
  assert (W0 : 0 <= (a1 m + 2 * a2 m) * (G + 1)) by (apply Rmult_le_pos; lra).
  destruct (list_decays l G (fun d Hd => proj1 (Hl d Hd)) (/ ((a1 m + 2 * a2 m) * (G + 1) + 1))) as [N HN]; [apply Rinv_0_lt_compat; lra|].
  exists (N + 3)%nat. intros c Hc Hh u S Hu n.
  apply (held_gain l G P (a1 m) (a2 m) ltac:(lra) ltac:(lra)) with (N := N); try assumption.
  intros d Hd. destruct (Hl d Hd) as (Rd & Pd & _ & _ & _ & La & Lb). auto.
Qed.
Print Assumptions C110_held_gain.

(** The same in f32: for every finite choice of settings there is a number of samples such that all schedules that hold
    each new setting at least that long keep the output finite for ever and near the exact one. *)
Theorem C110_f32_held : forall (NP : NanPolicy) (l : list (coeffs f32)) (m : coeffs R) (G P : R),
  let B := forward_weight m in let A := feedback_weight m in let H := G + P * (a1 m + 2 * a2 m) * (G + 1) in
  (forall d, In d l -> finite_coeffs d /\ within_limits m (exact_coeffs d) /\ ringing (exact_coeffs d) G /\ peak (exact_coeffs d) P) ->
  A * H <= 524288 ->
  exists L, forall (c : nat -> coeffs f32) (M : R) (x : nat -> f32), (forall n, In (c n) l) -> held L c ->
    pow2 (-90) <= B * M <= pow2 60 -> (forall n, fin (x n) = true /\ Rabs (val (x n)) <= M) ->
    forall n, let y := response_var (bq_new (c 0%nat)) c x n in
      fin y = true /\
      Rabs (val y - response_var (bq_new (exact_coeffs (c 0%nat))) (fun k => exact_coeffs (c k)) (fun k => val (x k)) n) <= A * H * (H * (B * M)) / 500000 /\
      Rabs (val y) <= 2 * (H * (B * M)).
Proof.
  intros NP l m G P B A H Hl HA.
  destruct (C110_held_gain (map exact_coeffs l) m G P) as [L HL].
  { intros d Hd. apply in_map_iff in Hd. destruct Hd as (d' & <- & Hd). destruct (Hl d' Hd) as (_ & W & R & K). auto. }
  exists L. intros c M x Hc Hh HM Hx n.
  apply (C110_f32_tracks NP c m H M x); try assumption.
  - intros k. destruct (Hl (c k) (Hc k)) as (F & W & _). auto.
  - apply HL; [intros k; apply in_map, Hc|]. intros k Hk j Hj. f_equal. apply (Hh k); [|exact Hj]. intros E. apply Hk. now rewrite E.
Qed.
Print Assumptions C110_f32_held.

(** The settings that overflow after 145 samples when they are changed every sample (C110_audio_rate_overflow_refuted)
    stay finite for ever when they are held. *)
Lemma complex_pair c : a1 c * a1 c <= 4 * a2 c -> a2 c <= 225 / 256 -> ringing c 256 /\ peak c 16.
Proof.
  intros Hp Hq. assert (Q0 : 0 <= a2 c) by nra.
  assert (S : 0 <= sqrt (a2 c) <= 15 / 16).
  { split; [apply sqrt_pos|]. rewrite <- (sqrt_square (15 / 16)) by lra. apply sqrt_le_1; lra. }
  assert (I : / (1 - sqrt (a2 c)) <= 16) by (replace 16 with (/ (1 / 16)) by lra; apply Rinv_le_contravar; lra).
  split.
  - intros N. eapply Rle_trans; [apply C95_ringing; lra|]. rewrite Rinv_mult.
    assert (0 <= / (1 - sqrt (a2 c))) by (left; apply Rinv_0_lt_compat; lra). nra.
  - intros n. eapply Rle_trans; [apply (proj2 (C110_peak c)); lra|exact I].
Qed.

Definition lit_bounds (x : f32) (lo hi : Z) : bool := fin x && fle (lit lo (-10)) x && fle x (lit hi (-10)).
Lemma lit_bounds_ok (NP : NanPolicy) x lo hi : (Z.abs lo < 2 ^ 24)%Z -> (Z.abs hi < 2 ^ 24)%Z -> lit_bounds x lo hi = true -> fin x = true /\ IZR lo / 1024 <= val x <= IZR hi / 1024.
Proof.
  intros Hl Hh H. apply andb_true_iff in H. destruct H as [H H3]. apply andb_true_iff in H. destruct H as [H1 H2].
  destruct (lit_exact lo (-10) Hl ltac:(lia)) as [F1 V1]. destruct (lit_exact hi (-10) Hh ltac:(lia)) as [F2 V2].
  pose proof (between H1 F1 F2 H2 H3) as B. rewrite V1, V2 in B. replace (pow2 (-10)) with (/ 1024) in B by (cbn; lra). split; [exact H1|]. unfold Rdiv. exact B.
Qed.

Example C110_f32_held_met : forall NP : NanPolicy, exists L, forall (c : nat -> coeffs f32) (x : nat -> f32),
  (forall n, In (c n) [low_setting; high_setting]) -> held L c -> (forall n, fin (x n) = true /\ Rabs (val (x n)) <= 1) ->
  forall n, fin (response_var (bq_new (c 0%nat)) c x n) = true.
Proof.
  intros NP. set (m := BC 1 2 1 2 1).
  assert (Em : forward_weight m = 4 /\ feedback_weight m = 4) by (unfold forward_weight, feedback_weight, m; cbn [b0 b1 b2 a1 a2]; rewrite !Rabs_pos_eq by lra; lra).
  assert (OK : forall d, In d [low_setting; high_setting] -> finite_coeffs d /\ within_limits m (exact_coeffs d) /\ ringing (exact_coeffs d) 256 /\ peak (exact_coeffs d) 16).
  { assert (Low : exists d, d = low_setting) by eauto. destruct Low as [low El]. assert (High : exists d, d = high_setting) by eauto. destruct High as [high Eh].
    assert (Bl : lit_bounds (b0 low) 0 1024 && lit_bounds (b1 low) 0 1024 && lit_bounds (b2 low) 0 1024 && lit_bounds (a1 low) (-1908) 0 && lit_bounds (a2 low) 897 900 = true) by (rewrite El; vm_compute; reflexivity).
    assert (Bh : lit_bounds (b0 high) 0 1024 && lit_bounds (b1 high) 0 2048 && lit_bounds (b2 high) 0 1024 && lit_bounds (a1 high) 0 1440 && lit_bounds (a2 high) 590 610 = true) by (rewrite Eh; vm_compute; reflexivity).
    intros d Hd. cbn [In] in Hd. rewrite <- El, <- Eh in Hd. destruct Hd as [<-|[<-|[]]].
    - rewrite !andb_true_iff in Bl. destruct Bl as [[[[B0 B1] B2] B3] B4].
      apply (lit_bounds_ok NP) in B0, B1, B2, B3, B4; try (cbn; lia). clear El Eh Bh. unfold finite_coeffs, within_limits. cbn [exact_coeffs b0 b1 b2 a1 a2]. unfold m; cbn [b0 b1 b2 a1 a2].
      split; [tauto|]. split; [repeat split; apply Rabs_le; lra|]. apply complex_pair; cbn [exact_coeffs a1 a2]; [|lra].
      assert (val (a1 low) * val (a1 low) <= (1908 / 1024) * (1908 / 1024)) by nra. lra.
    - rewrite !andb_true_iff in Bh. destruct Bh as [[[[B0 B1] B2] B3] B4].
      apply (lit_bounds_ok NP) in B0, B1, B2, B3, B4; try (cbn; lia). clear El Eh Bl. unfold finite_coeffs, within_limits. cbn [exact_coeffs b0 b1 b2 a1 a2]. unfold m; cbn [b0 b1 b2 a1 a2].
      split; [tauto|]. split; [repeat split; apply Rabs_le; lra|]. apply complex_pair; cbn [exact_coeffs a1 a2]; [|lra].
      assert (val (a1 high) * val (a1 high) <= (1440 / 1024) * (1440 / 1024)) by nra. lra. }
  destruct (C110_f32_held NP [low_setting; high_setting] m 256 16 OK) as [L HL].
  { rewrite (proj2 Em). unfold m. cbn [a1 a2]. lra. }
  exists L. intros c x Hc Hh Hx n. apply (HL c 1 x Hc Hh); [|exact Hx]. rewrite (proj1 Em). rewrite Rmult_1_r.
  replace 4 with (pow2 2) by (cbn; lra). split; apply bpow_le; lia.
Qed.
