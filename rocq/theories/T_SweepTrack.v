(** * C110: a filter in f32 whose coefficients change, against the same filter in exact arithmetic. *)

From Coq Require Import ZArith List Bool Reals Lia Lra Psatz.
From Flocq Require Import Core.
From Verif Require Import Base F32 F32Lemmas F32Exact F32Range Num M_FloatMath M_Biquad S_Biquad S_BiquadF32 S_Sweep S_SweepF32 P_Biquad P_Comb P_SweepF32 T_Sweep.
Local Open Scope R_scope.

(** Whatever settings are installed before each sample: if in exact arithmetic the recursive part of the schedule
    amplifies nothing more than G times, then the f32 filter stays finite for ever, within twice the exact bound
    G * B * M, and within a fraction A * G / 500000 of that bound of the exact output. *)
Theorem C110_f32_tracks : forall (NP : NanPolicy) (c : nat -> coeffs f32) (m : coeffs R) (G M : R) (x : nat -> f32),
  let B := forward_weight m in let A := feedback_weight m in let ec := fun n => exact_coeffs (c n) in
  (forall n, finite_coeffs (c n) /\ within_limits m (ec n)) -> sweep_gain ec G -> A * G <= 524288 -> pow2 (-90) <= B * M <= pow2 60 ->
  (forall n, fin (x n) = true /\ Rabs (val (x n)) <= M) ->
  forall n, let y := response_var (bq_new (c 0%nat)) c x n in
    fin y = true /\
    Rabs (val y - response_var (bq_new (ec 0%nat)) ec (fun k => val (x k)) n) <= A * G * (G * (B * M)) / 500000 /\
    Rabs (val y) <= 2 * (G * (B * M)).
Proof.
  intros NP c m G M x B A ec Fc HG HAG HM Hx n y. destruct (track c m Fc G M HG HAG HM x Hx n) as (F & D & Y & _).
  split; [exact F|]. split; [exact D|exact Y].
Qed.
Print Assumptions C110_f32_tracks.

Lemma small_gain_var (c : nat -> coeffs R) s : 0 < s < 1 -> (forall n, Rabs (a1 (c n)) + Rabs (a2 (c n)) <= s * s) -> sweep_gain c (1 + / (s * (1 - s))).
Proof.
  intros Hs Ha u S Hu n. pose proof (C110_small_feedback_bounded (fun k => recursive (c k)) u s 1 S Hs) as H.
  eapply Rle_trans; [apply H|].
  - intros k. exact (Ha k).
  - intros k. unfold forward_weight, recursive. cbn [b0 b1 b2]. rewrite Rabs_R0, Rabs_R1. lra.
  - exact Hu.
  - right. ring.
Qed.

(** Settings with little feedback may be changed at every sample, in f32 too. *)
Theorem C110_f32_small_feedback : forall (NP : NanPolicy) (c : nat -> coeffs f32) (m : coeffs R) (s M : R) (x : nat -> f32),
  let B := forward_weight m in let G := 1 + / (s * (1 - s)) in let ec := fun n => exact_coeffs (c n) in
  (forall n, finite_coeffs (c n) /\ within_limits m (ec n)) -> / 500 <= s <= 1 - / 500 ->
  (forall n, Rabs (a1 (ec n)) + Rabs (a2 (ec n)) <= s * s) -> a1 m + a2 m <= 2 -> pow2 (-90) <= B * M <= pow2 60 ->
  (forall n, fin (x n) = true /\ Rabs (val (x n)) <= M) ->
  forall n, let y := response_var (bq_new (c 0%nat)) c x n in
    fin y = true /\
    Rabs (val y - response_var (bq_new (ec 0%nat)) ec (fun k => val (x k)) n) <= 3 * G * (G * (B * M)) / 500000 /\
    Rabs (val y) <= 2 * (G * (B * M)).
Proof.
  intros NP c m s M x B G ec Fc Hs Ha Hm HM Hx n y.
  assert (P3 : 0 <= a1 m /\ 0 <= a2 m).
  { destruct (Fc 0%nat) as [_ (_ & _ & _ & L3 & L4)]. pose proof (Rabs_pos (a1 (ec 0%nat))). pose proof (Rabs_pos (a2 (ec 0%nat))). lra. }
  assert (A3 : 0 <= feedback_weight m <= 3) by (unfold feedback_weight; rewrite !Rabs_pos_eq by tauto; lra).
  assert (G0 : 1 <= G <= 1001).
  { unfold G. assert (Q : / 1000 <= s * (1 - s)) by nra. assert (I : 0 < / (s * (1 - s))) by (apply Rinv_0_lt_compat; lra).
    assert (I2 : / (s * (1 - s)) <= / / 1000) by (apply Rinv_le_contravar; lra). rewrite Rinv_inv in I2. lra. }
  assert (AG : feedback_weight m * G <= 3 * G) by nra.
  destruct (C110_f32_tracks NP c m G M x Fc (small_gain_var ec s ltac:(lra) Ha) ltac:(lra) HM Hx n) as (F & D & Y).
  split; [exact F|]. split; [|exact Y]. eapply Rle_trans; [exact D|].
  assert (PB : 0 <= B * M) by (pose proof (bpow_gt_0 radix2 (-90)); lra). fold B. set (W := G * (B * M)). assert (PW : 0 <= W) by (unfold W; nra).
  assert (feedback_weight m * G * W <= 3 * G * W) by (apply Rmult_le_compat_r; assumption). lra.
Qed.
Print Assumptions C110_f32_small_feedback.

(** Two settings with opposite feedback, a new one before every sample: inputs within 1 give outputs that are finite
    for ever, within 26 of zero and within 1/900 of the exact ones. *)
Definition plus_setting {NP : NanPolicy} : coeffs f32 := BC (of_int 1) (of_int 0) (of_int 0) (lit 1 (-2)) (lit 1 (-1)).
Definition minus_setting {NP : NanPolicy} : coeffs f32 := BC (of_int 1) (of_int 0) (of_int 0) (lit (-1) (-2)) (lit (-1) (-1)).
Example C110_f32_met : forall (NP : NanPolicy) (x : nat -> f32), (forall k, fin (x k) = true /\ Rabs (val (x k)) <= 1) ->
  let c := alternate plus_setting minus_setting in
  forall n, let y := response_var (bq_new plus_setting) c x n in
    fin y = true /\ Rabs (val y) <= 26 /\
    Rabs (val y - response_var (bq_new (exact_coeffs plus_setting)) (fun k => exact_coeffs (c k)) (fun k => val (x k)) n) <= 1 / 900.
Proof.
  intros NP x Hx c n y.
  destruct (lit_exact 1 (-2) ltac:(lia) ltac:(lia)) as [F1 V1]. destruct (lit_exact 1 (-1) ltac:(lia) ltac:(lia)) as [F2 V2].
  destruct (lit_exact (-1) (-2) ltac:(lia) ltac:(lia)) as [F3 V3]. destruct (lit_exact (-1) (-1) ltac:(lia) ltac:(lia)) as [F4 V4].
  destruct (of_int_exact 0 ltac:(lia)) as [F5 V5]. destruct (of_int_exact 1 ltac:(lia)) as [F6 V6].
  replace (IZR 1 * pow2 (-2)) with (1 / 4) in V1 by (cbn; lra). replace (IZR 1 * pow2 (-1)) with (1 / 2) in V2 by (cbn; lra).
  replace (IZR (-1) * pow2 (-2)) with (- (1 / 4)) in V3 by (cbn; lra). replace (IZR (-1) * pow2 (-1)) with (- (1 / 2)) in V4 by (cbn; lra).
  assert (E1 : exact_coeffs plus_setting = BC 1 0 0 (1 / 4) (1 / 2)) by (unfold exact_coeffs, plus_setting; cbn [b0 b1 b2 a1 a2]; now rewrite V1, V2, V5, V6).
  assert (E2 : exact_coeffs minus_setting = BC 1 0 0 (- (1 / 4)) (- (1 / 2))) by (unfold exact_coeffs, minus_setting; cbn [b0 b1 b2 a1 a2]; now rewrite V3, V4, V5, V6).
  assert (FW : forward_weight (BC 1 0 0 (1 / 4) (1 / 2)) = 1) by (unfold forward_weight; cbn [b0 b1 b2]; rewrite Rabs_R0, Rabs_R1; ring).
  destruct (C110_f32_small_feedback NP c (BC 1 0 0 (1 / 4) (1 / 2)) (9 / 10) 1 x) with (n := n) as (F & D & Y).
  - intros k. unfold c, alternate. destruct (Nat.even k); [rewrite E1|rewrite E2]; (split; [repeat split; assumption|]);
      unfold within_limits; cbn [b0 b1 b2 a1 a2]; rewrite ?Rabs_Ropp, Rabs_R0, Rabs_R1, !Rabs_pos_eq by lra; repeat split; lra.
  - lra.
  - intros k. unfold c, alternate. destruct (Nat.even k); [rewrite E1|rewrite E2]; cbn [a1 a2]; rewrite ?Rabs_Ropp, !Rabs_pos_eq by lra; lra.
  - cbn [a1 a2]. lra.
  - rewrite FW, Rmult_1_l. change 1 with (pow2 0). split; apply bpow_le; lia.
  - exact Hx.
  - rewrite FW in D, Y. change (c 0%nat) with (@plus_setting NP) in F, D, Y. fold y in F, D, Y.
    split; [exact F|]. split; [lra|]. eapply Rle_trans; [exact D|]. lra.
Qed.
