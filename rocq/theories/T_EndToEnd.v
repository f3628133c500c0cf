(** * Theorems: a filter designed and run in f32 against the ideal filter (C107). *)

From Coq Require Import ZArith List Bool Reals Lia Lra Psatz.
From Flocq Require Import Core.
From Verif Require Import Base F32 F32Lemmas F32Range Num M_FloatMath M_Biquad S_Biquad S_BiquadF32 S_DesignF32 S_TanF32 S_EndToEnd
  P_DelayNum P_Interp P_Biquad P_Butterworth P_BiquadF32 P_DesignF32 P_Tan P_TanF32 P_EndToEnd T_Biquad T_Tan T_BiquadF32 T_DesignF32 T_TanF32.
Local Open Scope R_scope.

Lemma abs_near x y e : Rabs (x - y) <= e -> Rabs y - e <= Rabs x <= Rabs y + e.
Proof. unfold Rabs. repeat destruct Rcase_abs; lra. Qed.

(** C107: the f32 filter stays near the ideal one for every sequence of samples and for ever, if its coefficients are
    within [e] of the ideal ones.  [G] bounds the ringing of the ideal filter; the first term is the rounding of the
    samples, the others the rounding of the coefficients. *)
Theorem C107_filter_follows : forall (NP : NanPolicy) (c : coeffs f32) (d : coeffs R) (e G M : R) (x : nat -> f32),
  let B := forward_weight d in let A := feedback_weight d in
  coeffs_within e c d -> ringing d G -> e * G <= 1 / 16 -> 16 * e <= B -> A * G <= 400000 -> pow2 (-89) <= B * M <= pow2 59 ->
  samples_within M x ->
  follows c d x (A * G * (G * (B * M)) / 280000 + e * G * (3 * M + 11 / 4 * (G * (B * M)))).
Proof.
  intros NP c d e G M x B A (Fc & D0 & D1 & D2 & D3 & D4) HG HE HB HA HM Hx n.
  pose proof (ringing_1 _ _ HG) as G1. assert (e0 : 0 <= e) by (pose proof (Rabs_pos (val (b0 c) - b0 d)); lra).
  assert (e16 : e <= 1 / 16) by nra.
  assert (M0 : 0 <= M) by (pose proof (Hx 0%nat) as [_ H]; pose proof (Rabs_pos (val (x 0%nat))); lra).
  set (c' := exact_coeffs c).
  assert (HG' : ringing c' (8 / 7 * G)).
  { intros N. eapply Rle_trans; [apply (ringing_moved c' d e G HG D3 D4); lra|].
    apply Rmult_le_reg_r with (1 - 2 * e * G); [lra|]. replace (G / (1 - 2 * e * G) * (1 - 2 * e * G)) with G by (field; lra). nra. }
  assert (A1 : 1 <= A) by (unfold A, feedback_weight; pose proof (Rabs_pos (a1 d)); pose proof (Rabs_pos (a2 d)); lra).
  assert (HA' : 1 <= feedback_weight c' <= 9 / 8 * A).
  { pose proof (abs_near _ _ _ D3). pose proof (abs_near _ _ _ D4). pose proof (Rabs_pos (val (a1 c))). pose proof (Rabs_pos (val (a2 c))).
    unfold A, feedback_weight in *. unfold c', exact_coeffs. cbn [a1 a2]. lra. }
  assert (HB' : 13 / 16 * B <= forward_weight c' <= 19 / 16 * B).
  { pose proof (abs_near _ _ _ D0). pose proof (abs_near _ _ _ D1). pose proof (abs_near _ _ _ D2). unfold B, forward_weight in *. unfold c', exact_coeffs. cbn [b0 b1 b2]. lra. }
  set (A' := feedback_weight c') in *. set (B' := forward_weight c') in *.
  assert (BM : 13 / 16 * (B * M) <= B' * M <= 19 / 16 * (B * M)).
  { split; [replace (13 / 16 * (B * M)) with (13 / 16 * B * M) by ring|replace (19 / 16 * (B * M)) with (19 / 16 * B * M) by ring]; apply Rmult_le_compat_r; lra. }
  assert (HM' : pow2 (-90) <= B' * M <= pow2 60).
  { assert (E1 : pow2 (-89) = 2 * pow2 (-90)) by (change (-89)%Z with (1 + -90)%Z; rewrite bpow_plus; reflexivity).
    assert (E2 : pow2 60 = 2 * pow2 59) by (change 60%Z with (1 + 59)%Z; rewrite bpow_plus; reflexivity).
    rewrite E1 in HM. rewrite E2. assert (0 < pow2 (-90)) by apply bpow_gt_0. assert (0 < pow2 59) by apply bpow_gt_0. lra. }
  assert (HAG' : A' * (8 / 7 * G) <= 524288).
  { apply Rle_trans with (9 / 8 * A * (8 / 7 * G)); [apply Rmult_le_compat_r; lra|]. lra. }
  destruct (C95_biquad_tracks NP c (8 / 7 * G) M x Fc HG' HAG' HM' Hx n) as (F & T & _).
  fold c' in T. fold B' A' in T. split; [exact F|].
  set (xr := fun k => val (x k)) in *. assert (Hxr : forall k, Rabs (xr k) <= M) by (intros k; apply Hx).
  assert (P0 : 0 <= B * M) by (assert (0 < pow2 (-89)) by apply bpow_gt_0; lra).
  pose proof (output_moved c' d e G M (B' * M * (8 / 7 * G)) xr HG M0 ltac:(apply Rmult_le_pos; lra) e0 D0 D1 D2 D3 D4 Hxr
    (output_size c' _ M xr HG' M0 Hxr) n) as O.
  replace (val (response (bq_new c) x n) - response (bq_new d) xr n)
    with ((val (response (bq_new c) x n) - response (bq_new c') xr n) + (response (bq_new c') xr n - response (bq_new d) xr n)) by ring.
  eapply Rle_trans; [apply Rabs_triang|]. apply Rplus_le_compat.
  - eapply Rle_trans; [exact T|].
    apply Rle_trans with (9 / 8 * A * (8 / 7 * G) * (8 / 7 * G * (19 / 16 * (B * M))) / 500000).
    + unfold Rdiv at 1 5. apply Rmult_le_compat_r; [lra|]. apply Rmult_le_compat; [apply Rmult_le_pos; lra|apply Rmult_le_pos; lra| |].
      * apply Rmult_le_compat_r; lra.
      * apply Rmult_le_compat_l; lra.
    + assert (0 <= A * G * (G * (B * M))) by (repeat apply Rmult_le_pos; try lra; apply Rmult_le_pos; lra). lra.
  - eapply Rle_trans; [exact O|]. replace (e * G * (3 * M + 11 / 4 * (G * (B * M)))) with (e * (3 * M + 11 / 4 * (G * (B * M))) * G) by ring.
    apply Rmult_le_compat_r; [lra|]. apply Rmult_le_compat_l; [lra|].
    assert (B' * M * (8 / 7 * G) <= 19 / 16 * (B * M) * (8 / 7 * G)) by (apply Rmult_le_compat_r; lra).
    assert (0 <= G * (B * M)) by (apply Rmult_le_pos; lra). lra.
Qed.
Print Assumptions C107_filter_follows.

(** ** The four designs without a gain *)
Lemma near_quotient s k S K N' N : 0 < S -> 0 < K -> Rabs (s - S) <= 122 * u * S -> Rabs (k - K) <= 122 * u * K ->
  Rabs (N' - N) <= 244 * u * (S + K) -> Rabs N <= 2 * (1 + S + K) ->
  Rabs (N' / (1 + s + k) - N / (1 + S + K)) <= 528 * u * ((S + K) / (1 + S + K)).
Proof.
  intros HS HK Es Ek EN BN. set (D := 1 + S + K). set (D' := 1 + s + k). apply Rabs_le_inv in Es, Ek.
  assert (PD : 1 < D) by (unfold D; lra).
  assert (HD : Rabs (D' - D) <= 122 * u * (S + K)) by (apply Rabs_le; unfold D, D'; unfold u in *; lra).
  assert (PD' : 99 / 100 * D <= D') by (unfold D, D'; unfold u in *; lra).
  replace (N' / D' - N / D) with (((N' - N) * D - N * (D' - D)) * (/ D * / D')) by (field; lra).
  rewrite Rabs_mult. set (w := S + K) in *. assert (W0 : 0 < w) by (unfold w; lra).
  assert (I : 0 < / D /\ 0 < / D') by (split; apply Rinv_0_lt_compat; lra).
  rewrite (Rabs_pos_eq (/ D * / D')) by (apply Rmult_le_pos; lra).
  assert (U0 : 0 < u) by (unfold u; lra).
  assert (N1 : Rabs ((N' - N) * D - N * (D' - D)) <= 488 * u * w * D).
  { unfold Rminus at 1. eapply Rle_trans; [apply Rabs_triang|]. rewrite Rabs_Ropp.
    assert (Q1 : Rabs ((N' - N) * D) <= 244 * u * w * D) by (apply prod_le; [exact EN|rewrite Rabs_pos_eq; lra]).
    assert (Q2 : Rabs (N * (D' - D)) <= 2 * D * (122 * u * w)) by (apply prod_le; [exact BN|exact HD]). lra. }
  assert (UW : 0 < u * w) by (now apply Rmult_lt_0_compat).
  eapply Rle_trans; [apply Rmult_le_compat_r; [apply Rmult_le_pos; lra|exact N1]|].
  replace (488 * u * w * D * (/ D * / D')) with (488 * (u * w) * / D') by (field; lra).
  apply Rmult_le_reg_r with (D * D'); [apply Rmult_lt_0_compat; lra|].
  replace (488 * (u * w) * / D' * (D * D')) with (488 * (u * w) * D) by (field; lra).
  replace (528 * u * (w / D) * (D * D')) with (528 * (u * w) * D') by (field; lra).
  assert (E : u * w * (99 / 100 * D) <= u * w * D') by (apply Rmult_le_compat_l; lra).
  assert (E2 : 0 < u * w * D) by (apply Rmult_lt_0_compat; lra). lra.
Qed.

(** The coefficients the designs compute in f32, more closely than in C97. *)
Theorem C107_design_error : forall (NP : NanPolicy) (MO : MathOps f32) (MR : MathOps R) (fc q sr : f32),
  close_powi MO -> exact_powi MR -> audible fc q sr ->
  let k := design_k (val fc) (val sr) in let e := design_error (k / val q) (k * k) in
  coeffs_within e (lowpass fc q sr) (lowpass (val fc) (val q) (val sr)) /\ coeffs_within e (highpass fc q sr) (highpass (val fc) (val q) (val sr)) /\
  coeffs_within e (allpass fc q sr) (allpass (val fc) (val q) (val sr)) /\ coeffs_within e (notch fc q sr) (notch (val fc) (val q) (val sr)).
Proof.
  intros NP MO MR fc q sr HM HR HA k e. pose proof (audible_moderate MO fc q sr HM HA) as M.
  assert (X30 : pow2 (-30) <= pow2 (-10)) by (apply bpow_le; lia).
  pose proof (wide _ _ _ _ _ X30 (Rle_refl _) HA) as (Ff & Hs & Hx & Hq). destruct (setup_ok MO fc q sr HM Ff Hs Hx Hq) as (K & F1 & F2 & E1 & E2).
  assert (X0 : 0 < pow2 (-30)) by apply bpow_gt_0.
  assert (Pf : 0 < val fc).
  { assert (Y : 0 < pi32 * val fc / val sr * val sr) by (apply Rmult_lt_0_compat; lra).
    replace (pi32 * val fc / val sr * val sr) with (pi32 * val fc) in Y by (field; lra). pose proof pi32_range. nra. }
  assert (Ps : 0 < val sr) by lra. assert (Pq : 0 < val q) by lra.
  destruct M as (_ & _ & D1 & D2 & D3).
  assert (Z1 : 0 <= val (snd (setup_coeffs fc q sr)) /\ 0 <= val (fst (setup_coeffs fc q sr))).
  { destruct (Rle_or_lt 0 (1 + val (snd (setup_coeffs fc q sr)) + val (fst (setup_coeffs fc q sr)))); lra. }
  destruct (C96_rounded_coefficients NP MO fc q sr F1 F2 (proj1 Z1) (proj2 Z1) ltac:(lra)) as (C1 & C2 & C3 & C4).
  rewrite (lowpass_form MR HR _ _ _ Pf Pq Ps), (highpass_form MR HR _ _ _ Pf Pq Ps), (allpass_form MR HR _ _ _ Pf Pq Ps), (notch_form MR HR _ _ _ Pf Pq Ps).
  unfold e. set (s := val (snd (setup_coeffs fc q sr))) in *. set (k2 := val (fst (setup_coeffs fc q sr))) in *.
  fold k in E1, E2, K. assert (PS : 0 < k / val q) by (apply Rdiv_lt_0_compat; lra). assert (PK : 0 < k * k) by (apply Rmult_lt_0_compat; lra).
  fold k. set (S := k / val q) in *. set (KK := k * k) in *. clearbody s k2 S KK.
  assert (E1' : Rabs (s - S) <= 122 * u * S) by (eapply Rle_trans; [exact E1|]; unfold u; lra).
  set (v := 528 * u * ((S + KK) / (1 + S + KK))).
  assert (Ee : design_error S KK = pow2 (-20) + v) by (unfold design_error, v; replace (pow2 (-20)) with (16 * u) by (unfold u; cbn; lra); ring).
  rewrite Ee. pose proof (fun N' N => near_quotient s k2 S KK N' N PS PK E1' E2) as Q.
  pose proof E1' as E1''. pose proof E2 as E2''. apply Rabs_le_inv in E1'', E2''.
  assert (A1 : Rabs (2 * (k2 - 1) / (1 + s + k2) - 2 * (KK - 1) / (1 + S + KK)) <= v) by (apply Q; apply Rabs_le; unfold u in *; lra).
  assert (A2 : Rabs ((1 - s + k2) / (1 + s + k2) - (1 - S + KK) / (1 + S + KK)) <= v) by (apply Q; apply Rabs_le; unfold u in *; lra).
  assert (A3 : Rabs (k2 / (1 + s + k2) - KK / (1 + S + KK)) <= v) by (apply Q; apply Rabs_le; unfold u in *; lra).
  assert (A4 : Rabs (2 * k2 / (1 + s + k2) - 2 * KK / (1 + S + KK)) <= v) by (apply Q; apply Rabs_le; unfold u in *; lra).
  assert (A5 : Rabs (1 / (1 + s + k2) - 1 / (1 + S + KK)) <= v) by (apply Q; apply Rabs_le; unfold u in *; lra).
  assert (A6 : Rabs (-2 / (1 + s + k2) - - 2 / (1 + S + KK)) <= v) by (apply Q; apply Rabs_le; unfold u in *; lra).
  assert (A7 : Rabs ((1 + k2) / (1 + s + k2) - (1 + KK) / (1 + S + KK)) <= v) by (apply Q; apply Rabs_le; unfold u in *; lra).
  assert (A8 : Rabs (1 - 1) <= v).
  { rewrite Rminus_eq_0, Rabs_R0. unfold v. apply Rmult_le_pos; [unfold u; lra|]. apply Rmult_le_pos; [lra|left; apply Rinv_0_lt_compat; lra]. }
  clear Q. clearbody v. clear Ee E1 E2 E1' E1'' E2''.
  split; [apply (within_trans _ _ _ _ _ C1)|split; [apply (within_trans _ _ _ _ _ C2)|split; [apply (within_trans _ _ _ _ _ C3)|apply (within_trans _ _ _ _ _ C4)]]];
    cbn [b0 b1 b2 a1 a2 textbook_lowpass textbook_highpass textbook_allpass textbook_notch]; assumption.
Qed.
Print Assumptions C107_design_error.

Lemma textbook_rings S K c : 0 < S -> 0 < K -> a1 c = 2 * (K - 1) / (1 + S + K) -> a2 c = (1 - S + K) / (1 + S + K) ->
  ringing c (design_ringing S K) /\ feedback_weight c <= 4.
Proof.
  intros HS HK E1 E2. split.
  - destruct (Rle_or_lt (S * S) (4 * K)) as [C|C]; intros N.
    + destruct (textbook_ringing S K c HS HK C E1 E2) as (R1 & R2 & R3). eapply Rle_trans; [apply (proj1 (proj2 (C95_ringing c)) R1 R2)|exact R3].
    + destruct (textbook_real_poles S K c HS HK C E1 E2) as (w & v & R1 & R2 & R3 & R4 & R5).
      eapply Rle_trans; [apply (proj1 (C95_ringing c) w v R1 R2 R3 R4)|exact R5].
  - set (D := 1 + S + K) in *. assert (PD : 1 < D) by (unfold D; lra). assert (PI : 0 < / D) by (apply Rinv_0_lt_compat; lra).
    assert (Q2 : forall N m, Rabs N <= m * D -> Rabs (N / D) <= m).
    { intros N m H. unfold Rdiv. rewrite Rabs_mult, (Rabs_pos_eq (/ D)) by lra. apply Rmult_le_reg_r with D; [lra|]. rewrite Rmult_assoc, Rinv_l, Rmult_1_r by lra. exact H. }
    assert (X1 : Rabs (2 * (K - 1) / D) <= 2) by (apply Q2, Rabs_le; unfold D; lra).
    assert (X2 : Rabs ((1 - S + K) / D) <= 1) by (apply Q2, Rabs_le; unfold D; lra).
    unfold feedback_weight. rewrite E1, E2. lra.
Qed.

(** Feed-forward coefficients a/D, b/D, c/D whose outer two have magnitudes of sum at least 2 are never small against 1/G. *)
Lemma rings_enough S K w t : 0 < S -> 0 < K -> 0 <= t -> t * K <= w * (1 + S + K) -> t / 4 <= w / (1 + S + K) * design_ringing S K.
Proof.
  intros HS HK Ht H. unfold design_ringing. set (D := 1 + S + K) in *. assert (PD : 1 < D) by (unfold D; lra).
  set (m := Rmin _ _). assert (Pm : 0 < m <= 4 * K) by (unfold m; split; [apply Rmin_glb_lt; nra|apply Rmin_r]).
  replace (w / D * (D * D / m)) with (w * D / m) by (field; lra).
  apply Rmult_le_reg_r with m; [lra|]. replace (w * D / m * m) with (w * D) by (field; lra).
  apply Rle_trans with (t / 4 * (4 * K)); [apply Rmult_le_compat_l; lra|lra].
Qed.

Lemma textbook_weights S K : 0 < S -> 0 < K ->
  let D := 1 + S + K in
  1 <= forward_weight (textbook_lowpass S K) * design_ringing S K /\ 1 <= forward_weight (textbook_highpass S K) * design_ringing S K /\
  1 <= forward_weight (textbook_allpass S K) /\ 1 <= forward_weight (textbook_notch S K) * design_ringing S K /\
  forward_weight (textbook_lowpass S K) <= 4 /\ forward_weight (textbook_highpass S K) <= 4 /\
  forward_weight (textbook_allpass S K) <= 4 /\ forward_weight (textbook_notch S K) <= 4.
Proof.
  intros HS HK D. assert (PD : 1 < D) by (unfold D; lra). assert (PI : 0 < / D) by (apply Rinv_0_lt_compat; lra).
  assert (Q1 : forall N, Rabs (N / D) = Rabs N / D) by (intros; unfold Rdiv; rewrite Rabs_mult, (Rabs_pos_eq (/ D)) by lra; reflexivity).
  assert (Q2 : forall N m, Rabs N <= m * D -> Rabs (N / D) <= m).
  { intros N m H. rewrite Q1. apply Rmult_le_reg_r with D; [lra|]. unfold Rdiv. rewrite Rmult_assoc, Rinv_l, Rmult_1_r by lra. exact H. }
  assert (X1 : Rabs (2 * (K - 1) / D) <= 2) by (apply Q2, Rabs_le; unfold D; lra).
  assert (X2 : Rabs ((1 - S + K) / D) <= 1) by (apply Q2, Rabs_le; unfold D; lra).
  assert (X3 : Rabs (K / D) <= 1) by (apply Q2, Rabs_le; unfold D; lra).
  assert (X4 : Rabs (2 * K / D) <= 2) by (apply Q2, Rabs_le; unfold D; lra).
  assert (X5 : Rabs (1 / D) <= 1) by (apply Q2, Rabs_le; unfold D; lra).
  assert (X6 : Rabs (-2 / D) <= 2) by (apply Q2, Rabs_le; unfold D; lra).
  assert (X7 : Rabs ((1 + K) / D) <= 1) by (apply Q2, Rabs_le; unfold D; lra).
  pose proof (design_ringing_1 S K HS HK) as G1.
  unfold forward_weight, feedback_weight, textbook_lowpass, textbook_highpass, textbook_allpass, textbook_notch. cbn [b0 b1 b2]. fold D.
  repeat split; try lra.
  - rewrite !Q1, !(Rabs_pos_eq K), (Rabs_pos_eq (2 * K)) by lra.
    replace (K / D + 2 * K / D + K / D) with (4 * K / D) by (field; lra).
    replace 1 with (4 / 4) by lra. apply rings_enough; [lra|lra|lra|]. fold D. nra.
  - rewrite !Q1, (Rabs_pos_eq 1), (Rabs_left (-2)) by lra.
    replace (1 / D + - -2 / D + 1 / D) with (4 / D) by (field; lra).
    replace 1 with (4 / 4) at 1 by lra. apply rings_enough; [lra|lra|lra|]. fold D. unfold D. lra.
  - rewrite Rabs_R1. pose proof (Rabs_pos ((1 - S + K) / D)). pose proof (Rabs_pos (2 * (K - 1) / D)). lra.
  - rewrite !Q1, (Rabs_pos_eq (1 + K)) by lra. assert (0 <= Rabs (2 * (K - 1)) / D) by (apply Rmult_le_pos; [apply Rabs_pos|lra]).
    apply Rle_trans with (2 * (1 + K) / D * design_ringing S K); [|apply Rmult_le_compat_r; [lra|]; replace (2 * (1 + K) / D) with ((1 + K) / D + (1 + K) / D) by (field; lra); lra].
    replace 1 with (4 / 4) at 1 by lra. apply rings_enough; [lra|lra|lra|]. fold D. unfold D. nra.
  - rewrite Rabs_R1. lra.
Qed.

(** Any design with denominator 1 + S + K whose coefficients come out within [e]. *)
Lemma terms_follow (NP : NanPolicy) (S K e M : R) (x : nat -> f32) (c : coeffs f32) (d : coeffs R) :
  0 < S -> 0 < K -> coeffs_within e c d -> a1 d = 2 * (K - 1) / (1 + S + K) -> a2 d = (1 - S + K) / (1 + S + K) ->
  let G := design_ringing S K in let B := forward_weight d in
  pow2 (-20) <= e -> e * G <= 1 / 16 -> 16 * e <= B -> pow2 (-70) <= M -> B * M <= pow2 59 -> samples_within M x ->
  follows c d x (G * (G * B * (1 / 70000 + 11 / 4 * e) + 3 * e) * M).
Proof.
  intros PS PK C E1 E2 G B E20 HE W HM1 HM2 Hx. destruct (textbook_rings S K d PS PK E1 E2) as [Rg WAd]. fold G in Rg.
  assert (G1 : 1 <= G) by (now apply design_ringing_1).
  assert (V20 : pow2 (-20) = / 1048576) by (cbn; lra). rewrite V20 in E20.
  assert (HG6 : G <= 65536) by nra. set (A := feedback_weight d) in *.
  assert (A1 : 1 <= A) by (unfold A, feedback_weight; pose proof (Rabs_pos (a1 d)); pose proof (Rabs_pos (a2 d)); lra).
  assert (M0 : 0 < M) by (assert (0 < pow2 (-70)) by apply bpow_gt_0; lra).
  assert (HBM : pow2 (-89) <= B * M <= pow2 59).
  { split; [|exact HM2]. apply Rle_trans with (pow2 (-16) * pow2 (-70)); [rewrite <- bpow_plus; apply bpow_le; lia|].
    apply Rmult_le_compat; [apply bpow_ge_0|apply bpow_ge_0| |apply HM1]. replace (pow2 (-16)) with (16 * / 1048576) by (cbn; lra). lra. }
  assert (HAG : A * G <= 400000) by (apply Rle_trans with (4 * 65536); [apply Rmult_le_compat; lra|lra]).
  pose proof (C107_filter_follows NP c d e G M x C Rg HE W HAG HBM Hx) as Fo. fold B A in Fo.
  intros n. destruct (Fo n) as [F1 F2]. split; [exact F1|]. eapply Rle_trans; [exact F2|].
  assert (B0 : 0 <= B) by lra.
  assert (Z : A * G * (G * (B * M)) / 280000 <= 4 * G * (G * (B * M)) / 280000).
  { unfold Rdiv. apply Rmult_le_compat_r; [lra|]. apply Rmult_le_compat_r; [apply Rmult_le_pos; [lra|apply Rmult_le_pos; lra]|]. apply Rmult_le_compat_r; lra. }
  apply Rle_trans with (4 * G * (G * (B * M)) / 280000 + e * G * (3 * M + 11 / 4 * (G * (B * M)))); [lra|]. right. field.
Qed.

(** C107: the low-pass, high-pass, all-pass and notch filters, designed and run in f32. *)
Theorem C107_designs_follow : forall (NP : NanPolicy) (MO : MathOps f32) (MR : MathOps R) (fc q sr : f32) (M : R) (x : nat -> f32),
  close_powi MO -> exact_powi MR -> audible fc q sr ->
  let k := design_k (val fc) (val sr) in let G := design_ringing (k / val q) (k * k) in let e := design_error (k / val q) (k * k) in
  e * G <= 1 / 16 -> pow2 (-70) <= M <= pow2 50 -> samples_within M x ->
  let ok c d := let B := forward_weight d in follows c d x (G * (G * B * (1 / 70000 + 11 / 4 * e) + 3 * e) * M) in
  ok (lowpass fc q sr) (lowpass (val fc) (val q) (val sr)) /\ ok (highpass fc q sr) (highpass (val fc) (val q) (val sr)) /\
  ok (allpass fc q sr) (allpass (val fc) (val q) (val sr)) /\ ok (notch fc q sr) (notch (val fc) (val q) (val sr)).
Proof.
  intros NP MO MR fc q sr M x HM HR HA k G e HE HMr Hx ok.
  destruct (C107_design_error NP MO MR fc q sr HM HR HA) as (C1 & C2 & C3 & C4). fold k in C1, C2, C3, C4. fold e in C1, C2, C3, C4.
  assert (X30 : pow2 (-30) <= pow2 (-10)) by (apply bpow_le; lia).
  pose proof (wide _ _ _ _ _ X30 (Rle_refl _) HA) as (Ff & Hs & Hxx & Hq'). destruct (setup_ok MO fc q sr HM Ff Hs Hxx Hq') as (K & _).
  assert (X0 : 0 < pow2 (-30)) by apply bpow_gt_0.
  assert (Pf : 0 < val fc).
  { assert (Y : 0 < pi32 * val fc / val sr * val sr) by (apply Rmult_lt_0_compat; lra).
    replace (pi32 * val fc / val sr * val sr) with (pi32 * val fc) in Y by (field; lra). pose proof pi32_range. nra. }
  assert (Ps : 0 < val sr) by lra. assert (Pq : 0 < val q) by lra. fold k in K.
  unfold ok. rewrite (lowpass_form MR HR _ _ _ Pf Pq Ps) in *. rewrite (highpass_form MR HR _ _ _ Pf Pq Ps) in *.
  rewrite (allpass_form MR HR _ _ _ Pf Pq Ps) in *. rewrite (notch_form MR HR _ _ _ Pf Pq Ps) in *. fold k in C1, C2, C3, C4. fold k.
  assert (PS : 0 < k / val q) by (apply Rdiv_lt_0_compat; lra). assert (PK : 0 < k * k) by (apply Rmult_lt_0_compat; lra).
  set (S := k / val q) in *. set (KK := k * k) in *.
  destruct (textbook_weights S KK PS PK) as (W1 & W2 & W3 & W4 & U1 & U2 & U3 & U4). fold G in W1, W2, W4.
  assert (G1 : 1 <= G) by (now apply design_ringing_1).
  assert (E20 : pow2 (-20) <= e).
  { unfold e, design_error. assert (0 <= (S + KK) / (1 + S + KK)) by (apply Rmult_le_pos; [lra|left; apply Rinv_0_lt_compat; lra]).
    assert (0 < pow2 (-20)) by apply bpow_gt_0. nra. }
  assert (e16 : 16 * e <= 1) by (assert (0 < pow2 (-20)) by apply bpow_gt_0; nra).
  assert (WG : forall w, 1 <= w * G -> 16 * e <= w) by (intros w Hw; apply Rmult_le_reg_r with G; lra).
  assert (BM : forall w, 16 * e <= w <= 4 -> w * M <= pow2 59).
  { assert (0 < pow2 (-20)) by apply bpow_gt_0. assert (0 < pow2 (-70)) by apply bpow_gt_0.
    intros w Hw. apply Rle_trans with (pow2 2 * pow2 50); [|rewrite <- bpow_plus; apply bpow_le; lia].
    apply Rmult_le_compat; [lra|lra|replace (pow2 2) with 4 by (cbn; lra); apply Hw|apply HMr]. }
  apply WG in W1, W2, W4. assert (W3' : 16 * e <= forward_weight (textbook_allpass S KK)) by lra.
  split; [|split; [|split]]; apply (terms_follow NP S KK e M x); try assumption; try reflexivity; try apply HMr; apply BM; split; assumption.
Qed.
Print Assumptions C107_designs_follow.

(** A low-pass at 1 kHz and 48 kHz with q = 1, with powers by repeated multiplication, meets the hypotheses ([C107_met]):
    designed and run in f32, its output for any samples within 1 is for ever within 1/30 of the ideal filter's. *)
Lemma k_1khz : 654 / 10000 <= design_k 1000 48000 <= 656 / 10000.
Proof.
  unfold design_k. set (y := pi32 * 1000 / 48000). assert (Y : 6544 / 100000 <= y <= 6546 / 100000) by (unfold y, pi32; change (IZR (2 ^ 22)) with 4194304; lra).
  clearbody y. split; [pose proof (tan_poly_ge y ltac:(lra)); lra|].
  assert (P : forall n, 0 <= y ^ n <= (6546 / 100000) ^ n) by (intros n; split; [apply pow_le; lra|apply pow_incr; lra]).
  unfold tan_poly. pose proof (P 3%nat). pose proof (P 5%nat). pose proof (P 7%nat). pose proof (P 9%nat). pose proof (P 11%nat). pose proof (P 13%nat). pose proof (P 15%nat). lra.
Qed.

Lemma numbers_1khz : let k := design_k 1000 48000 in
  1 <= design_ringing (k / 1) (k * k) <= 268 /\ 0 <= design_error (k / 1) (k * k) <= 316 / 100000000 /\
  0 <= forward_weight (textbook_lowpass (k / 1) (k * k)) <= 162 / 10000.
Proof.
  intros k. pose proof k_1khz as K. fold k in K. clearbody k. replace (k / 1) with k by field.
  assert (KK : 654 / 10000 * (654 / 10000) <= k * k <= 656 / 10000 * (656 / 10000)) by (split; apply Rmult_le_compat; lra).
  assert (I : 0 < / (1 + k + k * k) <= 10000 / 10696).
  { split; [apply Rinv_0_lt_compat; lra|]. replace (10000 / 10696) with (/ (10696 / 10000)) by lra. apply Rinv_le_contravar; lra. }
  split; [|split].
  - split; [apply design_ringing_1; lra|]. unfold design_ringing. rewrite Rmin_left by lra.
    replace ((1 + k + k * k) * (1 + k + k * k) / (k * k)) with ((1 + k + k * k) / k * ((1 + k + k * k) / k)) by (field; lra).
    assert (Q : 0 <= (1 + k + k * k) / k <= 1636 / 100).
    { split; [apply Rmult_le_pos; [lra|left; apply Rinv_0_lt_compat; lra]|]. apply Rmult_le_reg_r with k; [lra|]. unfold Rdiv. rewrite Rmult_assoc, Rinv_l by lra. lra. }
    apply Rle_trans with (1636 / 100 * (1636 / 100)); [apply Rmult_le_compat; lra|lra].
  - unfold design_error. replace (pow2 (-20)) with (/ 1048576) by (cbn; lra).
    assert (Q : 0 <= (k + k * k) / (1 + k + k * k) <= 66 / 1000).
    { split; [apply Rmult_le_pos; lra|]. apply Rle_trans with ((656 / 10000 + 656 / 10000 * (656 / 10000)) * (10000 / 10696)); [apply Rmult_le_compat; lra|lra]. }
    lra.
  - unfold forward_weight, textbook_lowpass. cbn [b0 b1 b2].
    assert (Q : 0 <= k * k / (1 + k + k * k) <= 405 / 100000).
    { split; [apply Rmult_le_pos; lra|]. apply Rle_trans with (656 / 10000 * (656 / 10000) * (10000 / 10696)); [apply Rmult_le_compat; lra|lra]. }
    replace (2 * (k * k) / (1 + k + k * k)) with (2 * (k * k / (1 + k + k * k))) by (field; lra). rewrite Rabs_mult, !(Rabs_pos_eq (k * k / _)), (Rabs_pos_eq 2) by lra. lra.
Qed.

Example C107_met (NP : NanPolicy) (x : nat -> f32) : samples_within 1 x ->
  let MO := mul_math in let MR := powi_math in
  follows (lowpass (of_int 1000) (of_int 1) (of_int 48000)) (lowpass 1000 1 48000) x (1 / 30).
Proof.
  intros Hx MO MR. destruct (C97_met NP) as (P1 & P2 & P3 & _).
  assert (V1 : val (of_int 1000) = 1000) by (apply of_int_exact; lia). assert (V2 : val (of_int 1) = 1) by (apply of_int_exact; lia).
  assert (V3 : val (of_int 48000) = 48000) by (apply of_int_exact; lia).
  pose proof (C107_designs_follow NP MO MR (of_int 1000) (of_int 1) (of_int 48000) 1 x P1 P2 P3) as C. cbv zeta in C. rewrite V1, V2, V3 in C.
  destruct numbers_1khz as (G & E & B). set (g := design_ringing _ _) in *. set (e := design_error _ _) in *.
  assert (Eq : lowpass 1000 1 48000 = textbook_lowpass (design_k 1000 48000 / 1) (design_k 1000 48000 * design_k 1000 48000)) by (apply (lowpass_form MR P2); lra).
  destruct C as (C & _); [| |exact Hx|].
  - apply Rle_trans with (316 / 100000000 * 268); [apply Rmult_le_compat; lra|lra].
  - split; [apply Rle_trans with (pow2 0); [apply bpow_le; lia|cbn; lra]|apply Rle_trans with (pow2 0); [cbn; lra|apply bpow_le; lia]].
  - intros n. destruct (C n) as [F D]. split; [exact F|]. eapply Rle_trans; [exact D|]. rewrite <- Eq in B. set (b := forward_weight (lowpass 1000 1 48000)) in *. clearbody g e b.
    assert (GB : 0 <= g * b <= 268 * (162 / 10000)) by (split; [apply Rmult_le_pos; lra|apply Rmult_le_compat; lra]).
    assert (T : 0 <= g * b * (1 / 70000 + 11 / 4 * e) <= 268 * (162 / 10000) * (1 / 70000 + 11 / 4 * (316 / 100000000))) by (split; [apply Rmult_le_pos; lra|apply Rmult_le_compat; lra]).
    rewrite Rmult_1_r. apply Rle_trans with (268 * (268 * (162 / 10000) * (1 / 70000 + 11 / 4 * (316 / 100000000)) + 3 * (316 / 100000000))); [apply Rmult_le_compat; lra|lra].
Qed.
