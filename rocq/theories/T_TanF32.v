(** * Theorems: the tangent and the filter designs in f32 against exact arithmetic (C97). *)

From Coq Require Import ZArith List Bool Reals Lia Lra Psatz.
From Flocq Require Import Core.
From Verif Require Import Base F32 F32Lemmas F32Range Num M_FloatMath M_Biquad S_Biquad S_BiquadF32 S_DesignF32 S_TanF32
  P_DelayNum P_Interp P_Biquad P_Butterworth P_Tan P_DesignF32 P_TanF32 T_Biquad T_Tan T_DesignF32.
Local Open Scope R_scope.

Lemma tan_poly_odd x : tan_poly (- x) = - tan_poly x.
Proof. unfold tan_poly. field. Qed.

Lemma tan_final k v : Rabs (k - tan_poly v) <= 28 * u * tan_poly (Rabs v) + fl ->
  Rabs (k - tan_poly v) <= pow2 (-19) * tan_poly (Rabs v) + pow2 (-130) /\
  (Rabs v <= 1 -> Rabs (k - tan v) <= Rabs v ^ 17 / 1000 + pow2 (-19) * tan (Rabs v) + pow2 (-130)).
Proof.
  intros E. replace (pow2 (-19)) with (32 * u) by (unfold u; cbn; lra). fold fl.
  pose proof (tan_poly_ge (Rabs v) (Rabs_pos v)) as G. pose proof (Rabs_pos v) as P0.
  assert (E' : Rabs (k - tan_poly v) <= 32 * u * tan_poly (Rabs v) + fl).
  { eapply Rle_trans; [exact E|]. set (T := tan_poly (Rabs v)) in *. clearbody T. unfold u. lra. }
  split; [exact E'|]. intros H1.
  destruct (Req_dec v 0) as [->|N0].
  { rewrite tan_0. rewrite tan_poly_0 in E'. rewrite Rabs_R0 in *. rewrite tan_0. rewrite tan_poly_0 in E'. lra. }
  assert (P1 : 0 < Rabs v) by (now apply Rabs_pos_lt).
  assert (PI2 : Rabs v < PI / 2) by (pose proof PI2_1; lra).
  pose proof (tan_poly_below (Rabs v) (conj P1 PI2)) as B1. pose proof (proj2 (C76_fast_tan_accuracy powi_math ltac:(intros ? ? ?; reflexivity) (Rabs v)) ltac:(lra)) as B2.
  rewrite (fast_tan_R powi_math) in B2 by (intros ? ? ?; reflexivity).
  assert (B3 : Rabs (tan_poly v - tan v) = Rabs (tan_poly (Rabs v) - tan (Rabs v))).
  { destruct (Rle_or_lt 0 v) as [L|L]; [rewrite (Rabs_pos_eq v) by lra; reflexivity|].
    rewrite (Rabs_left v) by lra. rewrite tan_poly_odd, tan_neg. replace (- tan_poly v - - tan v) with (- (tan_poly v - tan v)) by ring.
    now rewrite Rabs_Ropp. }
  assert (B4 : Rabs (tan_poly v - tan v) <= Rabs v ^ 17 / 1000) by (rewrite B3; apply Rabs_le; lra).
  replace (k - tan v) with ((k - tan_poly v) + (tan_poly v - tan v)) by ring. eapply Rle_trans; [apply Rabs_triang|].
  assert (32 * u * tan_poly (Rabs v) <= 32 * u * tan (Rabs v)) by (apply Rmult_le_compat_l; [unfold u; lra|lra]). lra.
Qed.

(** C97: [fast_tan] in f32 is within a relative 2^-19 of its polynomial on [-2, 2] and, with the error of the polynomial,
    of the tangent on [-1, 1]. *)
Theorem C97_fast_tan_f32 : forall (NP : NanPolicy) (MO : MathOps f32) (x : f32), close_powi MO -> fin x = true -> Rabs (val x) <= 2 ->
  fin (fast_tan x) = true /\
  Rabs (val (fast_tan x) - tan_poly (val x)) <= pow2 (-19) * tan_poly (Rabs (val x)) + pow2 (-130) /\
  (Rabs (val x) <= 1 -> Rabs (val (fast_tan x) - tan (val x)) <= Rabs (val x) ^ 17 / 1000 + pow2 (-19) * tan (Rabs (val x)) + pow2 (-130)).
Proof.
  intros NP MO x HM Fx Hx. destruct (fast_tan_f32 MO x HM Fx Hx) as [F E]. split; [exact F|]. exact (tan_final _ _ E).
Qed.
Print Assumptions C97_fast_tan_f32.

(** The quantities a design starts from. *)
Theorem C97_setup_accuracy : forall (NP : NanPolicy) (MO : MathOps f32) (fc q sr : f32),
  close_powi MO -> design_args (pow2 (-30)) (3 / 2) fc q sr ->
  let s := snd (setup_coeffs fc q sr) in let k2 := fst (setup_coeffs fc q sr) in let k := design_k (val fc) (val sr) in
  fin s = true /\ fin k2 = true /\ Rabs (val s - k / val q) <= pow2 (-18) * (k / val q) /\ Rabs (val k2 - k * k) <= pow2 (-17) * (k * k).
Proof.
  intros NP MO fc q sr HM (Ff & Hs & Hx & Hq) s k2 k. destruct (setup_ok MO fc q sr HM Ff Hs Hx Hq) as (K & F1 & F2 & E1 & E2).
  fold k in K, E1, E2. fold s in F1, E1. fold k2 in F2, E2. split; [exact F1|]. split; [exact F2|].
  replace (pow2 (-18)) with (64 * u) by (unfold u; cbn; lra). replace (pow2 (-17)) with (128 * u) by (unfold u; cbn; lra).
  assert (0 < pow2 (-30)) by apply bpow_gt_0.
  assert (0 <= k / val q) by (apply Rmult_le_pos; [lra|left; apply Rinv_0_lt_compat; lra]). assert (0 <= k * k) by (apply Rmult_le_pos; lra).
  set (a := k / val q) in *. set (b := k * k) in *. clearbody a b. unfold u in *. split; lra.
Qed.
Print Assumptions C97_setup_accuracy.

Lemma wide lo hi fc q sr : pow2 (-30) <= lo -> hi <= 3 / 2 -> design_args lo hi fc q sr -> design_args (pow2 (-30)) (3 / 2) fc q sr.
Proof. intros L H (A & B & C & D). repeat split; try tauto; lra. Qed.

Lemma audible_moderate {NP : NanPolicy} (MO : MathOps f32) fc q sr : close_powi MO -> audible fc q sr ->
  moderate (snd (setup_coeffs fc q sr)) (fst (setup_coeffs fc q sr)).
Proof.
  intros HM (Ff & Hs & Hx0 & Hq). assert (X30 : pow2 (-30) <= pow2 (-10)) by (apply bpow_le; lia).
  assert (Hx : pow2 (-30) <= pi32 * val fc / val sr <= 3 / 2) by lra.
  destruct (setup_ok MO fc q sr HM Ff Hs Hx Hq) as (K30 & F1 & F2 & E1 & E2).
  assert (K : pow2 (-10) <= design_k (val fc) (val sr) <= 15).
  { split; [|lra]. unfold design_k. eapply Rle_trans; [apply Hx0|]. apply tan_poly_ge. assert (0 < pow2 (-30)) by apply bpow_gt_0. lra. }
  unfold moderate. set (s := snd (setup_coeffs fc q sr)) in *. set (k2 := fst (setup_coeffs fc q sr)) in *. set (k := design_k (val fc) (val sr)) in *.
  clearbody s k2 k. replace (pow2 (-10)) with (/ 1024) in K by (cbn; lra).
  assert (Qb : / 1024 <= / val q <= 8).
  { split; [apply Rinv_le_contravar; lra|]. apply Rle_trans with (/ (/ 8)); [apply Rinv_le_contravar; lra|lra]. }
  unfold Rdiv in E1. set (i := / val q) in *. clearbody i.
  assert (S1 : k * / 1024 <= k * i <= k * 8) by (split; apply Rmult_le_compat_l; lra).
  assert (K1 : k * / 1024 <= k * k <= k * 15) by (split; apply Rmult_le_compat_l; lra).
  apply Rabs_le_inv in E1, E2. set (S := k * i) in *. set (KK := k * k) in *. clearbody S KK. unfold u in *.
  split; [exact F1|]. split; [exact F2|]. lra.
Qed.

Lemma within_trans e e' c d d' : coeffs_within e c d ->
  Rabs (b0 d - b0 d') <= e' -> Rabs (b1 d - b1 d') <= e' -> Rabs (b2 d - b2 d') <= e' -> Rabs (a1 d - a1 d') <= e' -> Rabs (a2 d - a2 d') <= e' ->
  coeffs_within (e + e') c d'.
Proof.
  intros (F & H1 & H2 & H3 & H4 & H5) G1 G2 G3 G4 G5. split; [exact F|].
  repeat split; match goal with |- Rabs (?x - ?z) <= _ => match goal with H : Rabs (x - ?y) <= e |- _ =>
    replace (x - z) with ((x - y) + (y - z)) by ring end end; (eapply Rle_trans; [apply Rabs_triang|]); apply Rplus_le_compat; assumption.
Qed.
Lemma within_weaken e e' c d : e <= e' -> coeffs_within e c d -> coeffs_within e' c d.
Proof. intros H (F & H1 & H2 & H3 & H4 & H5). split; [exact F|]. repeat split; eapply Rle_trans; eassumption. Qed.

(** The coefficients computed in f32 are within 2^-15 of those of the same design in exact arithmetic, and the filters are stable. *)
Theorem C97_designs_accurate : forall (NP : NanPolicy) (MO : MathOps f32) (MR : MathOps R) (fc q sr : f32),
  close_powi MO -> exact_powi MR -> audible fc q sr ->
  let close c d := coeffs_within (pow2 (-15)) c d /\ well_behaved (exact_coeffs c) in
  close (lowpass fc q sr) (lowpass (val fc) (val q) (val sr)) /\ close (highpass fc q sr) (highpass (val fc) (val q) (val sr)) /\
  close (allpass fc q sr) (allpass (val fc) (val q) (val sr)) /\ close (notch fc q sr) (notch (val fc) (val q) (val sr)).
Proof.
  intros NP MO MR fc q sr HM HR HA close. pose proof (audible_moderate MO fc q sr HM HA) as M.
  destruct (C96_rounded_designs_stable NP MO fc q sr (of_int 1)) as [St _]. specialize (St M).
  destruct St as ((_ & _ & S1) & (_ & _ & S2) & (_ & _ & S3) & (_ & _ & S4) & _).
  assert (X30 : pow2 (-30) <= pow2 (-10)) by (apply bpow_le; lia).
  pose proof (wide _ _ _ _ _ X30 (Rle_refl _) HA) as (Ff & Hs & Hx & Hq). destruct (setup_ok MO fc q sr HM Ff Hs Hx Hq) as (K & F1 & F2 & E1 & E2).
  assert (X0 : 0 < pow2 (-30)) by apply bpow_gt_0.
  assert (Pf : 0 < val fc).
  { assert (Y : 0 < pi32 * val fc / val sr * val sr) by (apply Rmult_lt_0_compat; lra).
    replace (pi32 * val fc / val sr * val sr) with (pi32 * val fc) in Y by (field; lra). pose proof pi32_range. nra. }
  assert (Ps : 0 < val sr) by lra. assert (Pq : 0 < val q) by lra.
  destruct M as (_ & _ & D1 & D2 & D3).
  assert (Z1 : 0 <= val (snd (setup_coeffs fc q sr)) /\ 0 <= val (fst (setup_coeffs fc q sr))).
  { destruct (Rle_or_lt 0 (1 + val (snd (setup_coeffs fc q sr)) + val (fst (setup_coeffs fc q sr)))); lra. }
  destruct (C96_rounded_coefficients NP MO fc q sr F1 F2 (proj1 Z1) (proj2 Z1) ltac:(lra)) as (C1 & C2 & C3 & C4).
  rewrite (lowpass_form MR HR _ _ _ Pf Pq Ps), (highpass_form MR HR _ _ _ Pf Pq Ps), (allpass_form MR HR _ _ _ Pf Pq Ps), (notch_form MR HR _ _ _ Pf Pq Ps).
  set (s := val (snd (setup_coeffs fc q sr))) in *. set (k2 := val (fst (setup_coeffs fc q sr))) in *.
  set (k := design_k (val fc) (val sr)) in *.
  assert (PS : 0 < k / val q) by (apply Rdiv_lt_0_compat; lra). assert (PK : 0 < k * k) by (apply Rmult_lt_0_compat; lra).
  set (S := k / val q) in *. set (KK := k * k) in *. clearbody s k2 S KK.
  assert (E1' : Rabs (s - S) <= 122 * u * S) by (eapply Rle_trans; [exact E1|]; unfold u; lra).
  replace (pow2 (-20)) with (16 * u) in C1, C2, C3, C4 by (unfold u; cbn; lra).
  pose proof (fun N' N m => sens s k2 S KK N' N m PS PK E1' E2) as Q.
  pose proof E1' as E1''. pose proof E2 as E2''. apply Rabs_le_inv in E1'', E2''.
  assert (W : forall c d d', coeffs_within (16 * u) c d -> well_behaved (exact_coeffs c) ->
    Rabs (b0 d - b0 d') <= 489 * u -> Rabs (b1 d - b1 d') <= 489 * u -> Rabs (b2 d - b2 d') <= 489 * u -> Rabs (a1 d - a1 d') <= 489 * u -> Rabs (a2 d - a2 d') <= 489 * u ->
    close c d').
  { intros c d d' H1 H2 G1 G2 G3 G4 G5. split; [|exact H2]. apply within_weaken with (16 * u + 489 * u); [unfold u; cbn; lra|]. now apply within_trans with d. }
  assert (A1 : Rabs (2 * (k2 - 1) / (1 + s + k2) - 2 * (KK - 1) / (1 + S + KK)) <= 489 * u).
  { apply (Q _ _ 244); [apply Rabs_le; unfold u in *; lra|lra|apply Rabs_le; lra]. }
  assert (A2 : Rabs ((1 - s + k2) / (1 + s + k2) - (1 - S + KK) / (1 + S + KK)) <= 489 * u).
  { apply (Q _ _ 244); [apply Rabs_le; unfold u in *; lra|lra|apply Rabs_le; lra]. }
  assert (A3 : Rabs (k2 / (1 + s + k2) - KK / (1 + S + KK)) <= 489 * u).
  { apply (Q _ _ 244); [apply Rabs_le; unfold u in *; lra|lra|apply Rabs_le; lra]. }
  assert (A4 : Rabs (2 * k2 / (1 + s + k2) - 2 * KK / (1 + S + KK)) <= 489 * u).
  { apply (Q _ _ 244); [apply Rabs_le; unfold u in *; lra|lra|apply Rabs_le; lra]. }
  assert (A5 : Rabs (1 / (1 + s + k2) - 1 / (1 + S + KK)) <= 489 * u).
  { apply (Q _ _ 0); [apply Rabs_le; unfold u in *; lra|lra|apply Rabs_le; lra]. }
  assert (A6 : Rabs (-2 / (1 + s + k2) - - 2 / (1 + S + KK)) <= 489 * u).
  { apply (Q _ _ 0); [apply Rabs_le; unfold u in *; lra|lra|apply Rabs_le; lra]. }
  assert (A7 : Rabs ((1 + k2) / (1 + s + k2) - (1 + KK) / (1 + S + KK)) <= 489 * u).
  { apply (Q _ _ 244); [apply Rabs_le; unfold u in *; lra|lra|apply Rabs_le; lra]. }
  assert (A8 : Rabs (1 - 1) <= 489 * u) by (rewrite Rminus_eq_0, Rabs_R0; unfold u; lra).
  clear Q. split; [|split; [|split]].
  - apply (W _ _ _ C1 S1); cbn [b0 b1 b2 a1 a2 textbook_lowpass]; assumption.
  - apply (W _ _ _ C2 S2); cbn [b0 b1 b2 a1 a2 textbook_highpass]; assumption.
  - apply (W _ _ _ C3 S3); cbn [b0 b1 b2 a1 a2 textbook_allpass]; assumption.
  - apply (W _ _ _ C4 S4); cbn [b0 b1 b2 a1 a2 textbook_notch]; assumption.
Qed.
Print Assumptions C97_designs_accurate.

(** Refuted: for no cut-off below 0.93 Hz (at 48 kHz) is the low-pass in f32 a stable filter of gain 1 for a constant input. *)
Theorem C97_low_cutoff_refuted : forall (NP : NanPolicy) (MO : MathOps f32) (fc q sr : f32), close_powi MO -> subsonic fc q sr ->
  let c := exact_coeffs (lowpass fc q sr) in ~ poles_inside c \/ exists g, dc_gain c g /\ 0 <= g <= 51 / 100.
Proof.
  intros NP MO fc q sr HM HA. assert (X14 : pow2 (-14) <= 3 / 2) by (apply Rle_trans with (pow2 0); [apply bpow_le; lia|cbn; lra]).
  pose proof (wide _ _ _ _ _ (Rle_refl _) X14 HA) as (Ff & Hs & Hx & Hq). destruct HA as (_ & _ & Hx' & _).
  destruct (setup_ok MO fc q sr HM Ff Hs Hx Hq) as (K & F1 & F2 & E1 & E2).
  assert (K14 : design_k (val fc) (val sr) <= 101 / 100 * pow2 (-14)).
  { unfold design_k. assert (P30 : 0 < pow2 (-30)) by apply bpow_gt_0. set (y := pi32 * val fc / val sr) in *. clearbody y.
    replace (pow2 (-14)) with (/ 16384) in * by (cbn; lra).
    assert (B : forall n, y ^ S n <= y).
    { intros n. cbn [pow]. rewrite <- (Rmult_1_r y) at 3. apply Rmult_le_compat_l; [lra|]. rewrite <- (pow1 n). apply pow_incr. lra. }
    assert (C : forall n, y ^ S (S n) <= / 16384 * y).
    { intros n. change (y ^ S (S n)) with (y * y ^ S n). rewrite (Rmult_comm (/ 16384)). apply Rmult_le_compat_l; [lra|]. pose proof (B n). lra. }
    unfold tan_poly. pose proof (C 1%nat). pose proof (C 3%nat). pose proof (C 5%nat). pose proof (C 7%nat). pose proof (C 9%nat). pose proof (C 11%nat). pose proof (C 13%nat). lra. }
  assert (P30 : 0 < pow2 (-30)) by apply bpow_gt_0.
  apply C96_low_cutoff_refuted; [exact F1|exact F2| |];
    set (k := design_k (val fc) (val sr)) in *; replace (pow2 (-14)) with (/ 16384) in K14 by (cbn; lra); apply Rabs_le_inv in E1, E2.
  - assert (Q8 : 0 < / val q <= 8).
    { split; [apply Rinv_0_lt_compat; lra|]. apply Rle_trans with (/ (/ 8)); [apply Rinv_le_contravar; lra|lra]. }
    assert (Z : 0 <= k / val q <= 101 / 100 / 16384 * 8) by (unfold Rdiv at 1 2; split; [apply Rmult_le_pos; lra|apply Rmult_le_compat; lra]).
    set (z := k / val q) in *. clearbody z. unfold u in *. lra.
  - assert (Z1 : 0 < k * k) by (apply Rmult_lt_0_compat; lra).
    assert (Z2 : k * k <= (101 / 100 / 16384) * (101 / 100 / 16384)) by (apply Rmult_le_compat; lra).
    replace (pow2 (-27)) with (/ 134217728) by (cbn; lra). set (z := k * k) in *. clearbody z. unfold u in *. lra.
Qed.
Print Assumptions C97_low_cutoff_refuted.

(** The hypotheses are met: integer powers by repeated multiplication, and 1 kHz at 48 kHz with q = 1. *)
Lemma iter_close {NP : NanPolicy} (x : f32) (m : nat) : (m <= 14)%nat -> fin x = true -> Rabs (val x) <= 2 ->
  fin (Nat.iter m (fmul x) x) = true /\
  Rabs (val (Nat.iter m (fmul x) x) - val x ^ S m) <= 101 / 100 * INR m * u * Rabs (val x) ^ S m + 11 / 10 * (2 ^ m - 1) * t.
Proof.
  intros Hm Fx Hx. induction m.
  { cbn [Nat.iter nat_rect]. split; [exact Fx|]. rewrite pow_1, Rminus_eq_0, Rabs_R0. cbn. lra. }
  destruct (IHm ltac:(lia)) as [Fy Ey]. clear IHm. cbn [Nat.iter nat_rect]. fold (Nat.iter m (fmul x) x). set (y := Nat.iter m (fmul x) x) in *. clearbody y.
  rewrite S_INR. change (val x ^ S (S m)) with (val x * val x ^ S m). change (Rabs (val x) ^ S (S m)) with (Rabs (val x) * Rabs (val x) ^ S m).
  change (2 ^ S m) with (2 * 2 ^ m).
  assert (I : 0 <= INR m <= 13) by (split; [apply pos_INR|replace 13 with (INR 13) by (cbn; lra); apply le_INR; lia]).
  assert (J : 1 <= 2 ^ m <= 8192).
  { split; [apply pow_R1_Rle; lra|]. replace 8192 with (2 ^ 13) by lra. apply Rle_pow; [lra|lia]. }
  assert (P : 0 <= Rabs (val x) ^ S m <= 32768).
  { split; [apply pow_le, Rabs_pos|]. replace 32768 with (2 ^ 15) by lra.
    apply Rle_trans with (2 ^ S m); [apply pow_incr; split; [apply Rabs_pos|exact Hx]|apply Rle_pow; [lra|lia]]. }
  assert (Q : Rabs (val x ^ S m) = Rabs (val x) ^ S m) by (rewrite RPow_abs; reflexivity).
  pose proof (Rabs_pos (val x)) as X0. pose proof t_range as T.
  set (X := val x ^ S m) in *. set (A := Rabs (val x) ^ S m) in *. set (p := 2 ^ m) in *. set (n := INR m) in *. clearbody X A p n.
  set (v := val x) in *. set (a := Rabs v) in *.
  assert (E1 : Rabs (v * val y - v * X) <= 101 / 100 * n * u * (a * A) + 2 * (11 / 10 * (p - 1) * t)).
  { replace (v * val y - v * X) with (v * (val y - X)) by ring. rewrite Rabs_mult. fold a.
    eapply Rle_trans; [apply Rmult_le_compat_l; [exact X0|exact Ey]|]. rewrite Rmult_plus_distr_l.
    assert (a * (11 / 10 * (p - 1) * t) <= 2 * (11 / 10 * (p - 1) * t)) by (apply Rmult_le_compat_r; [apply Rmult_le_pos; lra|exact Hx]). lra. }
  assert (E2 : Rabs (v * X) = a * A) by (rewrite Rabs_mult, Q; reflexivity).
  assert (Z : 0 <= a * A <= 65536) by (split; [apply Rmult_le_pos; lra|apply Rle_trans with (2 * 32768); [apply Rmult_le_compat; lra|lra]]).
  assert (nu : 0 <= n * u * (a * A) <= 13 * u * (a * A)).
  { split; [apply Rmult_le_pos; [apply Rmult_le_pos; [lra|unfold u; lra]|lra]|]. apply Rmult_le_compat_r; [lra|]. apply Rmult_le_compat_r; [unfold u; lra|lra]. }
  assert (pt : 0 <= (p - 1) * t <= 8192 * t) by (split; [apply Rmult_le_pos; lra|apply Rmult_le_compat_r; lra]).
  assert (E3 : Rabs (v * val y) <= (1 + 14 * u) * (a * A) + 20000 * t).
  { replace (v * val y) with ((v * val y - v * X) + v * X) by ring. eapply Rle_trans; [apply Rabs_triang|]. rewrite E2. unfold u in *. lra. }
  destruct (mul_u x y Fx Fy) as [Fm Em]; [fold v; apply small100; eapply Rle_trans; [exact E3|]; unfold u in *; lra|].
  split; [exact Fm|]. fold v in Em. set (w := val (fmul x y)) in *. clearbody w.
  replace (w - v * X) with ((w - v * val y) + (v * val y - v * X)) by ring. eapply Rle_trans; [apply Rabs_triang|].
  assert (E4 : u * Rabs (v * val y) <= u * ((1 + 14 * u) * (a * A) + 20000 * t)) by (apply Rmult_le_compat_l; [unfold u; lra|exact E3]).
  set (W := a * A) in *. clearbody W. unfold u in *. lra.
Qed.

Example C97_met (NP : NanPolicy) : close_powi mul_math /\ exact_powi powi_math /\ audible (of_int 1000) (of_int 1) (of_int 48000) /\
  subsonic (lit 1 (-1)) (of_int 1) (of_int 48000).
Proof.
  split; [|split; [|split]].
  - intros x n Hn Fx Hx. cbn [m_powi mul_math]. destruct (iter_close x (Z.to_nat n - 1) ltac:(lia) Fx Hx) as [F E]. split; [exact F|].
    replace (S (Z.to_nat n - 1)) with (Z.to_nat n) in E by lia. eapply Rle_trans; [exact E|].
    assert (I : 0 <= INR (Z.to_nat n - 1) <= 14) by (split; [apply pos_INR|replace 14 with (INR 14) by (cbn; lra); apply le_INR; lia]).
    assert (J : 1 <= 2 ^ (Z.to_nat n - 1) <= 16384).
    { split; [apply pow_R1_Rle; lra|]. replace 16384 with (2 ^ 14) by lra. apply Rle_pow; [lra|lia]. }
    assert (P : 0 <= Rabs (val x) ^ Z.to_nat n) by (apply pow_le, Rabs_pos).
    replace (pow2 (-20)) with (16 * u) by (unfold u; cbn; lra).
    replace (pow2 (-130)) with (1048576 * t) by (unfold t; replace (-130)%Z with (20 + -150)%Z by lia; rewrite bpow_plus; change (pow2 20) with 1048576; reflexivity).
    pose proof t_range. apply Rplus_le_compat.
    + apply Rmult_le_compat_r; [exact P|]. apply Rmult_le_compat_r; [unfold u; lra|lra].
    + apply Rmult_le_compat_r; lra.
  - intros x n Hn. reflexivity.
  - assert (V1 : val (of_int 1000) = 1000) by (apply of_int_exact; lia). assert (V2 : val (of_int 1) = 1) by (apply of_int_exact; lia).
    assert (V3 : val (of_int 48000) = 48000) by (apply of_int_exact; lia). unfold audible, design_args. rewrite V1, V2, V3.
    split; [apply of_int_exact; lia|]. pose proof pi32_range. replace (pow2 (-10)) with (/ 1024) by (cbn; lra). lra.
  - destruct (lit_exact 1 (-1) ltac:(lia) ltac:(lia)) as [F1 V1]. assert (V2 : val (of_int 1) = 1) by (apply of_int_exact; lia).
    assert (V3 : val (of_int 48000) = 48000) by (apply of_int_exact; lia). unfold subsonic, design_args. rewrite V1, V2, V3.
    split; [exact F1|]. pose proof pi32_range. replace (pow2 (-1)) with (/ 2) by (cbn; lra).
    replace (pow2 (-30)) with (/ 1073741824) by (cbn; lra). replace (pow2 (-14)) with (/ 16384) by (cbn; lra). lra.
Qed.
