(** * Theorems: a biquad in f32 stays close to the same biquad in exact arithmetic (C95). *)

From Coq Require Import ZArith List Bool Reals Lia Lra Psatz.
From Flocq Require Import Core.
From Verif Require Import Base F32 F32Lemmas F32Range Num M_FloatMath M_Biquad S_Biquad S_BiquadF32 P_DelayNum P_Biquad P_Comb P_BiquadF32.
Local Open Scope R_scope.

(** C95: if the recursive part rings by G in total, then with inputs within M, for ever, the output
    is finite, stays within twice the bound G * B * M of the exact output and within a fraction
    A * G / 500000 of that bound of the exact output itself. *)
Theorem C95_biquad_tracks : forall (NP : NanPolicy) (c : coeffs f32) (G M : R) (x : nat -> f32),
  let B := forward_weight (exact_coeffs c) in let A := feedback_weight (exact_coeffs c) in
  finite_coeffs c -> ringing (exact_coeffs c) G -> A * G <= 524288 -> pow2 (-90) <= B * M <= pow2 60 ->
  (forall n, fin (x n) = true /\ Rabs (val (x n)) <= M) ->
  forall n, fin (response (bq_new c) x n) = true /\
    Rabs (val (response (bq_new c) x n) - response (bq_new (exact_coeffs c)) (fun k => val (x k)) n) <= A * G * (G * (B * M)) / 500000 /\
    Rabs (val (response (bq_new c) x n)) <= 2 * (G * (B * M)).
Proof.
  intros NP c G M x B A Fc HG HAG HM Hx n. destruct (track c Fc G M HG HAG HM x Hx n) as (F & D & Y & _).
  split; [exact F|]. split; [exact D|exact Y].
Qed.
Print Assumptions C95_biquad_tracks.

(** ** How much a filter rings *)
Section Ringing.
Variables p q : R.
Let g := response (bq_new (BC 1 0 0 p q)) unit_impulse.

Lemma g_0 : g 0 = 1.
Proof. unfold g. rewrite response_rest. unfold ago, unit_impulse. cbn. ring. Qed.
Lemma g_1 : g 1 = - p.
Proof. unfold g. rewrite response_rest. unfold ago. cbn [Nat.ltb Nat.leb Nat.sub b0 b1 b2 a1 a2 unit_impulse]. fold g. rewrite g_0. ring. Qed.
Lemma g_SS n : g (S (S n)) = - p * g (S n) - q * g n.
Proof. unfold g at 1. rewrite response_rest. unfold ago. cbn [Nat.ltb Nat.leb Nat.sub b0 b1 b2 a1 a2 unit_impulse]. fold g. rewrite Nat.sub_0_r. ring. Qed.

Lemma geo_le Q n : 0 <= Q < 1 -> sum_f_R0 (fun k => Q ^ k) n <= / (1 - Q).
Proof.
  intros H. rewrite tech3 by lra. unfold Rdiv. rewrite <- (Rmult_1_l (/ (1 - Q))) at 2.
  apply Rmult_le_compat_r; [left; apply Rinv_0_lt_compat; lra|]. pose proof (pow_le Q (S n) (proj1 H)). lra.
Qed.

Lemma ring_sum P Q : 0 <= P < 1 -> 0 <= Q < 1 -> (forall n, Rabs (g (S n)) <= P * Rabs (g n) + Q ^ S n) ->
  forall N, sum_f_R0 (fun n => Rabs (g n)) N <= / ((1 - P) * (1 - Q)).
Proof.
  intros HP HQ H N.
  assert (I : sum_f_R0 (fun n => Rabs (g n)) (S N) <= P * sum_f_R0 (fun n => Rabs (g n)) N + sum_f_R0 (fun k => Q ^ k) (S N)).
  { induction N as [|N IH].
    - cbn [sum_f_R0]. pose proof (H 0%nat). rewrite g_0, Rabs_R1 in *. rewrite pow_O. lra.
    - rewrite tech5, (tech5 _ N), (tech5 (fun k => Q ^ k) (S N)). pose proof (H (S N)). rewrite (tech5 _ N) in IH. lra. }
  rewrite tech5 in I. pose proof (geo_le Q (S N) HQ) as GQ. pose proof (Rabs_pos (g (S N))) as PG.
  set (s := sum_f_R0 (fun n => Rabs (g n)) N) in *.
  apply Rmult_le_reg_l with (1 - P); [lra|]. rewrite Rinv_mult by lra. rewrite <- Rmult_assoc, Rinv_r, Rmult_1_l by lra. lra.
Qed.

Lemma real_step u v : u + v = - p -> u * v = q -> forall n, Rabs (g (S n)) <= Rabs u * Rabs (g n) + Rabs v ^ S n.
Proof.
  intros E1 E2.
  assert (S1 : forall n, g (S n) = u * g n + v ^ S n).
  { induction n as [|n IH]; [rewrite g_1, g_0; cbn; lra|]. rewrite g_SS.
    replace (- p * g (S n) - q * g n) with (u * g (S n) + v * (g (S n) - u * g n)) by (rewrite <- E2; replace (- p) with (u + v) by lra; ring).
    rewrite IH at 2. cbn [pow]. ring. }
  intros n. rewrite S1. eapply Rle_trans; [apply Rabs_triang|]. rewrite Rabs_mult, RPow_abs. apply Rle_refl.
Qed.

Lemma real_poles u v : u + v = - p -> u * v = q -> Rabs u < 1 -> Rabs v < 1 ->
  forall N, sum_f_R0 (fun n => Rabs (g n)) N <= / ((1 - Rabs u) * (1 - Rabs v)).
Proof.
  intros E1 E2 Hu Hv. apply ring_sum; [split; [apply Rabs_pos|exact Hu]|split; [apply Rabs_pos|exact Hv]|now apply real_step].
Qed.

Lemma complex_step : p * p <= 4 * q -> q < 1 -> 0 <= sqrt q < 1 /\ forall n, Rabs (g (S n)) <= sqrt q * Rabs (g n) + sqrt q ^ S n.
Proof.
  intros Hp Hq. assert (Q0 : 0 <= q) by nra. set (r := sqrt q). assert (Er : r * r = q) by (apply sqrt_sqrt; exact Q0).
  assert (R0 : 0 <= r) by apply sqrt_pos. assert (R1 : r < 1) by nra.
  assert (C : exists th, p = - (2 * r * cos th)).
  { destruct R0 as [R0|R0].
    - assert (B : -1 <= - p / (2 * r) <= 1).
      { assert (B2 : -2 * r <= p <= 2 * r) by nra. split; apply Rmult_le_reg_r with (2 * r); try lra; unfold Rdiv; rewrite Rmult_assoc, Rinv_l by lra; lra. }
      exists (acos (- p / (2 * r))). rewrite cos_acos by exact B. field. lra.
    - exists 0. rewrite <- R0 in *. nra. }
  destruct C as [th Eth].
  assert (D : forall n, g (S n) - r * cos th * g n = r ^ S n * cos (INR (S n) * th) /\ g (S (S n)) - r * cos th * g (S n) = r ^ S (S n) * cos (INR (S (S n)) * th)).
  { induction n as [|n [I1 I2]].
    - rewrite g_SS, g_1, g_0. cbn [INR pow]. rewrite Rmult_1_l. replace ((1 + 1) * th) with (2 * th) by ring. rewrite cos_2a_cos, Eth, <- Er. split; ring.
    - split; [exact I2|]. rewrite (g_SS (S n)), (g_SS n).
      replace (- p * (- p * g (S n) - q * g n) - q * g (S n) - r * cos th * (- p * g (S n) - q * g n))
        with (- p * ((- p * g (S n) - q * g n) - r * cos th * g (S n)) - q * (g (S n) - r * cos th * g n)) by ring.
      rewrite <- g_SS, I1, I2.
      assert (E : cos (INR (S (S (S n))) * th) = 2 * cos th * cos (INR (S (S n)) * th) - cos (INR (S n) * th)).
      { rewrite (S_INR (S (S n))). replace (INR (S n) * th) with (INR (S (S n)) * th - th) by (rewrite (S_INR (S n)); ring).
        rewrite Rmult_plus_distr_r, Rmult_1_l, cos_plus, cos_minus. ring. }
      rewrite E, Eth, <- Er. cbn [pow]. ring. }
  split; [lra|]. intros n. replace (g (S n)) with (r * cos th * g n + r ^ S n * cos (INR (S n) * th)) by (rewrite <- (proj1 (D n)); ring).
  eapply Rle_trans; [apply Rabs_triang|]. rewrite !Rabs_mult, (Rabs_pos_eq r), (Rabs_pos_eq (r ^ S n)) by (try apply pow_le; lra).
  assert (C1 : forall z, Rabs (cos z) <= 1) by (intros z; apply Rabs_le, COS_bound).
  pose proof (C1 th). pose proof (C1 (INR (S n) * th)). pose proof (pow_le r (S n) R0). pose proof (Rabs_pos (g n)).
  apply Rplus_le_compat; [|nra]. apply Rmult_le_compat_r; [assumption|]. nra.
Qed.

Lemma complex_poles : p * p <= 4 * q -> q < 1 -> forall N, sum_f_R0 (fun n => Rabs (g n)) N <= / ((1 - sqrt q) * (1 - sqrt q)).
Proof. intros Hp Hq. destruct (complex_step Hp Hq) as [R S]. now apply ring_sum. Qed.
End Ringing.

(** The ringing of a filter from where its poles lie: 1 / ((1 - |u|) (1 - |v|)) for real poles u
    and v, and 1 / (1 - sqrt a2)^2 for a complex pair.  So every stable filter has one. *)
Theorem C95_ringing : forall c : coeffs R,
  (forall u v, u + v = - a1 c -> u * v = a2 c -> Rabs u < 1 -> Rabs v < 1 -> ringing c (/ ((1 - Rabs u) * (1 - Rabs v)))) /\
  (a1 c * a1 c <= 4 * a2 c -> a2 c < 1 -> ringing c (/ ((1 - sqrt (a2 c)) * (1 - sqrt (a2 c))))) /\
  (poles_inside c -> exists G, ringing c G).
Proof.
  intros c. split; [|split].
  - intros u v E1 E2 Hu Hv N. apply (real_poles (a1 c) (a2 c) u v E1 E2 Hu Hv).
  - intros Hp Hq N. apply (complex_poles (a1 c) (a2 c) Hp Hq).
  - intros H. destruct (Rle_or_lt (a1 c * a1 c) (4 * a2 c)) as [K|K].
    + assert (L : a2 c < 1).
      { pose proof (H (- a1 c / 2) (sqrt (a2 c - a1 c * a1 c / 4))) as E.
        assert (S : sqrt (a2 c - a1 c * a1 c / 4) * sqrt (a2 c - a1 c * a1 c / 4) = a2 c - a1 c * a1 c / 4) by (apply sqrt_sqrt; lra).
        rewrite S in E. lapply E; [intros E'; lapply E'; [lra|field]|field]. }
      eexists. intros N. apply (complex_poles (a1 c) (a2 c) K L).
    + set (s := sqrt (a1 c * a1 c - 4 * a2 c)).
      assert (S : s * s = a1 c * a1 c - 4 * a2 c) by (apply sqrt_sqrt; lra).
      assert (R1 : Rabs ((- a1 c + s) / 2) < 1).
      { pose proof (H ((- a1 c + s) / 2) 0 ltac:(nra) ltac:(ring)) as E. apply Rabs_def1; nra. }
      assert (R2 : Rabs ((- a1 c - s) / 2) < 1).
      { pose proof (H ((- a1 c - s) / 2) 0 ltac:(nra) ltac:(ring)) as E. apply Rabs_def1; nra. }
      eexists. intros N. apply (real_poles (a1 c) (a2 c) ((- a1 c + s) / 2) ((- a1 c - s) / 2)); [field|nra|exact R1|exact R2].
Qed.
Print Assumptions C95_ringing.

(** A low-pass at 1 kHz and 48 kHz, with its coefficients in f32: it rings by less than 130, and
    its output for inputs within 1 is off by less than 1/400 for ever ([C95_met_error]). *)
Example C95_met (NP : NanPolicy) :
  let c := BC (lit 1 (-8)) (lit 2 (-8)) (lit 1 (-8)) (lit (-1859) (-10)) (lit 851 (-10)) in
  finite_coeffs c /\ ringing (exact_coeffs c) 130 /\ feedback_weight (exact_coeffs c) * 130 <= 524288 /\
  pow2 (-90) <= forward_weight (exact_coeffs c) * 1 <= pow2 60.
Proof.
  intros c. destruct (lit_exact 1 (-8) ltac:(lia) ltac:(lia)) as [F0 V0]. destruct (lit_exact 2 (-8) ltac:(lia) ltac:(lia)) as [F1 V1].
  destruct (lit_exact (-1859) (-10) ltac:(lia) ltac:(lia)) as [Fa Va]. destruct (lit_exact 851 (-10) ltac:(lia) ltac:(lia)) as [Fb Vb].
  split; [repeat split; assumption|].
  assert (E : exact_coeffs c = BC (1 / 256) (1 / 128) (1 / 256) (-1859 / 1024) (851 / 1024)).
  { unfold exact_coeffs, c. cbn [b0 b1 b2 a1 a2]. rewrite V0, V1, Va, Vb. f_equal; cbn; lra. }
  rewrite E. unfold forward_weight, feedback_weight. cbn [b0 b1 b2 a1 a2].
  rewrite (Rabs_pos_eq (1 / 256)), (Rabs_pos_eq (1 / 128)), (Rabs_pos_eq (851 / 1024)), (Rabs_left (-1859 / 1024)) by lra.
  split; [|split; [lra|split]].
  - intros N. eapply Rle_trans; [apply C95_ringing; cbn [a1 a2]; lra|]. cbn [a2].
    assert (S : sqrt (851 / 1024) <= 91170 / 100000).
    { rewrite <- (sqrt_square (91170 / 100000)) by lra. apply sqrt_le_1; lra. }
    assert (P : (883 / 10000) * (883 / 10000) <= (1 - sqrt (851 / 1024)) * (1 - sqrt (851 / 1024))) by (apply Rmult_le_compat; lra).
    apply Rle_trans with (/ ((883 / 10000) * (883 / 10000))); [apply Rinv_le_contravar; lra|lra].
  - apply Rle_trans with (pow2 (-6)); [apply bpow_le; lia|cbn; lra].
  - apply Rle_trans with (pow2 0); [cbn; lra|apply bpow_le; lia].
Qed.

Example C95_met_error (NP : NanPolicy) (x : nat -> f32) n : (forall k, fin (x k) = true /\ Rabs (val (x k)) <= 1) ->
  let c := BC (lit 1 (-8)) (lit 2 (-8)) (lit 1 (-8)) (lit (-1859) (-10)) (lit 851 (-10)) in
  Rabs (val (response (bq_new c) x n) - response (bq_new (exact_coeffs c)) (fun k => val (x k)) n) <= 1 / 400.
Proof.
  intros Hx c. destruct (C95_met NP) as (F & G & H & I). destruct (C95_biquad_tracks NP c 130 1 x F G H I Hx n) as (_ & D & _).
  eapply Rle_trans; [exact D|]. destruct (lit_exact 1 (-8) ltac:(lia) ltac:(lia)) as [F0 V0]. destruct (lit_exact 2 (-8) ltac:(lia) ltac:(lia)) as [F1 V1].
  destruct (lit_exact (-1859) (-10) ltac:(lia) ltac:(lia)) as [Fa Va]. destruct (lit_exact 851 (-10) ltac:(lia) ltac:(lia)) as [Fb Vb].
  clear - V0 V1 Va Vb. unfold forward_weight, feedback_weight, exact_coeffs, c. cbn [b0 b1 b2 a1 a2]. rewrite V0, V1, Va, Vb.
  replace (IZR 1 * pow2 (-8)) with (1 / 256) by (cbn; lra). replace (IZR 2 * pow2 (-8)) with (1 / 128) by (cbn; lra).
  replace (IZR 851 * pow2 (-10)) with (851 / 1024) by (cbn; lra). replace (IZR (-1859) * pow2 (-10)) with (-1859 / 1024) by (cbn; lra).
  rewrite (Rabs_pos_eq (1 / 256)), (Rabs_pos_eq (1 / 128)), (Rabs_pos_eq (851 / 1024)), (Rabs_left (-1859 / 1024)) by lra. lra.
Qed.
