(** * Proof library: how fast a biquad dies away. *)

From Coq Require Import ZArith Reals Lia Lra Psatz.
From Flocq Require Import Core.
From Verif Require Import Base F32 F32Lemmas Num M_FloatMath M_Biquad S_Biquad S_BiquadF32 S_RingDown P_DelayNum P_Biquad P_Butterworth.
Local Open Scope R_scope.

(** Poles within [r] in terms of the coefficients. *)
Lemma within_coeffs r c : 0 < r -> poles_within r c -> a2 c < r * r /\ Rabs (a1 c) * r < r * r + a2 c.
Proof.
  intros Hr H. destruct (Rlt_or_le (a1 c * a1 c) (4 * a2 c)) as [K|K].
  - set (w := sqrt (a2 c - a1 c * a1 c / 4)).
    assert (S : w * w = a2 c - a1 c * a1 c / 4) by (apply sqrt_sqrt; lra).
    assert (L : a2 c < r * r).
    { pose proof (H (- a1 c / 2) w) as E. rewrite S in E. lapply E; [intros E'; lapply E'; [lra|field]|field]. }
    split; [exact L|].
    assert (Q : (Rabs (a1 c) * r) * (Rabs (a1 c) * r) < (r * r + a2 c) * (r * r + a2 c)).
    { replace (Rabs (a1 c) * r * (Rabs (a1 c) * r)) with ((Rabs (a1 c) * Rabs (a1 c)) * (r * r)) by ring.
      rewrite <- Rabs_mult, Rabs_pos_eq by nra. assert (0 < r * r) by nra. nra. }
    assert (0 <= Rabs (a1 c) * r) by (apply Rmult_le_pos; [apply Rabs_pos|lra]). nra.
  - set (s := sqrt (a1 c * a1 c - 4 * a2 c)).
    assert (S : s * s = a1 c * a1 c - 4 * a2 c) by (apply sqrt_sqrt; lra).
    set (u := (- a1 c + s) / 2). set (v := (- a1 c - s) / 2).
    assert (E1 : u + v = - a1 c) by (unfold u, v; field). assert (E2 : u * v = a2 c) by (unfold u, v; nra).
    assert (U : - r < u < r).
    { pose proof (H u 0 ltac:(unfold u; nra) ltac:(ring)) as E. split; nra. }
    assert (V : - r < v < r).
    { pose proof (H v 0 ltac:(unfold v; nra) ltac:(ring)) as E. split; nra. }
    clearbody u v. assert (P1 : 0 < (r - u) * (r - v)) by (apply Rmult_lt_0_compat; lra).
    assert (P2 : 0 < (r + u) * (r + v)) by (apply Rmult_lt_0_compat; lra).
    assert (P3 : 0 < (r - u) * (r + v)) by (apply Rmult_lt_0_compat; lra).
    assert (P4 : 0 < (r + u) * (r - v)) by (apply Rmult_lt_0_compat; lra).
    split; [nra|]. unfold Rabs. destruct (Rcase_abs (a1 c)); nra.
Qed.

(** ** The free recurrence *)
Section Free.
Variables (y : nat -> R) (p q : R).
Hypothesis HY : forall n, y (S (S n)) = - p * y (S n) - q * y n.

Lemma energy_step n : y (S (S n)) * y (S (S n)) + p * (y (S (S n)) * y (S n)) + q * (y (S n) * y (S n)) =
  q * (y (S n) * y (S n) + p * (y (S n) * y n) + q * (y n * y n)).
Proof. rewrite HY. ring. Qed.

Lemma energy_all n : y (S n) * y (S n) + p * (y (S n) * y n) + q * (y n * y n) =
  q ^ n * (y 1%nat * y 1%nat + p * (y 1%nat * y 0%nat) + q * (y 0%nat * y 0%nat)).
Proof. induction n as [|n IH]; [cbn [pow]; ring|]. rewrite energy_step, IH. cbn [pow]. ring. Qed.

Variable r : R.
Hypothesis Hr : 0 < r.
Hypothesis Hq : q < r * r.
Hypothesis Hp : Rabs p * r < r * r + q.

Definition vv (s t : R) : R := (r * r + q) * (s * s + r * r * (t * t)) + 2 * p * (r * r) * (s * t).

Lemma vv_step n : vv (y (S (S n))) (y (S n)) <= r * r * vv (y (S n)) (y n).
Proof.
  rewrite HY. set (s := y (S n)). set (t := y n). clearbody s t. unfold vv.
  assert (E : r * r * ((r * r + q) * (s * s + r * r * (t * t)) + 2 * p * (r * r) * (s * t)) -
    ((r * r + q) * ((- p * s - q * t) * (- p * s - q * t) + r * r * (s * s)) + 2 * p * (r * r) * ((- p * s - q * t) * s)) =
    (r * r - q) * ((p * s + q * t + r * r * t) * (p * s + q * t + r * r * t))) by ring.
  assert (0 <= (r * r - q) * ((p * s + q * t + r * r * t) * (p * s + q * t + r * r * t))) by (apply Rmult_le_pos; [lra|apply Rle_0_sqr]).
  lra.
Qed.

Lemma cross s t : Rabs (2 * p * (r * r) * (s * t)) <= Rabs p * r * (s * s + r * r * (t * t)).
Proof.
  replace (2 * p * (r * r) * (s * t)) with (p * r * (2 * (s * (r * t)))) by ring.
  rewrite 2!Rabs_mult, (Rabs_pos_eq r) by lra. apply Rmult_le_compat_l; [apply Rmult_le_pos; [apply Rabs_pos|lra]|].
  apply Rabs_le. pose proof (Rle_0_sqr (s - r * t)). pose proof (Rle_0_sqr (s + r * t)). unfold Rsqr in *. split; nra.
Qed.

Lemma vv_bounds s t : (r * r + q - Rabs p * r) * (s * s + r * r * (t * t)) <= vv s t <= (r * r + q + Rabs p * r) * (s * s + r * r * (t * t)).
Proof. pose proof (cross s t) as C. apply Rabs_le_inv in C. unfold vv. split; lra. Qed.

Lemma free_falls n : y (S n) * y (S n) + r * r * (y n * y n) <=
  (r * r + q + Rabs p * r) / (r * r + q - Rabs p * r) * ((r * r) ^ n * (y 1%nat * y 1%nat + r * r * (y 0%nat * y 0%nat))).
Proof.
  assert (V : vv (y (S n)) (y n) <= (r * r) ^ n * vv (y 1%nat) (y 0%nat)).
  { induction n as [|n IH]; [cbn [pow]; lra|]. eapply Rle_trans; [apply vv_step|]. cbn [pow]. rewrite (Rmult_assoc (r * r) ((r * r) ^ n)). apply Rmult_le_compat_l; [nra|exact IH]. }
  destruct (vv_bounds (y (S n)) (y n)) as [B1 _]. destruct (vv_bounds (y 1%nat) (y 0%nat)) as [_ B2].
  assert (PN : 0 <= (r * r) ^ n) by (apply pow_le; nra).
  set (d := r * r + q - Rabs p * r) in *. assert (PD : 0 < d) by (unfold d; lra).
  apply Rmult_le_reg_l with d; [exact PD|]. eapply Rle_trans; [exact B1|]. eapply Rle_trans; [exact V|].
  eapply Rle_trans; [apply Rmult_le_compat_l; [exact PN|exact B2]|]. right. field. lra.
Qed.
End Free.

Lemma silent_rec (b : biquad R) n : response b (fun _ => 0) (S (S n)) =
  - a1 (bq_coeffs b) * response b (fun _ => 0) (S n) - a2 (bq_coeffs b) * response b (fun _ => 0) n.
Proof. rewrite response_rec. ring. Qed.

(** The shape of every design. *)
Lemma shape_resonant s G : 0 < s -> 0 < G -> s * s < 4 * G ->
  (2 * (G - 1) / (1 + s + G)) * (2 * (G - 1) / (1 + s + G)) < 4 * ((1 - s + G) / (1 + s + G)).
Proof.
  intros Hs HG H. assert (PD : 0 < 1 + s + G) by lra. apply Rmult_lt_reg_r with ((1 + s + G) * (1 + s + G)); [nra|].
  replace (2 * (G - 1) / (1 + s + G) * (2 * (G - 1) / (1 + s + G)) * ((1 + s + G) * (1 + s + G))) with (4 * ((G - 1) * (G - 1))) by (field; lra).
  replace (4 * ((1 - s + G) / (1 + s + G)) * ((1 + s + G) * (1 + s + G))) with (4 * ((1 - s + G) * (1 + s + G))) by (field; lra). nra.
Qed.
