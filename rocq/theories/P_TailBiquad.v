(** * Proofs: how quiet a biquad becomes once the input has stopped (C113). *)

From Coq Require Import ZArith List Bool Reals Lia Lra Psatz.
From Flocq Require Import Core IEEE754.BinarySingleNaN.
From Verif Require Import Base F32 F32Lemmas Num M_Biquad S_Delay S_Biquad S_BiquadF32 S_Tail P_Biquad P_BiquadF32 P_BiquadMore P_EndToEnd P_Tail.
Local Open Scope R_scope.

(** ** A perturbed recurrence settles *)
Lemma terms_vanish (h : nat -> R) G : (forall N, sum_f_R0 (fun n => Rabs (h n)) N <= G) ->
  forall eps, 0 < eps -> exists K, forall k, (K <= k)%nat -> Rabs (h k) <= eps.
Proof.
  intros H eps He. set (s := sum_f_R0 (fun n => Rabs (h n))).
  assert (Gr : Un_growing s) by (intros n; unfold s; rewrite tech5; pose proof (Rabs_pos (h (S n))); lra).
  assert (Ub : has_ub s) by (exists G; intros v [i ->]; apply H).
  destruct (CV_Cauchy s (growing_cv s Gr Ub) eps He) as [K HK]. exists (S K). intros [|k] Hk; [lia|].
  pose proof (HK (S k) k ltac:(lia) ltac:(lia)) as D. unfold R_dist, s in D. rewrite tech5 in D. left.
  replace (sum_f_R0 (fun n => Rabs (h n)) k + Rabs (h (S k)) - sum_f_R0 (fun n => Rabs (h n)) k) with (Rabs (h (S k))) in D by ring.
  now rewrite Rabs_Rabsolu in D.
Qed.

Section Settle.
Variables p q G kappa mu : R.
Variable y : nat -> R.
Let g := response (bq_new (BC 1 0 0 p q)) unit_impulse.
Hypothesis HG : forall N, sum_f_R0 (fun n => Rabs (g n)) N <= G.
Hypothesis HG1 : 1 <= G.
Hypothesis Hk : 0 <= kappa.
Hypothesis Hmu : 0 < mu.
Hypothesis HkG : kappa * G <= 3 / 16.
Variable N0 : nat.
Hypothesis Hy : forall n T, (N0 <= n)%nat -> Rabs (y n) <= T -> Rabs (y (S n)) <= T -> Rabs (y (S (S n)) + p * y (S n) + q * y n) <= kappa * T + mu.

Lemma one_round T N : (N0 <= N)%nat -> 0 < T -> (forall n, (N <= n)%nat -> Rabs (y n) <= T) ->
  exists N', (N <= N')%nat /\ forall n, (N' <= n)%nat -> Rabs (y n) <= T / 4 + mu * G.
Proof.
  intros HN PT H. set (s0 := y N). set (s1 := y (S N) + p * y N).
  set (rest := fun k => match k with S (S j) => y (S (S (N + j))) + p * y (S (N + j)) + q * y (N + j)%nat | _ => 0 end).
  set (s := fun k => s0 * unit_impulse k + 1 * (s1 * ago 1 unit_impulse k + 1 * rest k)).
  assert (E : forall k, y (N + k)%nat = response (bq_new (BC 1 0 0 p q)) s k).
  { intros k. apply (recurrence_unique p q (fun k => y (N + k)%nat) s). clear k. intros k. unfold s, ago, rest, s0, s1.
    destruct k as [|[|k]]; cbn [Nat.ltb Nat.leb Nat.sub unit_impulse].
    - rewrite Nat.add_0_r. ring.
    - rewrite Nat.add_0_r, Nat.add_1_r. ring.
    - rewrite Nat.sub_0_r, !Nat.add_succ_r. ring. }
  destruct (terms_vanish g G HG (T / (32 * (1 + Rabs s0 + Rabs s1)))) as [K HK].
  { pose proof (Rabs_pos s0). pose proof (Rabs_pos s1). apply Rdiv_lt_0_compat; lra. }
  exists (N + S K)%nat. split; [lia|]. intros n Hn. replace n with (N + (n - N))%nat by lia. set (k := (n - N)%nat). assert (Kk : (S K <= k)%nat) by (unfold k; lia).
  rewrite E. unfold s. rewrite response_linear, response_linear, response_delay. fold g. unfold ago. destruct (Nat.ltb_spec k 1) as [L|L]; [lia|].
  pose proof (HK k ltac:(lia)) as A0. pose proof (HK (k - 1)%nat ltac:(lia)) as A1.
  assert (A2 : Rabs (response (bq_new (BC 1 0 0 p q)) rest k) <= (kappa * T + mu) * G).
  { assert (P : 0 <= kappa * T + mu) by nra. eapply Rle_trans; [apply superpose with (S := kappa * T + mu); [exact P|]|apply Rmult_le_compat_l; [exact P|apply HG]].
    intros [|[|j]] _; unfold rest; [rewrite Rabs_R0; exact P..|]. apply Hy; [lia|apply H; lia|apply H; lia]. }
  pose proof (Rabs_pos s0) as P0. pose proof (Rabs_pos s1) as P1. set (w := 1 + Rabs s0 + Rabs s1) in *. assert (W : 1 <= w) by (unfold w; lra).
  assert (B0 : Rabs (s0 * g k) <= T / 32).
  { rewrite Rabs_mult. apply Rle_trans with (w * (T / (32 * w))); [apply Rmult_le_compat; try apply Rabs_pos; [unfold w; lra|exact A0]|]. right. field. lra. }
  assert (B1 : Rabs (s1 * g (k - 1)%nat) <= T / 32).
  { rewrite Rabs_mult. apply Rle_trans with (w * (T / (32 * w))); [apply Rmult_le_compat; try apply Rabs_pos; [unfold w; lra|exact A1]|]. right. field. lra. }
  assert (B2 : (kappa * T + mu) * G <= 3 / 16 * T + mu * G). { replace ((kappa * T + mu) * G) with (kappa * G * T + mu * G) by ring. nra. }
  apply Rabs_le_inv in B0, B1, A2. apply Rabs_le. rewrite !Rmult_1_l. lra.
Qed.

Lemma many_rounds T0 : 0 < T0 -> (forall n, (N0 <= n)%nat -> Rabs (y n) <= T0) ->
  forall j, exists N, (N0 <= N)%nat /\ forall n, (N <= n)%nat -> Rabs (y n) <= T0 * (/ 4) ^ j + 4 / 3 * (mu * G).
Proof.
  intros P0 H. assert (PM : 0 < mu * G) by nra. induction j as [|j (N & L & I)].
  - exists N0. split; [apply le_n|]. intros n Hn. specialize (H n Hn). rewrite pow_O. lra.
  - assert (P4 : 0 < (/ 4) ^ j) by (apply pow_lt; lra). assert (PT : 0 < T0 * (/ 4) ^ j) by nra.
    destruct (one_round (T0 * (/ 4) ^ j + 4 / 3 * (mu * G)) N L ltac:(lra) I) as (N' & L' & H'). exists N'. split; [lia|]. intros n Hn.
    eapply Rle_trans; [apply (H' n Hn)|]. cbn [pow]. lra.
Qed.

Lemma settles_real T0 : (forall n, (N0 <= n)%nat -> Rabs (y n) <= T0) -> exists N, (N0 <= N)%nat /\ forall n, (N <= n)%nat -> Rabs (y n) <= 3 / 2 * (mu * G).
Proof.
  intros H. assert (PM : 0 < mu * G) by nra.
  assert (P0 : 0 < Rmax 1 T0) by (pose proof (Rmax_l 1 T0); lra).
  assert (H' : forall n, (N0 <= n)%nat -> Rabs (y n) <= Rmax 1 T0) by (intros n Hn; eapply Rle_trans; [apply (H n Hn)|apply Rmax_r]).
  destruct (pow_lt_1_zero (/ 4) ltac:(rewrite Rabs_pos_eq; lra) (mu * G / (6 * Rmax 1 T0))) as [J HJ]; [apply Rdiv_lt_0_compat; lra|].
  pose proof (HJ J (le_n _)) as Q. rewrite Rabs_pos_eq in Q by (apply pow_le; lra).
  destruct (many_rounds _ P0 H' J) as (N & L & I). exists N. split; [exact L|]. intros n Hn. eapply Rle_trans; [apply (I n Hn)|].
  assert (Rmax 1 T0 * (/ 4) ^ J <= mu * G / 6); [|lra].
  apply Rle_trans with (Rmax 1 T0 * (mu * G / (6 * Rmax 1 T0))); [apply Rmult_le_compat_l; lra|]. right. field. lra.
Qed.
End Settle.

(** ** Finite results are rounded results *)
Section Fin.
Context {NP : NanPolicy}.
Lemma fsub_fin_val x y : fin (fsub x y) = true -> val (fsub x y) = rnd (val x - val y).
Proof.
  intros F. destruct (fsub_fin_inv x y F) as [Fx Fy].
  destruct (Rlt_le_dec (Rabs (rnd (val x - val y))) big) as [L|L]; [now apply fsub_spec|].
  pose proof (Binary.Bminus_correct 24 128 prec_pos prec_emax (nan_result OpSub) mode_NE x y Fx Fy) as H.
  change (round radix2 _ _ _) with (rnd (val x - val y)) in H. rewrite Rlt_bool_false in H by exact L. destruct H as [H _].
  change (Binary.Bminus 24 128 _ _ _ mode_NE x y) with (fsub x y) in H. destruct (fsub x y); cbn in H, F; try discriminate.
Qed.
Lemma fmul_fin_val x y : fin (fmul x y) = true -> val (fmul x y) = rnd (val x * val y).
Proof.
  intros F. destruct (fmul_fin_inv x y F) as [Fx Fy].
  destruct (Rlt_le_dec (Rabs (rnd (val x * val y))) big) as [L|L]; [now apply fmul_spec|].
  pose proof (Binary.Bmult_correct 24 128 prec_pos prec_emax (nan_result OpMul) mode_NE x y) as H.
  change (round radix2 _ _ _) with (rnd (val x * val y)) in H. rewrite Rlt_bool_false in H by exact L.
  change (Binary.Bmult 24 128 _ _ _ mode_NE x y) with (fmul x y) in H. destruct (fmul x y); cbn in H, F; try discriminate.
Qed.

(** ** The filter *)
Lemma rnd_pair a b s t T : Rabs s <= T -> Rabs t <= T ->
  Rabs (rnd (- rnd (b * t) - rnd (a * s)) + a * s + b * t) <= 3 * pow2 (-24) * ((Rabs a + Rabs b) * T) + 2 * tiny.
Proof.
  intros Hs Ht. assert (ET : pow2 (-150) = tiny / 2) by (unfold tiny; replace (-149)%Z with (-150 + 1)%Z by lia; rewrite bpow_plus; change (pow2 1) with 2; field).
  pose proof (rnd_err (b * t)) as E1. pose proof (rnd_err (a * s)) as E2. set (r1 := rnd (b * t)) in *. set (r2 := rnd (a * s)) in *.
  pose proof (rnd_err (- r1 - r2)) as E3. set (r3 := rnd (- r1 - r2)) in *. rewrite ET in *.
  pose proof (prod_le b t _ T (Rle_refl _) Ht) as B1. pose proof (prod_le a s _ T (Rle_refl _) Hs) as B2. rewrite Rmult_plus_distr_r.
  pose proof (Rabs_pos (b * t)) as P1. pose proof (Rabs_pos (a * s)) as P2.
  set (u := Rabs a * T) in *. set (v := Rabs b * T) in *. set (m := b * t) in *. set (n := a * s) in *.
  pose proof tiny_pos as PT. assert (D : 0 < pow2 (-24) <= 1 / 100) by (split; [apply bpow_gt_0|apply Rle_trans with (pow2 (-7)); [apply bpow_le; lia|cbn; lra]]).
  set (d := pow2 (-24)) in *. clearbody d r1 r2 r3 u v m n.
  assert (B3 : Rabs (- r1 - r2) <= (1 + d) * (u + v) + tiny).
  { apply Rabs_le. apply Rabs_le_inv in E1, E2. assert (d * Rabs m <= d * v) by nra. assert (d * Rabs n <= d * u) by nra. pose proof (Rle_abs m). pose proof (Rle_abs n). pose proof (Rle_abs (- m)) as M1. pose proof (Rle_abs (- n)) as M2. rewrite Rabs_Ropp in M1, M2. lra. }
  assert (E3' : Rabs (r3 - (- r1 - r2)) <= d * ((1 + d) * (u + v) + tiny) + tiny / 2) by nra.
  assert (d * Rabs m <= d * v) by nra. assert (d * Rabs n <= d * u) by nra.
  assert (U : 0 <= u + v) by lra. pose proof (Rmult_le_pos d (u + v) ltac:(lra) U) as W.
  assert (W1 : d * (d * (u + v)) <= d * (u + v)) by (rewrite <- (Rmult_1_l (d * (u + v))) at 2; apply Rmult_le_compat_r; lra).
  assert (W2 : d * tiny <= 1 / 100 * tiny) by (apply Rmult_le_compat_r; lra).
  replace (d * ((1 + d) * (u + v) + tiny)) with (d * (u + v) + d * (d * (u + v)) + d * tiny) in E3' by ring.
  replace (3 * d * (u + v)) with (3 * (d * (u + v))) by ring. rewrite Rmult_plus_distr_l in *.
  clear W. apply Rabs_le_inv in E1, E2, E3'. apply Rabs_le. set (du := d * u) in *. set (dv := d * v) in *. set (dm := d * Rabs m) in *. set (dn := d * Rabs n) in *. split; lra.
Qed.

Variable c : coeffs f32.
Hypothesis Fc : finite_coeffs c.
Variables G M : R.
Hypothesis HG : ringing (exact_coeffs c) G.
Hypothesis HAG : feedback_weight (exact_coeffs c) * G <= 524288.
Hypothesis HM : pow2 (-90) <= forward_weight (exact_coeffs c) * M <= pow2 60.
Variable x : nat -> f32.
Hypothesis Hx : forall n, fin (x n) = true /\ Rabs (val (x n)) <= M.

Lemma biquad_settles : stops x -> settles_within (3 * (G * tiny)) (response (bq_new c) x).
Proof.
  intros [N0 Z]. pose proof (track c Fc G M HG HAG HM x Hx) as TR. set (y := fun n => val (response (bq_new c) x n)).
  assert (FIN : forall n, fin (z1v c x n) = true /\ fin (z2v c x n) = true /\ fin (yv c x n) = true).
  { intros n. destruct (TR n) as (F & _ & _ & (F1 & F2 & _)). auto. }
  destruct Fc as (Fb0 & Fb1 & Fb2 & Fa1 & Fa2).
  assert (Y1 : forall n, (N0 <= n)%nat -> y n = val (z1v c x n)).
  { intros n Hn. change (y n) with (val (yv c x n)). rewrite yv_eq. apply add_silent; [apply (mul_silent (b0 c) (x n) Fb0 (Z n Hn))|apply FIN]. }
  assert (Y2 : forall n, (N0 <= n)%nat -> val (z2v c x (S n)) = - rnd (val (a2 c) * y n)).
  { intros n Hn. pose proof (proj1 (proj2 (FIN (S n)))) as F. rewrite z2v_S in F |- *. rewrite (fsub_fin_val _ _ F).
    destruct (fsub_fin_inv _ _ F) as [_ F']. rewrite (fmul_fin_val _ _ F'). destruct (mul_silent (b2 c) (x n) Fb2 (Z n Hn)) as [[_ ->] _].
    unfold Rminus. rewrite Rplus_0_l. rewrite rnd_opp. f_equal. apply rnd_repr, repr_rnd. }
  assert (Y3 : forall n, (N0 <= n)%nat -> y (S (S n)) = rnd (- rnd (val (a2 c) * y n) - rnd (val (a1 c) * y (S n)))).
  { intros n Hn. rewrite Y1 by lia. pose proof (proj1 (FIN (S (S n)))) as F. rewrite z1v_S in F |- *. rewrite (fsub_fin_val _ _ F).
    destruct (fsub_fin_inv _ _ F) as [_ F']. rewrite (fmul_fin_val _ _ F').
    destruct (add_silent (fmul (b1 c) (x (S n))) (z2v c x (S n)) (proj1 (mul_silent (b1 c) (x (S n)) Fb1 (Z (S n) ltac:(lia)))) (proj1 (proj2 (FIN (S n))))) as [_ ->].
    rewrite Y2 by exact Hn. reflexivity. }
  set (A := feedback_weight (exact_coeffs c)) in *. pose proof (ringing_1 _ _ HG) as PG.
  assert (PA : 1 <= A) by (unfold A, feedback_weight; pose proof (Rabs_pos (a1 (exact_coeffs c))); pose proof (Rabs_pos (a2 (exact_coeffs c))); lra).
  pose proof (bpow_gt_0 radix2 (-24)) as P24.
  destruct (settles_real (val (a1 c)) (val (a2 c)) G (3 * pow2 (-24) * A) (2 * tiny) y) with (N0 := N0) (T0 := 2 * (G * (forward_weight (exact_coeffs c) * M))) as (N & _ & S).
  - exact HG.
  - exact PG.
  - nra.
  - pose proof tiny_pos. lra.
  - replace (3 * pow2 (-24) * A * G) with (3 * pow2 (-24) * (A * G)) by ring. apply Rle_trans with (3 * pow2 (-24) * 524288); [apply Rmult_le_compat_l; lra|].
    replace 524288 with (pow2 19) by (cbn; lra). replace (3 * pow2 (-24) * pow2 19) with (3 * (pow2 (-24) * pow2 19)) by ring. rewrite <- bpow_plus. change (-24 + 19)%Z with (-5)%Z. cbn. lra.
  - intros n T Hn H1 H2. rewrite (Y3 n Hn). eapply Rle_trans; [apply (rnd_pair (val (a1 c)) (val (a2 c)) (y (S n)) (y n) T H2 H1)|]. apply Rplus_le_compat_r.
    rewrite Rmult_assoc. rewrite (Rmult_assoc 3 (pow2 (-24))). rewrite Rmult_assoc. apply Rmult_le_compat_l; [lra|]. rewrite Rmult_assoc || idtac. apply Rmult_le_compat_l; [lra|].
    apply Rmult_le_compat_r; [pose proof (Rabs_pos (y n)); lra|]. unfold A, feedback_weight. cbn [a1 a2 exact_coeffs]. lra.
  - intros n _. apply TR.
  - exists N. intros n Hn. split; [apply FIN|]. replace (3 * (G * tiny)) with (3 / 2 * (2 * tiny * G)) by field. now apply S.
Qed.
End Fin.
