(** * Proofs about the biquad section in exact arithmetic: recurrence, linearity, stability. *)

From Coq Require Import ZArith Reals Lia Lra Psatz Bool Arith.
From Flocq Require Import Core.
From Verif Require Import Base F32 F32Lemmas Num M_FloatMath M_Biquad S_Biquad P_DelayNum.
Local Open Scope R_scope.

(** ** Process over R *)
Lemma process_R : forall (b : biquad R) x, bq_process b x =
  (BQ (b1 (bq_coeffs b) * x + z2 b - a1 (bq_coeffs b) * (b0 (bq_coeffs b) * x + z1 b))
      (b2 (bq_coeffs b) * x - a2 (bq_coeffs b) * (b0 (bq_coeffs b) * x + z1 b)) (bq_coeffs b),
   b0 (bq_coeffs b) * x + z1 b).
Proof. reflexivity. Qed.

Lemma after_coeffs : forall (b : biquad R) x n, bq_coeffs (after b x n) = bq_coeffs b.
Proof. induction n; cbn [after]; auto. Qed.

Lemma after_S : forall (b : biquad R) x n,
  after b x (S n) = fst (bq_process (after b x n) (x n)).
Proof. reflexivity. Qed.

Lemma response_R : forall (b : biquad R) x n,
  response b x n = b0 (bq_coeffs b) * x n + z1 (after b x n).
Proof. intros. unfold response. rewrite process_R, after_coeffs. reflexivity. Qed.

Lemma z1_S : forall (b : biquad R) x n,
  z1 (after b x (S n)) = b1 (bq_coeffs b) * x n + z2 (after b x n) - a1 (bq_coeffs b) * response b x n.
Proof. intros. rewrite after_S, process_R, response_R. cbn [fst z1]. now rewrite after_coeffs. Qed.
Lemma z2_S : forall (b : biquad R) x n,
  z2 (after b x (S n)) = b2 (bq_coeffs b) * x n - a2 (bq_coeffs b) * response b x n.
Proof. intros. rewrite after_S, process_R, response_R. cbn [fst z2]. now rewrite after_coeffs. Qed.

Lemma response_rec : forall (b : biquad R) x n,
  response b x (S (S n)) =
    b0 (bq_coeffs b) * x (S (S n)) + b1 (bq_coeffs b) * x (S n) + b2 (bq_coeffs b) * x n
    - a1 (bq_coeffs b) * response b x (S n) - a2 (bq_coeffs b) * response b x n.
Proof. intros. rewrite response_R, z1_S, z2_S. ring. Qed.

Lemma z_rest : forall c : coeffs R, z1 (bq_new c) = 0 /\ z2 (bq_new c) = 0.
Proof. intros. unfold bq_new. cbn [z1 z2]. rewrite nint_R. split; reflexivity. Qed.

Lemma response_rest : forall (c : coeffs R) x n,
  response (bq_new c) x n =
    b0 c * x n + b1 c * ago 1 x n + b2 c * ago 2 x n
    - a1 c * ago 1 (response (bq_new c) x) n - a2 c * ago 2 (response (bq_new c) x) n.
Proof.
  intros c x n. destruct (z_rest c) as [Z1 Z2]. destruct n as [|[|n]].
  - rewrite response_R. cbn [after ago Nat.ltb Nat.leb bq_coeffs bq_new]. unfold ago; cbn [Nat.ltb Nat.leb].
    rewrite Z1. ring.
  - rewrite response_R, z1_S. cbn [after]. unfold ago; cbn [Nat.ltb Nat.leb Nat.sub].
    rewrite Z2. cbn [bq_coeffs bq_new]. ring.
  - rewrite response_rec. unfold ago. cbn [Nat.ltb Nat.leb Nat.sub].
    rewrite Nat.sub_0_r. cbn [bq_coeffs bq_new]. reflexivity.
Qed.

(** ** Linearity and time invariance *)
Lemma after_linear : forall (c : coeffs R) u v p q n,
  z1 (after (bq_new c) (fun i => p * u i + q * v i) n)
    = p * z1 (after (bq_new c) u n) + q * z1 (after (bq_new c) v n) /\
  z2 (after (bq_new c) (fun i => p * u i + q * v i) n)
    = p * z2 (after (bq_new c) u n) + q * z2 (after (bq_new c) v n).
Proof.
  intros c u v p q n. destruct (z_rest c) as [Z1 Z2]. induction n as [|n [I1 I2]].
  - cbn [after]. rewrite Z1, Z2. split; ring.
  - rewrite !z1_S, !z2_S, !response_R, I1, I2. cbn [bq_coeffs bq_new]. split; ring.
Qed.

Lemma response_linear : forall (c : coeffs R) u v p q n,
  response (bq_new c) (fun i => p * u i + q * v i) n
    = p * response (bq_new c) u n + q * response (bq_new c) v n.
Proof.
  intros. rewrite !response_R. destruct (after_linear c u v p q n) as [-> _]. ring.
Qed.

Lemma after_delay : forall (c : coeffs R) d x n,
  (forall m, (m <= d)%nat -> z1 (after (bq_new c) (ago d x) m) = 0 /\ z2 (after (bq_new c) (ago d x) m) = 0) /\
  z1 (after (bq_new c) (ago d x) (d + n)) = z1 (after (bq_new c) x n) /\
  z2 (after (bq_new c) (ago d x) (d + n)) = z2 (after (bq_new c) x n).
Proof.
  intros c d x n. destruct (z_rest c) as [Z1 Z2].
  assert (Z : forall m, (m <= d)%nat ->
    z1 (after (bq_new c) (ago d x) m) = 0 /\ z2 (after (bq_new c) (ago d x) m) = 0).
  { induction m as [|m I]; intros Hm; [cbn [after]; auto|].
    destruct I as [I1 I2]; [lia|]. rewrite z1_S, z2_S, response_R, I1, I2.
    unfold ago. assert (E : (m <? d)%nat = true) by (apply Nat.ltb_lt; lia). rewrite E. split; ring. }
  split; [exact Z|]. induction n as [|n [I1 I2]].
  - rewrite Nat.add_0_r. destruct (Z d) as [-> ->]; [lia|]. cbn [after]. rewrite Z1, Z2. auto.
  - rewrite Nat.add_succ_r, !z1_S, !z2_S, !response_R, I1, I2. cbn [bq_coeffs bq_new].
    assert (E : ago d x (d + n) = x n).
    { unfold ago. assert (E : (d + n <? d)%nat = false) by (apply Nat.ltb_ge; lia).
      rewrite E. f_equal. lia. }
    rewrite E. split; ring.
Qed.

Lemma response_delay : forall (c : coeffs R) d x n,
  response (bq_new c) (ago d x) n = ago d (response (bq_new c) x) n.
Proof.
  intros c d x n. destruct (after_delay c d x (n - d)) as (Z & I1 & _).
  unfold ago at 2. destruct (Nat.ltb_spec n d) as [L|L].
  - rewrite response_R. destruct (Z n) as [-> _]; [lia|]. unfold ago.
    assert (E : (n <? d)%nat = true) by (apply Nat.ltb_lt; lia). rewrite E. ring.
  - replace (d + (n - d))%nat with n in I1 by lia. rewrite !response_R, I1. cbn [bq_coeffs bq_new].
    unfold ago. assert (E : (n <? d)%nat = false) by (apply Nat.ltb_ge; lia). now rewrite E.
Qed.

(** ** Stability: Jury's conditions and a Lyapunov function *)
Definition jury (c : coeffs R) : Prop := -1 < a2 c < 1 /\ - (1 + a2 c) < a1 c < 1 + a2 c.

Lemma jury_poles : forall c, jury c -> poles_inside c.
Proof.
  intros c [H1 H2] u v E1 E2. set (A := a1 c) in *. set (D := a2 c) in *. clearbody A D.
  destruct (Req_dec v 0) as [->|Nv].
  - assert (E : u * u + A * u + D = 0) by lra. clear E1 E2.
    assert (u < 1).
    { destruct (Rlt_or_le u 1) as [|G]; auto. exfalso.
      assert (0 <= (u - 1) * (u + 1 + A)) by (apply Rmult_le_pos; lra). nra. }
    assert (-1 < u).
    { destruct (Rlt_or_le (-1) u) as [|G]; auto. exfalso.
      assert (0 <= (- u - 1) * (- u + 1 - A)) by (apply Rmult_le_pos; lra). nra. }
    nra.
  - assert (Eu : 2 * u = - A).
    { apply Rmult_eq_reg_r with v; auto. lra. }
    nra.
Qed.

Section Lyapunov.
Variables A D : R.
Hypothesis HD : -1 < D < 1.
Hypothesis HA : - (1 + D) < A < 1 + D.

Let den : R := (1 - D) * ((1 + D) * (1 + D) - A * A).
Let p : R := (1 + D * D) * (1 + D) / den.
Let r : R := - p * A / (1 + D).
Definition lyap (s t : R) : R := p * (s * s) + 2 * r * (s * t) + (p + 1) * (t * t).
Let L : R := 2 * p + 1.
Let delta : R := / L.

Lemma den_pos : 0 < den.
Proof. unfold den. apply Rmult_lt_0_compat; nra. Qed.
Lemma p_pos : 0 < p.
Proof. unfold p. apply Rdiv_lt_0_compat; [|apply den_pos]. apply Rmult_lt_0_compat; nra. Qed.
Lemma r_bound : - p <= r <= p.
Proof.
  unfold r. pose proof p_pos.
  assert (- 1 <= - A / (1 + D) <= 1).
  { split.
    - apply Rmult_le_reg_r with (1 + D); [lra|]. unfold Rdiv. rewrite Rmult_assoc, Rinv_l by lra. lra.
    - apply Rmult_le_reg_r with (1 + D); [lra|]. unfold Rdiv. rewrite Rmult_assoc, Rinv_l by lra. lra. }
  replace (- p * A / (1 + D)) with (p * (- A / (1 + D))) by (field; lra). nra.
Qed.

Lemma lyap_nonneg : forall s t, 0 <= lyap s t.
Proof.
  intros. unfold lyap. pose proof p_pos. pose proof r_bound. clearbody p r.
  assert (0 <= (p + r) * ((s + t) * (s + t))).
  { apply Rmult_le_pos; [lra|]. apply Rle_0_sqr. }
  assert (0 <= (p - r) * ((s - t) * (s - t))).
  { apply Rmult_le_pos; [lra|]. apply Rle_0_sqr. }
  assert (0 <= t * t) by apply Rle_0_sqr. nra.
Qed.

Lemma lyap_step : forall s t, lyap (- A * s + t) (- D * s) = lyap s t - (s * s + t * t).
Proof.
  intros. pose proof den_pos as Hd. unfold lyap, r, p. unfold den in *. field.
  repeat split; intros C; try lra; rewrite ?C in Hd; nra.
Qed.

Lemma lyap_ge : forall s t, s * s + t * t <= lyap s t.
Proof. intros. pose proof (lyap_step s t). pose proof (lyap_nonneg (- A * s + t) (- D * s)). lra. Qed.

Lemma lyap_le : forall s t, lyap s t <= L * (s * s + t * t).
Proof.
  intros. unfold lyap, L. pose proof p_pos. pose proof r_bound. clearbody p r.
  assert (0 <= (p + r) * ((s - t) * (s - t))).
  { apply Rmult_le_pos; [lra|]. apply Rle_0_sqr. }
  assert (0 <= (p - r) * ((s + t) * (s + t))).
  { apply Rmult_le_pos; [lra|]. apply Rle_0_sqr. }
  assert (0 <= t * t) by apply Rle_0_sqr. assert (0 <= s * s) by apply Rle_0_sqr. nra.
Qed.

Lemma L_gt1 : 1 < L.
Proof. unfold L. pose proof p_pos. lra. Qed.
Lemma delta_range : 0 < delta < 1.
Proof.
  pose proof L_gt1. unfold delta. split; [apply Rinv_0_lt_compat; lra|].
  rewrite <- Rinv_1. apply Rinv_lt_contravar; lra.
Qed.

Lemma lyap_contr : forall s t, lyap (- A * s + t) (- D * s) <= (1 - delta) * lyap s t.
Proof.
  intros. rewrite lyap_step. pose proof (lyap_le s t). pose proof L_gt1.
  assert (delta * lyap s t <= s * s + t * t).
  { unfold delta. apply Rmult_le_reg_l with L; [lra|]. rewrite <- Rmult_assoc, Rinv_r, Rmult_1_l by lra.
    exact H. }
  lra.
Qed.

Lemma lyap_add : forall e s t u w, 0 < e ->
  lyap (s + u) (t + w) <= (1 + e) * lyap s t + (1 + / e) * lyap u w.
Proof.
  intros e s t u w He. pose proof (lyap_nonneg (e * s - u) (e * t - w)) as H.
  apply Rmult_le_reg_l with e; [lra|].
  replace (e * ((1 + e) * lyap s t + (1 + / e) * lyap u w))
    with (e * (1 + e) * lyap s t + (e + 1) * lyap u w) by (field; lra).
  unfold lyap in *. clearbody p r. nra.
Qed.

Lemma lyap_forced : forall s t u w,
  lyap (- A * s + t + u) (- D * s + w) <=
    (1 - delta / 2) * lyap s t + (1 + / (delta / 2)) * lyap u w.
Proof.
  intros. pose proof delta_range. eapply Rle_trans; [apply (lyap_add (delta / 2)); lra|].
  apply Rplus_le_compat_r. pose proof (lyap_contr s t). pose proof (lyap_nonneg s t).
  apply Rle_trans with ((1 + delta / 2) * ((1 - delta) * lyap s t)).
  - apply Rmult_le_compat_l; lra.
  - rewrite <- Rmult_assoc. apply Rmult_le_compat_r; auto. nra.
Qed.

Lemma lyap_const : exists L0 d0, 1 < L0 /\ 0 < d0 < 1 /\
  (forall s t, lyap s t <= L0 * (s * s + t * t)) /\
  (forall s t, lyap (- A * s + t) (- D * s) <= (1 - d0) * lyap s t) /\
  (forall s t u w, lyap (- A * s + t + u) (- D * s + w) <=
    (1 - d0 / 2) * lyap s t + (1 + / (d0 / 2)) * lyap u w).
Proof.
  exists L, delta. split; [apply L_gt1|]. split; [apply delta_range|].
  split; [apply lyap_le|]. split; [apply lyap_contr|apply lyap_forced].
Qed.
End Lyapunov.

Lemma sq_le_abs : forall y v, y * y <= v -> Rabs y <= sqrt v.
Proof.
  intros y v H. rewrite <- sqrt_Rsqr_abs. apply sqrt_le_1_alt. exact H.
Qed.

Lemma jury_decays : forall c, jury c -> decays c.
Proof.
  intros c [H1 H2]. destruct (lyap_const (a1 c) (a2 c) H1 H2) as (L & d & HL & Hd & Vle & Vc & _).
  set (V := lyap (a1 c) (a2 c)) in *.
  assert (Vge : forall s t, s * s + t * t <= V s t) by (apply lyap_ge; auto).
  clearbody V.
  exists (sqrt L), (sqrt (1 - d)). split; [apply sqrt_pos|]. split.
  { split; [apply sqrt_pos|]. pose proof (sqrt_lt_1_alt (1 - d) 1) as S. rewrite sqrt_1 in S. apply S. lra. }
  intros b Eb n.
  assert (I : V (z1 (after b (fun _ => 0) n)) (z2 (after b (fun _ => 0) n))
              <= (1 - d) ^ n * V (z1 b) (z2 b)).
  { induction n as [|n I]; [cbn [after pow]; lra|].
    rewrite z1_S, z2_S, response_R, Eb. cbn [pow].
    set (s := z1 (after b (fun _ => 0) n)) in *. set (t := z2 (after b (fun _ => 0) n)) in *.
    replace (b1 c * 0 + t - a1 c * (b0 c * 0 + s)) with (- a1 c * s + t) by ring.
    replace (b2 c * 0 - a2 c * (b0 c * 0 + s)) with (- a2 c * s) by ring.
    eapply Rle_trans; [apply Vc|]. rewrite Rmult_assoc. apply Rmult_le_compat_l; [lra|exact I]. }
  rewrite response_R, Rmult_0_r, Rplus_0_l.
  set (s := z1 (after b (fun _ => 0) n)) in *. set (t := z2 (after b (fun _ => 0) n)) in *.
  assert (B : s * s <= (1 - d) ^ n * (L * ((Rabs (z1 b) + Rabs (z2 b)) * (Rabs (z1 b) + Rabs (z2 b))))).
  { apply Rle_trans with (V s t).
    - pose proof (Vge s t). pose proof (Rle_0_sqr t). unfold Rsqr in *. lra.
    - eapply Rle_trans; [exact I|]. apply Rmult_le_compat_l; [apply pow_le; lra|].
      eapply Rle_trans; [apply Vle|]. apply Rmult_le_compat_l; [lra|].
      assert (E : forall y, y * y = Rabs y * Rabs y).
      { intros y. rewrite <- Rabs_mult. symmetry. apply Rabs_pos_eq. apply Rle_0_sqr. }
      rewrite (E (z1 b)), (E (z2 b)). pose proof (Rabs_pos (z1 b)). pose proof (Rabs_pos (z2 b)). nra. }
  eapply Rle_trans; [apply sq_le_abs, B|].
  pose proof (Rabs_pos (z1 b)). pose proof (Rabs_pos (z2 b)).
  rewrite sqrt_mult; [|apply pow_le; lra|apply Rmult_le_pos; [lra|apply Rle_0_sqr]].
  rewrite sqrt_mult; [|lra|apply Rle_0_sqr].
  rewrite sqrt_square by lra.
  assert (E : sqrt ((1 - d) ^ n) = sqrt (1 - d) ^ n).
  { clear -Hd. induction n; [apply sqrt_1|]. cbn [pow]. rewrite sqrt_mult; [now rewrite IHn|lra|apply pow_le; lra]. }
  rewrite E. lra.
Qed.

Lemma jury_bibo : forall c, jury c -> bibo c.
Proof.
  intros c [H1 H2]. destruct (lyap_const (a1 c) (a2 c) H1 H2) as (L & d & HL & Hd & Vle & _ & Vf).
  set (V := lyap (a1 c) (a2 c)) in *.
  assert (Vge : forall s t, s * s + t * t <= V s t) by (apply lyap_ge; auto).
  assert (Vsc : forall u w x, V (u * x) (w * x) = V u w * (x * x)).
  { intros. unfold V, lyap. ring. }
  assert (V00 : V 0 0 = 0) by (unfold V, lyap; ring).
  clearbody V.
  set (u := b1 c - a1 c * b0 c). set (w := b2 c - a2 c * b0 c).
  set (G := (1 + / (d / 2)) * V u w).
  assert (Vuw : 0 <= V u w).
  { pose proof (Vge u w). pose proof (Rle_0_sqr u). pose proof (Rle_0_sqr w). unfold Rsqr in *. lra. }
  assert (Hi : 0 < / (d / 2)) by (apply Rinv_0_lt_compat; lra).
  assert (HG : 0 <= G) by (unfold G; apply Rmult_le_pos; lra).
  set (C := G * (2 / d)).
  assert (HC : 0 <= C).
  { unfold C. apply Rmult_le_pos; [exact HG|]. apply Rlt_le, Rdiv_lt_0_compat; lra. }
  exists (Rabs (b0 c) + sqrt C). split; [pose proof (Rabs_pos (b0 c)); pose proof (sqrt_pos C); lra|].
  intros M x Hx n.
  assert (HM : 0 <= M) by (eapply Rle_trans; [apply Rabs_pos|apply (Hx O)]).
  assert (I : V (z1 (after (bq_new c) x n)) (z2 (after (bq_new c) x n)) <= C * (M * M)).
  { induction n as [|n I].
    - cbn [after]. destruct (z_rest c) as [-> ->]. rewrite V00. apply Rmult_le_pos; auto. nra.
    - rewrite z1_S, z2_S, response_R. cbn [bq_coeffs bq_new].
      set (s := z1 (after (bq_new c) x n)) in *. set (t := z2 (after (bq_new c) x n)) in *.
      replace (b1 c * x n + t - a1 c * (b0 c * x n + s)) with (- a1 c * s + t + u * x n) by (unfold u; ring).
      replace (b2 c * x n - a2 c * (b0 c * x n + s)) with (- a2 c * s + w * x n) by (unfold w; ring).
      eapply Rle_trans; [apply Vf|]. rewrite Vsc.
      assert (Hxx : x n * x n <= M * M).
      { pose proof (Hx n) as Hn. apply Rabs_le_inv in Hn. nra. }
      assert (J : (1 + / (d / 2)) * (V u w * (x n * x n)) <= G * (M * M)).
      { rewrite <- Rmult_assoc. fold G. apply Rmult_le_compat_l; auto. }
      assert (K : (1 - d / 2) * V s t <= (1 - d / 2) * (C * (M * M))) by (apply Rmult_le_compat_l; lra).
      assert (E : G = C * (d / 2)) by (unfold C; field; lra).
      rewrite E in J. nra. }
  rewrite response_R. cbn [bq_coeffs bq_new].
  set (s := z1 (after (bq_new c) x n)) in *. set (t := z2 (after (bq_new c) x n)) in *.
  eapply Rle_trans; [apply Rabs_triang|]. rewrite Rmult_plus_distr_r. apply Rplus_le_compat.
  - rewrite Rabs_mult. apply Rmult_le_compat_l; [apply Rabs_pos|apply Hx].
  - assert (B : s * s <= C * (M * M)).
    { pose proof (Vge s t). pose proof (Rle_0_sqr t). unfold Rsqr in *. lra. }
    eapply Rle_trans; [apply sq_le_abs, B|]. rewrite sqrt_mult by (auto; nra).
    rewrite sqrt_square by exact HM. lra.
Qed.

(** ** Steady states *)
Lemma geometric_cv : forall (e : nat -> R) K rho, 0 <= rho < 1 ->
  (forall n, Rabs (e n) <= K * rho ^ n) -> Un_cv e 0.
Proof.
  intros e K rho Hr H eps He.
  assert (HK : 0 <= K).
  { specialize (H O). cbn [pow] in H. pose proof (Rabs_pos (e O)). lra. }
  destruct (pow_lt_1_zero rho) with (y := eps / (K + 1)) as [N HN].
  { rewrite Rabs_pos_eq; lra. }
  { apply Rdiv_lt_0_compat; lra. }
  exists N. intros n Hn. unfold R_dist. rewrite Rminus_0_r.
  eapply Rle_lt_trans; [apply H|]. specialize (HN n Hn). rewrite Rabs_pos_eq in HN by (apply pow_le; lra).
  apply Rle_lt_trans with (K * (eps / (K + 1))).
  - apply Rmult_le_compat_l; lra.
  - apply Rmult_lt_reg_r with (K + 1); [lra|]. unfold Rdiv.
    replace (K * (eps * / (K + 1)) * (K + 1)) with (K * eps) by (field; lra). nra.
Qed.

(** A sequence obeying the homogeneous recurrence is a free response. *)
Lemma homogeneous : forall (c : coeffs R) e,
  (forall n, e (S (S n)) = - a1 c * e (S n) - a2 c * e n) ->
  forall n, e n = response (BQ (e O) (e 1%nat + a1 c * e O) c) (fun _ => 0) n.
Proof.
  intros c e H. set (b := BQ _ _ c).
  assert (P : forall n, e n = response b (fun _ => 0) n /\ e (S n) = response b (fun _ => 0) (S n)).
  { induction n as [|n [I1 I2]].
    - rewrite !response_R, z1_S, response_R. cbn [after b z1 z2 bq_coeffs]. split; ring.
    - split; [exact I2|]. rewrite H, response_rec, <- I1, <- I2. cbn [b bq_coeffs]. ring. }
  intros n. apply P.
Qed.

Lemma settle : forall (b : biquad R) x y, jury (bq_coeffs b) ->
  (forall n, y (S (S n)) =
    b0 (bq_coeffs b) * x (S (S n)) + b1 (bq_coeffs b) * x (S n) + b2 (bq_coeffs b) * x n
    - a1 (bq_coeffs b) * y (S n) - a2 (bq_coeffs b) * y n) ->
  settles_to b x y.
Proof.
  intros b x y J Hy. destruct (jury_decays _ J) as (K & rho & HK & Hr & Dec).
  set (e := fun n => response b x n - y n).
  assert (He : forall n, e (S (S n)) = - a1 (bq_coeffs b) * e (S n) - a2 (bq_coeffs b) * e n).
  { intros n. unfold e. rewrite response_rec, Hy. ring. }
  set (b' := BQ (e O) (e 1%nat + a1 (bq_coeffs b) * e O) (bq_coeffs b)).
  apply geometric_cv with (K := K * (Rabs (z1 b') + Rabs (z2 b'))) (rho := rho); auto.
  intros n. change (Rabs (e n) <= K * (Rabs (z1 b') + Rabs (z2 b')) * rho ^ n).
  rewrite (homogeneous _ e He n). apply (Dec b'). reflexivity.
Qed.
