(** * Proofs: rounding errors in the bell and shelf designs (C101). *)

From Coq Require Import ZArith Bool Reals Lia Lra.
From Flocq Require Import Core.
From Verif Require Import Base F32 F32Lemmas F32Range Num M_FloatMath M_Biquad S_Biquad S_BiquadF32 S_DesignF32 P_DesignF32.
Local Open Scope R_scope.

(** [x] computes [r] up to [e] roundings, relative to [r] or to a denominator [D]. *)
Definition rel (x : f32) (r e : R) : Prop := fin x = true /\ Rabs (val x - r) <= e * (u * r).
Definition near (D : R) (x : f32) (r e : R) : Prop := fin x = true /\ Rabs (val x - r) <= e * (u * D).

Lemma u_pos : 0 < u. Proof. unfold u. lra. Qed.
Lemma uD_pos D : 1 <= D -> u <= u * D.
Proof. intros H. rewrite <- (Rmult_1_r u) at 1. apply Rmult_le_compat_l; [left; apply u_pos|lra]. Qed.

Lemma near_weaken D x r e e' : 1 <= D -> e <= e' -> near D x r e -> near D x r e'.
Proof. intros HD He [F H]. split; [exact F|]. eapply Rle_trans; [exact H|]. apply Rmult_le_compat_r; [|exact He]. pose proof (uD_pos D HD). pose proof u_pos. lra. Qed.
Lemma near_const D (x : f32) : 1 <= D -> fin x = true -> near D x (val x) 0.
Proof. intros _ F. split; [exact F|]. rewrite Rminus_eq_0, Rabs_R0. lra. Qed.
Lemma near_of_rel D x r e c : 0 <= e -> 0 <= r <= c * D -> rel x r e -> near D x r (e * c).
Proof.
  intros He Hr [F H]. split; [exact F|]. eapply Rle_trans; [exact H|]. rewrite Rmult_assoc. apply Rmult_le_compat_l; [exact He|].
  replace (c * (u * D)) with (u * (c * D)) by ring. apply Rmult_le_compat_l; [left; apply u_pos|lra].
Qed.

Section Sums.
Context {NP : NanPolicy}.
Variable D : R.
Hypothesis HD : 1 <= D <= 1048576.

Lemma sum_bound a b e1 e2 c s r1 r2 v : Rabs (a - r1) <= e1 * (u * D) -> Rabs (b - r2) <= e2 * (u * D) -> 0 <= e1 <= 1048576 -> 0 <= e2 <= 1048576 ->
  0 <= c <= 65536 -> (s = 1 \/ s = -1) -> Rabs (r1 + s * r2) <= c * D ->
  Rabs (a + s * b) <= 1099511627776 /\
  (Rabs (v - (a + s * b)) <= u * Rabs (a + s * b) + t ->
   Rabs (v - (r1 + s * r2)) <= (1001 / 1000 * (e1 + e2) + c + / 1000) * (u * D)).
Proof.
  intros H1 H2 E1 E2 Hc Hs Hr. pose proof (uD_pos D (proj1 HD)) as W. pose proof u_pos as U. pose proof t_range as T.
  assert (W2 : u * D <= u * 1048576) by (apply Rmult_le_compat_l; lra).
  assert (A : 0 <= e1 * (u * D) <= 1048576 * (u * D)) by (split; [apply Rmult_le_pos; lra|apply Rmult_le_compat_r; lra]).
  assert (B : 0 <= e2 * (u * D) <= 1048576 * (u * D)) by (split; [apply Rmult_le_pos; lra|apply Rmult_le_compat_r; lra]).
  assert (C : c * D <= 65536 * 1048576) by (apply Rmult_le_compat; lra).
  assert (S2 : Rabs ((a + s * b) - (r1 + s * r2)) <= e1 * (u * D) + e2 * (u * D)).
  { replace ((a + s * b) - (r1 + s * r2)) with ((a - r1) + s * (b - r2)) by ring. eapply Rle_trans; [apply Rabs_triang|].
    rewrite (Rabs_mult s). replace (Rabs s) with 1 by (destruct Hs as [-> | ->]; [rewrite Rabs_pos_eq|rewrite Rabs_left]; lra). lra. }
  assert (S3 : Rabs (a + s * b) <= c * D + (e1 * (u * D) + e2 * (u * D))).
  { replace (a + s * b) with ((r1 + s * r2) + ((a + s * b) - (r1 + s * r2))) by ring. eapply Rle_trans; [apply Rabs_triang|]. lra. }
  split.
  - eapply Rle_trans; [exact S3|]. unfold u in *. lra.
  - intros H.
    assert (S4 : u * Rabs (a + s * b) <= c * (u * D) + u * (e1 * (u * D) + e2 * (u * D))).
    { replace (c * (u * D) + u * (e1 * (u * D) + e2 * (u * D))) with (u * (c * D + (e1 * (u * D) + e2 * (u * D)))) by ring. apply Rmult_le_compat_l; lra. }
    assert (S5 : u * (e1 * (u * D) + e2 * (u * D)) <= / 2000 * (e1 * (u * D) + e2 * (u * D))) by (apply Rmult_le_compat_r; [lra|unfold u; lra]).
    replace (v - (r1 + s * r2)) with ((v - (a + s * b)) + ((a + s * b) - (r1 + s * r2))) by ring. eapply Rle_trans; [apply Rabs_triang|].
    replace ((1001 / 1000 * (e1 + e2) + c + / 1000) * (u * D)) with (1001 / 1000 * (e1 * (u * D) + e2 * (u * D)) + c * (u * D) + / 1000 * (u * D)) by ring.
    set (X1 := e1 * (u * D)) in *. set (X2 := e2 * (u * D)) in *. set (X3 := c * (u * D)) in *. set (X := u * D) in *. clearbody X1 X2 X3 X.
    assert (t <= / 1000 * X) by lra. lra.
Qed.

Lemma near_add x y r1 r2 e1 e2 c : near D x r1 e1 -> near D y r2 e2 -> 0 <= e1 <= 1048576 -> 0 <= e2 <= 1048576 -> 0 <= c <= 65536 ->
  Rabs (r1 + r2) <= c * D -> near D (fadd x y) (r1 + r2) (1001 / 1000 * (e1 + e2) + c + / 1000).
Proof.
  intros [F1 H1] [F2 H2] E1 E2 Hc Hr.
  destruct (sum_bound (val x) (val y) e1 e2 c 1 r1 r2 (val (fadd x y)) H1 H2 E1 E2 Hc (or_introl eq_refl)) as [B G]; [now rewrite Rmult_1_l|].
  assert (M : forall a b, a + 1 * b = a + b) by (intros; ring). rewrite (M (val x) (val y)) in B, G. rewrite (M r1 r2) in G. destruct (add_u x y F1 F2 (small100 _ B)) as [F E]. split; [exact F|]. now apply G.
Qed.
Lemma near_sub x y r1 r2 e1 e2 c : near D x r1 e1 -> near D y r2 e2 -> 0 <= e1 <= 1048576 -> 0 <= e2 <= 1048576 -> 0 <= c <= 65536 ->
  Rabs (r1 - r2) <= c * D -> near D (fsub x y) (r1 - r2) (1001 / 1000 * (e1 + e2) + c + / 1000).
Proof.
  intros [F1 H1] [F2 H2] E1 E2 Hc Hr.
  assert (M : forall a b, a + -1 * b = a - b) by (intros; ring).
  destruct (sum_bound (val x) (val y) e1 e2 c (-1) r1 r2 (val (fsub x y)) H1 H2 E1 E2 Hc (or_intror eq_refl)) as [B G]; [now rewrite M|].
  rewrite (M (val x) (val y)) in B, G. rewrite (M r1 r2) in G. destruct (sub_u x y F1 F2 (small100 _ B)) as [F E]. split; [exact F|]. now apply G.
Qed.
Lemma near_dbl x r e : near D x r e -> Rabs (val x) <= 1099511627776 -> near D (fmul (of_int 2) x) (2 * r) (2 * e).
Proof.
  intros [F H] B. destruct (dbl_exact x F B) as [[F' V] _]. split; [exact F'|]. rewrite V. replace (2 * val x - 2 * r) with (2 * (val x - r)) by ring.
  rewrite Rabs_mult, (Rabs_pos_eq 2) by lra. rewrite Rmult_assoc. lra.
Qed.
Lemma near_size x r e c : near D x r e -> 0 <= e <= 1048576 -> Rabs r <= c * D -> 0 <= c <= 65536 -> Rabs (val x) <= 1099511627776.
Proof.
  intros [F H] He Hr Hc. replace (val x) with ((val x - r) + r) by ring. eapply Rle_trans; [apply Rabs_triang|].
  pose proof (uD_pos D (proj1 HD)) as W. pose proof u_pos as U.
  assert (W2 : u * D <= u * 1048576) by (apply Rmult_le_compat_l; lra).
  assert (A : e * (u * D) <= 1048576 * (u * D)) by (apply Rmult_le_compat_r; lra).
  assert (C : c * D <= 65536 * 1048576) by (apply Rmult_le_compat; lra). unfold u in *. lra.
Qed.
End Sums.

Section Prods.
Context {NP : NanPolicy}.
(** A product with an exact factor costs one rounding. *)
Lemma rel_mul g x r e : fin g = true -> 0 < val g <= 65536 -> rel x r e -> 0 <= e <= 1000 -> pow2 (-90) <= r <= 1048576 -> pow2 (-90) <= val g * r ->
  rel (fmul g x) (val g * r) (e + 1001 / 1000).
Proof.
  intros Fg Hg [F H] He Hr Hl. pose proof u_pos as U. assert (P90 : 0 < pow2 (-90)) by apply bpow_gt_0.
  assert (A : e * (u * r) <= 1000 * (u * r)) by (apply Rmult_le_compat_r; [apply Rmult_le_pos; lra|lra]).
  assert (A0 : 0 <= e * (u * r)) by (apply Rmult_le_pos; [lra|apply Rmult_le_pos; lra]).
  assert (A1 : 1000 * (u * r) <= / 10000 * r).
  { rewrite <- Rmult_assoc. apply Rmult_le_compat_r; [lra|]. unfold u. lra. }
  set (y := val x) in *. apply Rabs_le_inv in H.
  assert (Y : 0 <= y <= 10001 / 10000 * r) by lra.
  assert (B : 0 <= val g * y <= 10001 / 10000 * (val g * r)).
  { split; [apply Rmult_le_pos; lra|]. replace (10001 / 10000 * (val g * r)) with (val g * (10001 / 10000 * r)) by ring. apply Rmult_le_compat_l; lra. }
  assert (B2 : val g * r <= 65536 * 1048576) by (apply Rmult_le_compat; lra).
  assert (T : t <= / 10000 * (u * (val g * r))).
  { apply Rle_trans with (/ 10000 * (u * pow2 (-90))).
    - unfold t. rewrite <- u_eq, <- bpow_plus. apply Rle_trans with (/ 16384 * pow2 (-24 + -90)); [|apply Rmult_le_compat_r; [apply bpow_ge_0|lra]].
      replace (/ 16384) with (pow2 (-14)) by (cbn; lra). rewrite <- bpow_plus. apply bpow_le. lia.
    - apply Rmult_le_compat_l; [lra|]. apply Rmult_le_compat_l; lra. }
  destruct (mul_u g x Fg F) as [F' E].
  { apply small100. fold y. rewrite Rabs_pos_eq by lra. lra. }
  split; [exact F'|]. fold y in E. rewrite (Rabs_pos_eq (val g * y)) in E by lra.
  assert (E2 : Rabs (val g * y - val g * r) <= e * (u * (val g * r))).
  { replace (val g * y - val g * r) with (val g * (y - r)) by ring. rewrite Rabs_mult, (Rabs_pos_eq (val g)) by lra.
    replace (e * (u * (val g * r))) with (val g * (e * (u * r))) by ring. apply Rmult_le_compat_l; [lra|]. apply Rabs_le. lra. }
  assert (E3 : u * (val g * y) <= 10001 / 10000 * (u * (val g * r))).
  { replace (10001 / 10000 * (u * (val g * r))) with (u * (10001 / 10000 * (val g * r))) by ring. apply Rmult_le_compat_l; lra. }
  replace (val (fmul g x) - val g * r) with ((val (fmul g x) - val g * y) + (val g * y - val g * r)) by ring.
  eapply Rle_trans; [apply Rabs_triang|]. rewrite Rmult_plus_distr_r.
  assert (0 <= u * (val g * r)) by (apply Rmult_le_pos; lra). lra.
Qed.

(** The square root halves a relative error. *)
Lemma sqrt_err a b e : 0 < b -> 0 <= e <= 1000 -> Rabs (a - b) <= e * (u * b) ->
  0 <= a /\ Rabs (sqrt a - sqrt b) <= 51 / 100 * e * (u * sqrt b).
Proof.
  intros Hb He H. pose proof u_pos as U.
  assert (A : e * (u * b) <= / 10000 * b).
  { rewrite <- Rmult_assoc. apply Rmult_le_compat_r; [lra|]. apply Rle_trans with (1000 * u); [apply Rmult_le_compat_r; lra|unfold u; lra]. }
  pose proof H as H'. apply Rabs_le_inv in H'. assert (A0 : 99 / 100 * b <= a) by lra. split; [lra|].
  assert (Sb : 0 < sqrt b) by (apply sqrt_lt_R0; lra).
  assert (Sa : 97 / 100 * sqrt b <= sqrt a).
  { replace (97 / 100) with (sqrt (97 / 100 * (97 / 100))) by (apply sqrt_square; lra). rewrite <- sqrt_mult by lra. apply sqrt_le_1; lra. }
  assert (Q : (sqrt a - sqrt b) * (sqrt a + sqrt b) = a - b).
  { replace ((sqrt a - sqrt b) * (sqrt a + sqrt b)) with (sqrt a * sqrt a - sqrt b * sqrt b) by ring. rewrite !sqrt_sqrt by lra. reflexivity. }
  assert (Q2 : Rabs (sqrt a - sqrt b) * (197 / 100 * sqrt b) <= e * (u * b)).
  { apply Rle_trans with (Rabs (sqrt a - sqrt b) * (sqrt a + sqrt b)); [apply Rmult_le_compat_l; [apply Rabs_pos|lra]|].
    rewrite <- (Rabs_pos_eq (sqrt a + sqrt b)) by lra. rewrite <- Rabs_mult, Q. exact H. }
  apply Rmult_le_reg_r with (197 / 100 * sqrt b); [lra|]. eapply Rle_trans; [exact Q2|].
  assert (SS : sqrt b * sqrt b = b) by (apply sqrt_sqrt; lra). rewrite <- SS at 1.
  assert (0 <= e * (u * (sqrt b * sqrt b))) by (apply Rmult_le_pos; [lra|apply Rmult_le_pos; [lra|apply Rmult_le_pos; lra]]).
  replace (51 / 100 * e * (u * sqrt b) * (197 / 100 * sqrt b)) with (10047 / 10000 * (e * (u * (sqrt b * sqrt b)))) by field. lra.
Qed.

(** The common factor 1 / ((1 + s) + k) and the coefficients it multiplies. *)
Variables (s k : f32) (S K : R).
Hypothesis Rs : rel s S 125.
Hypothesis Rk : rel k K 125.
Hypothesis PS : 0 < S.
Hypothesis PK : 0 < K.
Let D := 1 + S + K.
Hypothesis HD : D <= 1048576.

Lemma D1 : 1 <= D. Proof. unfold D. lra. Qed.

Lemma nrm_rel : fin (nrm s k) = true /\ Rabs (val (nrm s k) * D - 1) <= 130 * u.
Proof.
  destruct one_spec as [F1 V1]. pose proof u_pos as U. pose proof t_range as T. pose proof D1 as HD1. pose proof (uD_pos D HD1) as W.
  destruct Rs as [Fs Es]. destruct Rk as [Fk Ek].
  assert (BS : 0 <= u * S) by (apply Rmult_le_pos; lra). assert (BK : 0 <= u * K) by (apply Rmult_le_pos; lra).
  assert (DD : u * D = u + u * S + u * K) by (unfold D; ring).
  assert (BS1 : u * S <= / 16777216 * S) by (unfold u; lra). assert (BK1 : u * K <= / 16777216 * K) by (unfold u; lra).
  apply Rabs_le_inv in Es. apply Rabs_le_inv in Ek.
  destruct (add_u (of_int 1) s F1 Fs) as [Fa Ea].
  { rewrite V1. apply small100. rewrite Rabs_pos_eq; unfold D in *; lra. }
  rewrite V1, (Rabs_pos_eq (1 + val s)) in Ea by lra. apply Rabs_le_inv in Ea.
  set (b := val (fadd (of_int 1) s)) in *.
  assert (Ub : u * (1 + val s) <= 1001 / 1000 * (u + u * S)).
  { apply Rle_trans with (u * (1001 / 1000 * (1 + S))); [apply Rmult_le_compat_l; lra|lra]. }
  destruct (add_u (fadd (of_int 1) s) k Fa Fk) as [Fd Ed].
  { apply small100. fold b. rewrite Rabs_pos_eq; unfold D, u in *; lra. }
  fold b in Ed. rewrite (Rabs_pos_eq (b + val k)) in Ed by (unfold u in *; lra). apply Rabs_le_inv in Ed.
  assert (Ud : u * (b + val k) <= 1001 / 1000 * (u * D)).
  { rewrite DD. apply Rle_trans with (u * (1001 / 1000 * (1 + S + K))); [apply Rmult_le_compat_l; [lra|unfold u in *; lra]|lra]. }
  change (fadd (fadd (of_int 1) s) k) with (a0_ s k) in *. set (a := val (a0_ s k)) in *.
  assert (Ea0 : Rabs (a - D) <= 1281 / 10 * (u * D)) by (apply Rabs_le; unfold D in *; lra).
  clear Ed Ud Ea Ub Es Ek. clearbody b. apply Rabs_le_inv in Ea0.
  assert (UD : u * D <= / 16777216 * D) by (unfold u; lra).
  assert (Pa : 999 / 1000 * D <= a) by lra. assert (I : 0 < / a <= 1002 / 1000).
  { split; [apply Rinv_0_lt_compat; lra|]. apply Rle_trans with (/ (999 / 1000)); [apply Rinv_le_contravar; lra|lra]. }
  unfold nrm. destruct (div_u (of_int 1) (a0_ s k) F1) as [Fn En].
  { fold a. lra. }
  { fold a. rewrite V1. apply small100. unfold Rdiv. rewrite Rmult_1_l, Rabs_pos_eq by lra. lra. }
  fold a in En. rewrite V1 in En. unfold Rdiv in En. rewrite Rmult_1_l, (Rabs_pos_eq (/ a)) in En by lra. split; [exact Fn|].
  set (n := val (fdiv (of_int 1) (a0_ s k))) in *.
  assert (R1 : Rabs (/ a * D - 1) <= 1284 / 10 * u).
  { replace (/ a * D - 1) with (/ a * (D - a)) by (field; lra). rewrite Rabs_mult, (Rabs_pos_eq (/ a)) by lra.
    apply Rmult_le_reg_l with a; [lra|]. rewrite <- Rmult_assoc, Rinv_r, Rmult_1_l by lra.
    apply Rle_trans with (1281 / 10 * (u * D)); [apply Rabs_le; lra|].
    replace (a * (1284 / 10 * u)) with (1284 / 10 * (u * a)) by ring. assert (u * a >= u * (9999 / 10000 * D)) by (apply Rle_ge, Rmult_le_compat_l; lra). lra. }
  assert (R2 : Rabs ((n - / a) * D) <= 11 / 10 * u).
  { rewrite Rabs_mult, (Rabs_pos_eq D) by lra. apply Rle_trans with ((u * / a + t) * D); [apply Rmult_le_compat_r; lra|].
    assert (X : / a * D <= 1003 / 1000) by (apply Rabs_le_inv in R1; unfold u in *; lra).
    assert (Y : t * D <= u / 1099511627776 * 1048576) by (apply Rmult_le_compat; lra).
    replace ((u * / a + t) * D) with (u * (/ a * D) + t * D) by ring.
    assert (u * (/ a * D) <= u * (1003 / 1000)) by (apply Rmult_le_compat_l; lra). lra. }
  replace (n * D - 1) with ((n - / a) * D + (/ a * D - 1)) by ring. eapply Rle_trans; [apply Rabs_triang|]. lra.
Qed.

Lemma quot v w m c : near D v w m -> 0 <= m <= 1048576 -> Rabs w <= c * D -> 0 <= c <= 65536 ->
  fin (fmul (nrm s k) v) = true /\ Rabs (val (fmul (nrm s k) v) - w / D) <= (1001 / 1000 * m + 132 * c + / 1000) * u.
Proof.
  intros [Fv Hv] Hm Hw Hc. destruct nrm_rel as [Fn En]. pose proof u_pos as U. pose proof t_range as T. pose proof D1 as HD1.
  set (n := val (nrm s k)) in *. set (x := val v) in *.
  assert (I : 0 < / D <= 1) by (split; [apply Rinv_0_lt_compat; lra|rewrite <- Rinv_1; apply Rinv_le_contravar; lra]).
  assert (ID : D * / D = 1) by (apply Rinv_r; lra).
  assert (Q : Rabs (w / D) <= c).
  { unfold Rdiv. rewrite Rabs_mult, (Rabs_pos_eq (/ D)) by lra. apply Rle_trans with (c * D * / D); [apply Rmult_le_compat_r; lra|]. rewrite Rmult_assoc, ID. lra. }
  assert (N : Rabs (n * D) <= 10001 / 10000).
  { replace (n * D) with ((n * D - 1) + 1) by ring. eapply Rle_trans; [apply Rabs_triang|]. rewrite Rabs_R1. unfold u in *. lra. }
  assert (P1 : Rabs (n * (x - w)) <= 10001 / 10000 * (m * u)).
  { replace (n * (x - w)) with ((n * D) * ((x - w) * / D)) by (field; lra). rewrite Rabs_mult. apply Rmult_le_compat; try apply Rabs_pos; [exact N|].
    rewrite Rabs_mult, (Rabs_pos_eq (/ D)) by lra. apply Rle_trans with (m * (u * D) * / D); [apply Rmult_le_compat_r; lra|].
    replace (m * (u * D) * / D) with (m * u * (D * / D)) by ring. rewrite ID. lra. }
  assert (P2 : Rabs (w / D * (n * D - 1)) <= 130 * (c * u)).
  { rewrite Rabs_mult. replace (130 * (c * u)) with (c * (130 * u)) by ring. apply Rmult_le_compat; try apply Rabs_pos; assumption. }
  assert (M0 : 0 <= m * u <= 1048576 * u) by (split; [apply Rmult_le_pos; lra|apply Rmult_le_compat_r; lra]).
  assert (C0 : 0 <= c * u <= 65536 * u) by (split; [apply Rmult_le_pos; lra|apply Rmult_le_compat_r; lra]).
  assert (P3 : Rabs (n * x - w / D) <= 10001 / 10000 * (m * u) + 130 * (c * u)).
  { replace (n * x - w / D) with (n * (x - w) + w / D * (n * D - 1)) by (field; lra). eapply Rle_trans; [apply Rabs_triang|]. lra. }
  assert (P4 : Rabs (n * x) <= c + (10001 / 10000 * (m * u) + 130 * (c * u))).
  { replace (n * x) with ((n * x - w / D) + w / D) by ring. eapply Rle_trans; [apply Rabs_triang|]. lra. }
  destruct (mul_u (nrm s k) v Fn Fv) as [F E].
  { apply small100. fold n x. unfold u in *. lra. }
  split; [exact F|]. fold n x in E. set (y := val (fmul (nrm s k) v)) in *.
  assert (P5 : u * Rabs (n * x) <= c * u + / 100000 * (m * u) + / 1000 * (c * u)).
  { apply Rle_trans with (u * (c + (10001 / 10000 * (m * u) + 130 * (c * u)))); [apply Rmult_le_compat_l; lra|].
    assert (u * (m * u) <= / 16777216 * (m * u)) by (apply Rmult_le_compat_r; [lra|unfold u; lra]).
    assert (u * (c * u) <= / 16777216 * (c * u)) by (apply Rmult_le_compat_r; [lra|unfold u; lra]).
    replace (u * (c + (10001 / 10000 * (m * u) + 130 * (c * u)))) with (c * u + 10001 / 10000 * (u * (m * u)) + 130 * (u * (c * u))) by ring. lra. }
  replace (y - w / D) with ((y - n * x) + (n * x - w / D)) by ring. eapply Rle_trans; [apply Rabs_triang|].
  replace ((1001 / 1000 * m + 132 * c + / 1000) * u) with (1001 / 1000 * (m * u) + 132 * (c * u) + / 1000 * u) by ring. lra.
Qed.
End Prods.
