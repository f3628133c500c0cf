(** * Proofs about the Butterworth designs in exact arithmetic. *)

From Coq Require Import ZArith Reals Lia Lra Psatz Bool Arith.
From Flocq Require Import Core.
From Verif Require Import Base F32 F32Lemmas Num M_FloatMath M_Biquad S_Biquad P_DelayNum P_Biquad.
Local Open Scope R_scope.

Lemma fast_tan_R : forall MO : MathOps R, exact_powi MO -> forall x : R, fast_tan x = tan_poly x.
Proof.
  intros MO H x. unfold fast_tan. rewrite !H by lia. rewrite !nint_R. cbn [nadd nmul ndiv num_R].
  unfold tan_poly.
  change (Z.to_nat 3) with 3%nat. change (Z.to_nat 5) with 5%nat. change (Z.to_nat 7) with 7%nat.
  change (Z.to_nat 9) with 9%nat. change (Z.to_nat 11) with 11%nat. change (Z.to_nat 13) with 13%nat.
  change (Z.to_nat 15) with 15%nat. field.
Qed.

Lemma tan_poly_pos : forall x, 0 < x -> x <= tan_poly x.
Proof.
  intros x Hx. unfold tan_poly.
  assert (P : forall n, 0 < x ^ n) by (intros; apply pow_lt; auto).
  pose proof (P 3%nat). pose proof (P 5%nat). pose proof (P 7%nat). pose proof (P 9%nat).
  pose proof (P 11%nat). pose proof (P 13%nat). pose proof (P 15%nat). lra.
Qed.

Lemma n_pi_R : n_pi = pi32.
Proof.
  unfold n_pi, pi32. cbn [ndy num_R]. change (bpow radix2 (-22)) with (/ IZR (2 ^ 22)). reflexivity.
Qed.

Lemma setup_R : forall MO : MathOps R, exact_powi MO -> forall fc q sr,
  setup_coeffs fc q sr = (design_k fc sr * design_k fc sr, design_k fc sr / q).
Proof.
  intros MO H fc q sr. unfold setup_coeffs. rewrite n_pi_R. cbn [nmul ndiv num_R].
  rewrite (fast_tan_R MO H). reflexivity.
Qed.

Lemma pi32_pos : 0 < pi32.
Proof. unfold pi32. apply Rdiv_lt_0_compat; apply IZR_lt; lia. Qed.

Lemma design_k_pos : forall fc sr, 0 < fc -> 0 < sr -> 0 < design_k fc sr.
Proof.
  intros fc sr H1 H2. unfold design_k. pose proof pi32_pos.
  assert (0 < pi32 * fc / sr).
  { apply Rdiv_lt_0_compat; auto. apply Rmult_lt_0_compat; auto. }
  pose proof (tan_poly_pos _ H0). lra.
Qed.

(** The common denominator shape. *)
Lemma jury_shape : forall s G p q r, 0 < s -> 0 < G ->
  jury (BC p q r (2 * (G - 1) / (1 + s + G)) ((1 - s + G) / (1 + s + G))).
Proof.
  intros s G p q r Hs HG. unfold jury. cbn [a1 a2].
  assert (N : 0 < 1 + s + G) by lra.
  assert (Lt : forall u v, u < v * (1 + s + G) -> u / (1 + s + G) < v).
  { intros u v H. apply Rmult_lt_reg_r with (1 + s + G); auto. unfold Rdiv.
    rewrite Rmult_assoc, Rinv_l by lra. lra. }
  assert (Gt : forall u v, v * (1 + s + G) < u -> v < u / (1 + s + G)).
  { intros u v H. apply Rmult_lt_reg_r with (1 + s + G); auto. unfold Rdiv.
    rewrite Rmult_assoc, Rinv_l by lra. lra. }
  replace (1 + (1 - s + G) / (1 + s + G)) with (2 * (1 + G) / (1 + s + G)) by (field; lra).
  repeat split.
  - apply Gt. lra.
  - apply Lt. lra.
  - apply Gt. replace (- (2 * (1 + G) / (1 + s + G)) * (1 + s + G)) with (- (2 * (1 + G))) by (field; lra). lra.
  - apply Lt. replace (2 * (1 + G) / (1 + s + G) * (1 + s + G)) with (2 * (1 + G)) by (field; lra). lra.
Qed.

Section Designs.
Variable MO : MathOps R.
Hypothesis Hpow : exact_powi MO.
Hypothesis Hsqrt : exact_sqrt MO.
Variables fc q sr : R.
Hypothesis Hfc : 0 < fc.
Hypothesis Hq : 0 < q.
Hypothesis Hsr : 0 < sr.
Let k : R := design_k fc sr.
Let s : R := k / q.
Let G : R := k * k.

Lemma k_pos : 0 < k.
Proof. apply design_k_pos; auto. Qed.
Lemma s_pos : 0 < s.
Proof. apply Rdiv_lt_0_compat; [apply k_pos|auto]. Qed.
Lemma G_pos : 0 < G.
Proof. pose proof k_pos. unfold G. nra. Qed.

Ltac form := intros; rewrite (setup_R MO Hpow); fold k; fold s; fold G;
  cbn [nadd nsub nmul ndiv nneg num_R]; rewrite ?nint_R; f_equal; field.

Lemma lowpass_form : lowpass fc q sr =
  BC (G / (1 + s + G)) (2 * G / (1 + s + G)) (G / (1 + s + G))
     (2 * (G - 1) / (1 + s + G)) ((1 - s + G) / (1 + s + G)).
Proof. pose proof s_pos. pose proof G_pos. unfold lowpass. form; lra. Qed.

Lemma highpass_form : highpass fc q sr =
  BC (1 / (1 + s + G)) (- 2 / (1 + s + G)) (1 / (1 + s + G))
     (2 * (G - 1) / (1 + s + G)) ((1 - s + G) / (1 + s + G)).
Proof. pose proof s_pos. pose proof G_pos. unfold highpass. form; lra. Qed.

Lemma allpass_form : allpass fc q sr =
  BC ((1 - s + G) / (1 + s + G)) (2 * (G - 1) / (1 + s + G)) 1
     (2 * (G - 1) / (1 + s + G)) ((1 - s + G) / (1 + s + G)).
Proof. pose proof s_pos. pose proof G_pos. unfold allpass. form; lra. Qed.

Lemma notch_form : notch fc q sr =
  BC ((1 + G) / (1 + s + G)) (2 * (G - 1) / (1 + s + G)) ((1 + G) / (1 + s + G))
     (2 * (G - 1) / (1 + s + G)) ((1 - s + G) / (1 + s + G)).
Proof. pose proof s_pos. pose proof G_pos. unfold notch. form; lra. Qed.

Lemma bell_boost_form : forall g, bell_boost_only fc q g sr =
  BC ((1 + g * s + G) / (1 + s + G)) (2 * (G - 1) / (1 + s + G)) ((1 - g * s + G) / (1 + s + G))
     (2 * (G - 1) / (1 + s + G)) ((1 - s + G) / (1 + s + G)).
Proof. pose proof s_pos. pose proof G_pos. unfold bell_boost_only. form; lra. Qed.

Lemma bell_cut_form : forall g, 0 <= g -> bell_cut_only fc q (- g) sr =
  BC ((1 + s + G) / (1 + g * s + G)) (2 * (G - 1) / (1 + g * s + G)) ((1 - s + G) / (1 + g * s + G))
     (2 * (G - 1) / (1 + g * s + G)) ((1 - g * s + G) / (1 + g * s + G)).
Proof.
  intros g Hg. pose proof s_pos. pose proof G_pos. unfold bell_cut_only.
  rewrite (setup_R MO Hpow); fold k; fold s; fold G.
  cbn [nadd nsub nmul ndiv nneg num_R]. rewrite ?nint_R, Ropp_involutive.
  assert (0 <= g * s) by (apply Rmult_le_pos; lra).
  f_equal; field; lra.
Qed.

Lemma low_shelf_boost_form : forall g, 0 <= g -> low_shelf_boost_only fc q g sr =
  BC ((1 + sqrt (2 * (g * G)) + g * G) / (1 + s + G)) (2 * (g * G - 1) / (1 + s + G))
     ((1 - sqrt (2 * (g * G)) + g * G) / (1 + s + G))
     (2 * (G - 1) / (1 + s + G)) ((1 - s + G) / (1 + s + G)).
Proof.
  intros g Hg. pose proof s_pos. pose proof G_pos. unfold low_shelf_boost_only.
  rewrite (setup_R MO Hpow); fold k; fold s; fold G.
  cbn [nadd nsub nmul ndiv nneg num_R]. rewrite ?nint_R.
  assert (0 <= g * G) by (apply Rmult_le_pos; lra).
  rewrite Hsqrt by nra. replace (g * 2 * G) with (2 * (g * G)) by ring.
  f_equal; field; lra.
Qed.

Lemma low_shelf_cut_form : forall g, 0 <= g -> low_shelf_cut_only fc q (- g) sr =
  BC ((1 + s + G) / (1 + sqrt (2 * (g * G)) + g * G)) (2 * (G - 1) / (1 + sqrt (2 * (g * G)) + g * G))
     ((1 - s + G) / (1 + sqrt (2 * (g * G)) + g * G))
     (2 * (g * G - 1) / (1 + sqrt (2 * (g * G)) + g * G))
     ((1 - sqrt (2 * (g * G)) + g * G) / (1 + sqrt (2 * (g * G)) + g * G)).
Proof.
  intros g Hg. pose proof s_pos. pose proof G_pos. unfold low_shelf_cut_only.
  rewrite (setup_R MO Hpow); fold k; fold s; fold G.
  cbn [nadd nsub nmul ndiv nneg num_R]. rewrite ?nint_R, Ropp_involutive.
  assert (0 <= g * G) by (apply Rmult_le_pos; lra).
  rewrite Hsqrt by nra. replace (g * 2 * G) with (2 * (g * G)) by ring.
  pose proof (sqrt_pos (2 * (g * G))).
  f_equal; field; lra.
Qed.

Lemma bell_pos : forall g, 0 <= g -> bell fc q g sr = bell_boost_only fc q g sr.
Proof. intros g Hg. unfold bell. cbn [npos num_R]. now rewrite Rle_bool_true. Qed.
Lemma bell_neg : forall g, 0 < g -> bell fc q (- g) sr = bell_cut_only fc q (- g) sr.
Proof. intros g Hg. unfold bell. cbn [npos num_R]. rewrite Rle_bool_false; [auto|lra]. Qed.
Lemma low_shelf_pos : forall g, 0 <= g -> low_shelf fc q g sr = low_shelf_boost_only fc q g sr.
Proof. intros g Hg. unfold low_shelf. cbn [npos num_R]. now rewrite Rle_bool_true. Qed.
Lemma low_shelf_neg : forall g, 0 < g -> low_shelf fc q (- g) sr = low_shelf_cut_only fc q (- g) sr.
Proof. intros g Hg. unfold low_shelf. cbn [npos num_R]. rewrite Rle_bool_false; [auto|lra]. Qed.

(** Jury's conditions for every design. *)
Lemma jury_lowpass : jury (lowpass fc q sr).
Proof. rewrite lowpass_form. apply jury_shape; [apply s_pos|apply G_pos]. Qed.
Lemma jury_highpass : jury (highpass fc q sr).
Proof. rewrite highpass_form. apply jury_shape; [apply s_pos|apply G_pos]. Qed.
Lemma jury_allpass : jury (allpass fc q sr).
Proof. rewrite allpass_form. apply jury_shape; [apply s_pos|apply G_pos]. Qed.
Lemma jury_notch : jury (notch fc q sr).
Proof. rewrite notch_form. apply jury_shape; [apply s_pos|apply G_pos]. Qed.
Lemma jury_bell : forall g, jury (bell fc q g sr).
Proof.
  intros g. pose proof s_pos as Ps. pose proof G_pos as PG. destruct (Rle_or_lt 0 g) as [P|N].
  - rewrite bell_pos, bell_boost_form by exact P. apply jury_shape; auto.
  - replace g with (- (- g)) by ring. rewrite bell_neg, bell_cut_form by lra.
    apply jury_shape; auto. nra.
Qed.
Lemma jury_low_shelf : forall g, jury (low_shelf fc q g sr).
Proof.
  intros g. pose proof s_pos as Ps. pose proof G_pos as PG. destruct (Rle_or_lt 0 g) as [P|N].
  - rewrite low_shelf_pos, low_shelf_boost_form by exact P. apply jury_shape; auto.
  - replace g with (- (- g)) by ring. rewrite low_shelf_neg, low_shelf_cut_form by lra.
    assert (0 < - g * G) by nra.
    apply jury_shape; auto. apply sqrt_lt_R0. nra.
Qed.

(** *** Zero and half-rate frequencies *)
Lemma alternating_S : forall c n, alternating c (S n) = - alternating c n.
Proof. intros. unfold alternating. cbn [pow]. ring. Qed.

Lemma settle_dc : forall (b : biquad R) c g, jury (bq_coeffs b) ->
  b0 (bq_coeffs b) + b1 (bq_coeffs b) + b2 (bq_coeffs b) = g * (1 + a1 (bq_coeffs b) + a2 (bq_coeffs b)) ->
  settles_to b (constant c) (constant (g * c)).
Proof. intros b c g J E. apply settle; auto. intros n. unfold constant. nra. Qed.

Lemma settle_alt : forall (b : biquad R) c g, jury (bq_coeffs b) ->
  b0 (bq_coeffs b) - b1 (bq_coeffs b) + b2 (bq_coeffs b) = g * (1 - a1 (bq_coeffs b) + a2 (bq_coeffs b)) ->
  settles_to b (alternating c) (alternating (g * c)).
Proof.
  intros b c g J E. apply settle; auto. intros n. rewrite !alternating_S.
  set (y := alternating (g * c) n). assert (Hy : y = g * alternating c n) by (unfold y, alternating; ring).
  rewrite Hy. nra.
Qed.

(** *** The centre frequency *)
Let w : R := centre fc sr.

Lemma trig_centre : cos w = (1 - G) / (1 + G) /\ sin w = 2 * k / (1 + G).
Proof.
  pose proof k_pos as Hk. unfold w, centre. fold k. set (t := atan k).
  pose proof (tan_atan k) as Ht. fold t in Ht.
  assert (Hc : 0 < cos t) by (pose proof (atan_bound k); fold t in H; apply cos_gt_0; lra).
  assert (Es : sin t = k * cos t).
  { unfold tan in Ht. rewrite <- Ht. field. lra. }
  pose proof (sin2_cos2 t) as E. unfold Rsqr in E. rewrite Es in E.
  assert (Ec : cos t * cos t = / (1 + G)).
  { apply Rmult_eq_reg_r with (1 + G); [|unfold G; nra]. rewrite Rinv_l by (unfold G; nra). unfold G. lra. }
  rewrite cos_2a, sin_2a, Es. unfold G in *. split.
  - replace (cos t * cos t - k * cos t * (k * cos t)) with ((1 - k * k) * (cos t * cos t)) by ring.
    rewrite Ec. unfold Rdiv. ring.
  - replace (2 * (k * cos t) * cos t) with (2 * k * (cos t * cos t)) by ring. rewrite Ec. unfold Rdiv. ring.
Qed.

Lemma sinusoid_next : forall amp phi n,
  sinusoid amp w phi (S (S n)) = amp * (sin (w * INR (S n) + phi) * cos w + cos (w * INR (S n) + phi) * sin w) /\
  sinusoid amp w phi n = amp * (sin (w * INR (S n) + phi) * cos w - cos (w * INR (S n) + phi) * sin w).
Proof.
  intros. unfold sinusoid. split.
  - rewrite <- sin_plus. f_equal. f_equal. rewrite (S_INR (S n)). ring.
  - rewrite <- sin_minus. f_equal. f_equal. rewrite (S_INR n). ring.
Qed.

(** A sinusoid at the centre comes out scaled by [gs] in phase and [gc] in quadrature. *)
Lemma settle_centre : forall (b : biquad R) amp phi gs gc, jury (bq_coeffs b) ->
  let c := bq_coeffs b in
  (forall S C,
    b0 c * (S * cos w + C * sin w) + b1 c * S + b2 c * (S * cos w - C * sin w) =
      gs * ((S * cos w + C * sin w) + a1 c * S + a2 c * (S * cos w - C * sin w)) +
      gc * ((C * cos w - S * sin w) + a1 c * C + a2 c * (C * cos w + S * sin w))) ->
  settles_to b (sinusoid amp w phi) (fun n => gs * sinusoid amp w phi n + gc * sinusoid amp w (phi + PI / 2) n).
Proof.
  intros b amp phi gs gc J c H. apply settle; auto. intros n. fold c.
  destruct (sinusoid_next amp phi n) as [-> ->].
  destruct (sinusoid_next amp (phi + PI / 2) n) as [-> ->].
  unfold sinusoid. rewrite <- !Rplus_assoc.
  set (th := w * INR (S n) + phi).
  assert (E1 : sin (th + PI / 2) = cos th).
  { rewrite sin_plus, cos_PI2, sin_PI2. ring. }
  assert (E2 : cos (th + PI / 2) = - sin th).
  { rewrite cos_plus, cos_PI2, sin_PI2. ring. }
  rewrite E1, E2. specialize (H (sin th) (cos th)).
  set (Sn := sin th) in *. set (Cn := cos th) in *. set (sw := sin w) in *. set (cw := cos w) in *.
  clearbody Sn Cn sw cw. apply (Rmult_eq_compat_l amp) in H. lra.
Qed.
End Designs.
