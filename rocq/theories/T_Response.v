(** * Theorems: the frequency response of every design at every frequency (C92). *)

From Coq Require Import ZArith Reals Lia Lra Psatz.
From Verif Require Import Base F32 Num M_FloatMath M_Biquad S_Biquad S_Response P_Biquad P_BiquadMore P_Butterworth T_Biquad.
Local Open Scope R_scope.

Lemma angle_of x y : x * x + y * y = 1 -> exists th, cos th = x /\ sin th = y.
Proof.
  intros H. assert (B : -1 <= x <= 1) by nra.
  assert (S : sqrt (1 - x * x) = Rabs y).
  { rewrite <- sqrt_Rsqr_abs. f_equal. unfold Rsqr. lra. }
  destruct (Rle_lt_dec 0 y) as [P|P].
  - exists (acos x). rewrite cos_acos, sin_acos by exact B. unfold Rsqr. rewrite S, Rabs_pos_eq by exact P. tauto.
  - exists (- acos x). rewrite cos_neg, sin_neg, cos_acos, sin_acos by exact B. unfold Rsqr. rewrite S, Rabs_left by exact P. split; lra.
Qed.

(** Half-angle form of the frequency. *)
Lemma half_angle w : 0 < w < PI -> let T := tan (w / 2) in 0 < T /\ cos w = (1 - T * T) / (1 + T * T) /\ sin w = 2 * T / (1 + T * T).
Proof.
  intros H T. assert (Hc : 0 < cos (w / 2)) by (apply cos_gt_0; lra). assert (Hs : 0 < sin (w / 2)) by (apply sin_gt_0; lra).
  assert (PT : 0 < T) by (unfold T, tan; now apply Rdiv_lt_0_compat). split; [exact PT|].
  assert (Es : sin (w / 2) = T * cos (w / 2)) by (unfold T, tan; field; lra).
  pose proof (sin2_cos2 (w / 2)) as E. unfold Rsqr in E. rewrite Es in E.
  assert (Ec : cos (w / 2) * cos (w / 2) = / (1 + T * T)).
  { apply Rmult_eq_reg_r with (1 + T * T); [|nra]. rewrite Rinv_l by nra. lra. }
  replace w with (2 * (w / 2)) at 1 2 by field. rewrite cos_2a, sin_2a, Es. split.
  - replace (cos (w / 2) * cos (w / 2) - T * cos (w / 2) * (T * cos (w / 2))) with ((1 - T * T) * (cos (w / 2) * cos (w / 2))) by ring. rewrite Ec. reflexivity.
  - replace (2 * (T * cos (w / 2)) * cos (w / 2)) with (2 * T * (cos (w / 2) * cos (w / 2))) by ring. rewrite Ec. reflexivity.
Qed.

Lemma sinusoid_next_w w amp phi n :
  sinusoid amp w phi (S (S n)) = amp * (sin (w * INR (S n) + phi) * cos w + cos (w * INR (S n) + phi) * sin w) /\
  sinusoid amp w phi n = amp * (sin (w * INR (S n) + phi) * cos w - cos (w * INR (S n) + phi) * sin w).
Proof.
  unfold sinusoid. split.
  - rewrite <- sin_plus. f_equal. f_equal. rewrite (S_INR (S n)). ring.
  - rewrite <- sin_minus. f_equal. f_equal. rewrite (S_INR n). ring.
Qed.

(** A sinusoid comes out scaled by [gs] in phase and [gc] in quadrature: here as one sinusoid. *)
Lemma settle_gain c w g gs gc : jury c -> 0 <= g -> gs * gs + gc * gc = g * g ->
  (forall S C,
    b0 c * (S * cos w + C * sin w) + b1 c * S + b2 c * (S * cos w - C * sin w) =
      gs * ((S * cos w + C * sin w) + a1 c * S + a2 c * (S * cos w - C * sin w)) +
      gc * ((C * cos w - S * sin w) + a1 c * C + a2 c * (C * cos w + S * sin w))) ->
  has_gain c w g.
Proof.
  intros J Hg Eg H.
  assert (Th : exists th, g * cos th = gs /\ g * sin th = gc).
  { destruct Hg as [Hg| <-].
    - destruct (angle_of (gs / g) (gc / g)) as (th & C1 & S1); [field_simplify; [|lra]; rewrite <- !Rsqr_pow2; unfold Rsqr; rewrite Eg; field; lra|].
      exists th. rewrite C1, S1. split; field; lra.
    - exists 0. assert (gs = 0 /\ gc = 0) by (split; nra). rewrite cos_0, sin_0. lra. }
  destruct Th as (th & Ec & Es). exists th. intros b amp phi <-. apply settle; [exact J|]. intros n. set (c := bq_coeffs b) in *.
  destruct (sinusoid_next_w w amp phi n) as [-> ->]. destruct (sinusoid_next_w w (g * amp) (phi + th) n) as [-> ->].
  unfold sinusoid. rewrite <- !Rplus_assoc. set (t := w * INR (S n) + phi). rewrite (sin_plus t th), (cos_plus t th).
  specialize (H (sin t) (cos t)). set (Sn := sin t) in *. set (Cn := cos t) in *. set (sw := sin w) in *. set (cw := cos w) in *.
  clearbody Sn Cn sw cw. apply (Rmult_eq_compat_l amp) in H. rewrite <- Ec, <- Es in H. lra.
Qed.

(** A bilinear transform of (n2 p^2 + n1 p + n0) / (p^2 + d1 p + d0). *)
Lemma bilinear n2 n1 n0 d1 d0 w : 0 < d1 -> 0 < d0 -> 0 < w < PI -> let Q := 1 + d1 + d0 in let T := tan (w / 2) in
  has_gain (BC ((n2 + n1 + n0) / Q) (2 * (n0 - n2) / Q) ((n2 - n1 + n0) / Q) (2 * (d0 - 1) / Q) ((1 - d1 + d0) / Q)) w
    (sqrt (((n0 - n2 * (T * T)) * (n0 - n2 * (T * T)) + n1 * T * (n1 * T)) / ((d0 - T * T) * (d0 - T * T) + d1 * T * (d1 * T)))).
Proof.
  intros H1 H0 Hw Q T. destruct (half_angle w Hw) as (PT & Cw & Sw). fold T in PT, Cw, Sw.
  set (X := n0 - n2 * (T * T)). set (Y := n1 * T). set (U := d0 - T * T). set (V := d1 * T).
  assert (PV : 0 < V) by (unfold V; nra). assert (PM : 0 < U * U + V * V) by nra.
  apply settle_gain with ((X * U + Y * V) / (U * U + V * V)) ((Y * U - X * V) / (U * U + V * V)).
  - apply jury_shape; assumption.
  - apply sqrt_pos.
  - rewrite sqrt_sqrt.
    + field. lra.
    + apply Rmult_le_pos; [nra|]. left. now apply Rinv_0_lt_compat.
  - intros S C. cbn [b0 b1 b2 a1 a2]. rewrite Cw, Sw. unfold X, Y, U, V, Q in *. field. split; [|split]; nra.
Qed.

(** ** The gain is well defined *)
Lemma vanish_sinusoid P Q w : 0 < sin w -> Un_cv (fun n => P * sin (w * INR n) + Q * cos (w * INR n)) 0 -> P = 0 /\ Q = 0.
Proof.
  intros Hs H. set (y := fun n => P * sin (w * INR n) + Q * cos (w * INR n)) in H.
  assert (H1 : Un_cv (fun n => y (S n)) 0).
  { intros e He. destruct (H e He) as [N HN]. exists N. intros n Hn. apply HN. unfold ge in *. apply le_S, Hn. }
  assert (K : forall n, y (S n) - cos w * y n = sin w * (P * cos (w * INR n) - Q * sin (w * INR n))).
  { intros n. unfold y. rewrite S_INR. replace (w * (INR n + 1)) with (w * INR n + w) by ring. rewrite sin_plus, cos_plus. ring. }
  assert (E : forall n, (sin w * sin w) * (P * P + Q * Q) = (sin w * sin w) * (y n * y n) + (y (S n) - cos w * y n) * (y (S n) - cos w * y n)).
  { intros n. rewrite K. unfold y. pose proof (sin2_cos2 (w * INR n)) as T. unfold Rsqr in T.
    transitivity ((sin w * sin w) * ((P * P + Q * Q) * (sin (w * INR n) * sin (w * INR n) + cos (w * INR n) * cos (w * INR n)))); [rewrite T; ring|ring]. }
  assert (C : Un_cv (fun n => (sin w * sin w) * (y n * y n) + (y (S n) - cos w * y n) * (y (S n) - cos w * y n)) 0).
  { assert (Cst : forall c, Un_cv (fun _ => c) c) by (intros c e He; exists O; intros; now rewrite (proj2 (R_dist_refl c c) eq_refl)).
    assert (D : Un_cv (fun n => y (S n) - cos w * y n) (0 - cos w * 0)) by (apply CV_minus; [exact H1|apply (CV_mult (fun _ => cos w) y); [apply Cst|exact H]]).
    replace 0 with ((sin w * sin w) * (0 * 0) + (0 - cos w * 0) * (0 - cos w * 0)) by ring.
    apply CV_plus; [apply (CV_mult (fun _ => sin w * sin w)); [apply Cst|now apply CV_mult]|now apply CV_mult]. }
  assert (Z : (sin w * sin w) * (P * P + Q * Q) = 0).
  { eapply UL_sequence; [|exact C]. intros e He. exists O. intros n _. rewrite <- E. now rewrite (proj2 (R_dist_refl _ _) eq_refl). }
  assert (Z2 : P * P + Q * Q = 0) by (apply Rmult_integral in Z; destruct Z as [Z|Z]; [nra|exact Z]). split; nra.
Qed.

Lemma gain_unique c w g h : 0 < w < PI -> 0 <= g -> 0 <= h -> has_gain c w g -> has_gain c w h -> g = h.
Proof.
  intros Hw Hg Hh (t & T) (u & U). specialize (T (bq_new c) 1 0 eq_refl). specialize (U (bq_new c) 1 0 eq_refl).
  pose proof (CV_minus _ _ _ _ U T) as D.
  assert (V : g * cos t - h * cos u = 0 /\ g * sin t - h * sin u = 0).
  { apply (vanish_sinusoid _ _ w); [apply sin_gt_0; tauto|]. intros e He. destruct (D e He) as [N HN]. exists N. intros n Hn. specialize (HN n Hn).
    unfold R_dist in *. rewrite !Rminus_0_r in *. unfold sinusoid in HN. rewrite !Rplus_0_l, !sin_plus in HN.
    eapply Rle_lt_trans; [|exact HN]. right. f_equal. ring. }
  destruct V as [V1 V2]. pose proof (sin2_cos2 t) as S1. pose proof (sin2_cos2 u) as S2. unfold Rsqr in *.
  assert (E1 : g * cos t = h * cos u) by lra. assert (E2 : g * sin t = h * sin u) by lra.
  assert (E : g * g = h * h).
  { transitivity (g * g * (sin t * sin t + cos t * cos t)); [rewrite S1; ring|].
    transitivity ((g * sin t) * (g * sin t) + (g * cos t) * (g * cos t)); [ring|]. rewrite E1, E2.
    transitivity (h * h * (sin u * sin u + cos u * cos u)); [ring|rewrite S2; ring]. }
  nra.
Qed.

(** The gain of a filter at a frequency is unique: [has_gain] determines it. *)
Theorem C92_gain_is_unique : forall (c : coeffs R) w g h, 0 < w < PI -> 0 <= g -> 0 <= h ->
  has_gain c w g -> has_gain c w h -> g = h.
Proof. exact gain_unique. Qed.
Print Assumptions C92_gain_is_unique.

Lemma relative_pos fc sr w : 0 < fc -> 0 < sr -> 0 < w < PI -> 0 < relative fc sr w.
Proof. intros. unfold relative. apply Rdiv_lt_0_compat; [now apply half_angle|now apply design_k_pos]. Qed.

Lemma resonance_pos q O : 0 < q -> 0 < O -> 0 < resonance q O.
Proof.
  intros Hq HO. assert (P : 0 < O / q) by (now apply Rdiv_lt_0_compat). unfold resonance.
  apply Rplus_le_lt_0_compat; [apply Rle_0_sqr|now apply Rmult_lt_0_compat].
Qed.

Local Ltac side := repeat split; (lra || (apply Rgt_not_eq; nra)).

(** Every design at every frequency below half the sample rate: with O the frequency relative
    to the cut-off, the gains are those of the analog prototypes.  The all-pass filter passes
    every frequency at full level; a bell or shelf with the gain -g undoes the one with the
    gain g at every frequency. *)
Theorem C92_response : forall (MO : MathOps R) fc q sr w, exact_powi MO -> exact_sqrt MO ->
  0 < fc -> 0 < q -> 0 < sr -> 0 < w < PI ->
  let O := relative fc sr w in
  has_gain (lowpass fc q sr) w (sqrt (1 / resonance q O)) /\
  has_gain (highpass fc q sr) w (sqrt (O * O * (O * O) / resonance q O)) /\
  has_gain (allpass fc q sr) w 1 /\
  has_gain (notch fc q sr) w (sqrt ((1 - O * O) * (1 - O * O) / resonance q O)) /\
  (forall g, 0 <= g ->
    has_gain (bell fc q g sr) w (sqrt (((1 - O * O) * (1 - O * O) + g * (O / q) * (g * (O / q))) / resonance q O)) /\
    has_gain (low_shelf fc q g sr) w (sqrt ((g * g + O * O * (O * O)) / resonance q O))) /\
  (forall g, 0 < g ->
    has_gain (bell fc q (- g) sr) w (sqrt (resonance q O / ((1 - O * O) * (1 - O * O) + g * (O / q) * (g * (O / q))))) /\
    has_gain (low_shelf fc q (- g) sr) w (sqrt (resonance q O / (g * g + O * O * (O * O))))).
Proof.
  intros MO fc q sr w Hpow Hsqrt Hfc Hq Hsr Hw O.
  pose proof (design_k_pos fc sr Hfc Hsr) as Pk. pose proof (relative_pos fc sr w Hfc Hsr Hw) as PO. fold O in PO.
  pose proof (s_pos fc q sr Hfc Hq Hsr) as Ps. pose proof (G_pos fc sr Hfc Hsr) as PG.
  pose proof (resonance_pos q O Hq PO) as PR.
  assert (ET : tan (w / 2) = O * design_k fc sr) by (unfold O, relative; field; lra).
  set (k := design_k fc sr) in *.
  assert (Gen : forall c n2 n1 n0 d1 d0 v, 0 < d1 -> 0 < d0 ->
    c = BC ((n2 + n1 + n0) / (1 + d1 + d0)) (2 * (n0 - n2) / (1 + d1 + d0)) ((n2 - n1 + n0) / (1 + d1 + d0)) (2 * (d0 - 1) / (1 + d1 + d0)) ((1 - d1 + d0) / (1 + d1 + d0)) ->
    ((n0 - n2 * (O * k * (O * k))) * (n0 - n2 * (O * k * (O * k))) + n1 * (O * k) * (n1 * (O * k))) / ((d0 - O * k * (O * k)) * (d0 - O * k * (O * k)) + d1 * (O * k) * (d1 * (O * k))) = v ->
    has_gain c w (sqrt v)).
  { intros c n2 n1 n0 d1 d0 v H1 H0 -> <-. pose proof (bilinear n2 n1 n0 d1 d0 w H1 H0 Hw) as B. cbv zeta in B. rewrite ET in B. exact B. }
  assert (PQ : 0 < 1 + k / q + k * k) by lra.
  assert (Pkq : 0 < k * k * q) by nra.
  assert (PR' : (1 - O * O) * (1 - O * O) + O / q * (O / q) <> 0) by (unfold resonance in PR; lra).
  assert (EqG : forall c d e f g c' d' e' f' g' : R, c = c' -> d = d' -> e = e' -> f = f' -> g = g' -> BC c d e f g = BC c' d' e' f' g') by (intros; now subst).
  assert (Rk : (k * k - O * k * (O * k)) * (k * k - O * k * (O * k)) + k / q * (O * k) * (k / q * (O * k)) = k * k * (k * k) * resonance q O).
  { unfold resonance. field. lra. }
  split; [|split; [|split; [|split; [|split]]]].
  - rewrite lowpass_form by assumption. apply Gen with 0 0 (k * k) (k / q) (k * k); try assumption.
    + cbv zeta; fold k; apply EqG; field; side.
    + rewrite Rk. field. split; lra.
  - rewrite highpass_form by assumption. apply Gen with 1 0 0 (k / q) (k * k); try assumption.
    + cbv zeta; fold k; apply EqG; field; side.
    + rewrite Rk. field. split; lra.
  - rewrite allpass_form by assumption. match goal with |- has_gain ?c w 1 => cut (has_gain c w (sqrt 1)); [rewrite sqrt_1; exact (fun H => H)|] end. apply Gen with 1 (- (k / q)) (k * k) (k / q) (k * k); try assumption.
    + cbv zeta; fold k; apply EqG; field; side.
    + rewrite Rk. transitivity (k * k * (k * k) * resonance q O / (k * k * (k * k) * resonance q O)); [|field; split; lra].
      f_equal. rewrite <- Rk. ring.
  - rewrite notch_form by assumption. apply Gen with 1 0 (k * k) (k / q) (k * k); try assumption.
    + cbv zeta; fold k; apply EqG; field; side.
    + rewrite Rk. field. split; lra.
  - intros g Hg. split.
    + rewrite bell_pos, bell_boost_form by assumption. apply Gen with 1 (g * (k / q)) (k * k) (k / q) (k * k); try assumption.
      * cbv zeta; fold k; apply EqG; field; side.
      * rewrite Rk. field. repeat split; lra.
    + rewrite low_shelf_pos, low_shelf_boost_form by assumption. cbv zeta; fold k.
      assert (Pg : 0 <= 2 * (g * (k * k))) by nra. pose proof (sqrt_sqrt _ Pg) as Sq. set (z := sqrt (2 * (g * (k * k)))) in *.
      apply Gen with 1 z (g * (k * k)) (k / q) (k * k); try assumption.
      * cbv zeta; fold k; apply EqG; field; side.
      * rewrite Rk. replace (z * (O * k) * (z * (O * k))) with (z * z * (O * k * (O * k))) by ring. rewrite Sq. field. split; lra.
  - intros g Hg. split.
    + rewrite bell_neg, bell_cut_form by (assumption || lra). assert (Pgs : 0 < g * (k / q)) by (apply Rmult_lt_0_compat; assumption).
      apply Gen with 1 (k / q) (k * k) (g * (k / q)) (k * k); try assumption.
      * cbv zeta; fold k; apply EqG; field; side.
      * rewrite Rmult_1_l, Rk. assert (PX : 0 < O / q) by (now apply Rdiv_lt_0_compat).
        replace ((k * k - O * k * (O * k)) * (k * k - O * k * (O * k)) + g * (k / q) * (O * k) * (g * (k / q) * (O * k))) with (k * k * (k * k) * ((1 - O * O) * (1 - O * O) + g * (O / q) * (g * (O / q)))) by (field; lra).
        assert (0 < (1 - O * O) * (1 - O * O) + g * (O / q) * (g * (O / q))).
        { apply Rplus_le_lt_0_compat; [apply Rle_0_sqr|]. apply Rmult_lt_0_compat; apply Rmult_lt_0_compat; assumption. }
        set (X := (1 - O * O) * (1 - O * O) + g * (O / q) * (g * (O / q))) in *. field. split; lra.
    + rewrite low_shelf_neg, low_shelf_cut_form by (assumption || lra). cbv zeta; fold k.
      assert (Pg : 0 < 2 * (g * (k * k))) by nra. pose proof (sqrt_sqrt _ (Rlt_le _ _ Pg)) as Sq. pose proof (sqrt_lt_R0 _ Pg) as Pz. set (z := sqrt (2 * (g * (k * k)))) in *.
      apply Gen with 1 (k / q) (k * k) z (g * (k * k)); try assumption.
      * nra.
      * cbv zeta; fold k; apply EqG; field; side.
      * rewrite Rmult_1_l, Rk. replace (z * (O * k) * (z * (O * k))) with (z * z * (O * k * (O * k))) by ring. rewrite Sq.
        replace ((g * (k * k) - O * k * (O * k)) * (g * (k * k) - O * k * (O * k)) + 2 * (g * (k * k)) * (O * k * (O * k))) with (k * k * (k * k) * (g * g + O * O * (O * O))) by ring.
        assert (0 < g * g + O * O * (O * O)) by nra. set (X := g * g + O * O * (O * O)) in *. field. split; lra.
Qed.
Print Assumptions C92_response.

Lemma relative_mono fc sr v w : 0 < fc -> 0 < sr -> 0 < v -> v < w < PI -> relative fc sr v < relative fc sr w.
Proof.
  intros Hfc Hsr Hv Hw. unfold relative. apply Rmult_lt_compat_r; [apply Rinv_0_lt_compat; now apply design_k_pos|].
  apply tan_increasing; lra.
Qed.

Lemma relative_onto fc sr O : 0 < fc -> 0 < sr -> 0 < O -> exists w, 0 < w < PI /\ relative fc sr w = O.
Proof.
  intros Hfc Hsr HO. pose proof (design_k_pos fc sr Hfc Hsr) as Pk. set (k := design_k fc sr) in *.
  exists (2 * atan (O * k)). pose proof (atan_bound (O * k)) as B. assert (P : 0 < atan (O * k)) by (rewrite <- atan_0; apply atan_increasing; nra).
  split; [lra|]. unfold relative. fold k. replace (2 * atan (O * k) / 2) with (atan (O * k)) by field. rewrite tan_atan. field. lra.
Qed.

Lemma sqrt_ratio_lt a b c d : 0 < b -> 0 < d -> 0 <= a -> a * d < c * b -> sqrt (a / b) < sqrt (c / d).
Proof.
  intros Hb Hd Ha H. apply sqrt_lt_1_alt. split; [apply Rmult_le_pos; [exact Ha|left; now apply Rinv_0_lt_compat]|].
  apply Rmult_lt_reg_r with (b * d); [nra|]. replace (a / b * (b * d)) with (a * d) by (field; lra). replace (c / d * (b * d)) with (c * b) by (field; lra). exact H.
Qed.

Lemma sqrt_ratio_below a b v : 0 < b -> 0 <= a -> 0 < v -> a < v * v * b -> sqrt (a / b) < v.
Proof.
  intros Hb Ha Hv H. rewrite <- (sqrt_square v) by lra. replace (v * v) with (v * v / 1) by field. apply sqrt_ratio_lt; lra.
Qed.

Lemma sqrt_ratio_above a b v : 0 < b -> 0 < v -> v * v * b < a -> v < sqrt (a / b).
Proof.
  intros Hb Hv H. rewrite <- (sqrt_square v) by lra. replace (v * v) with (v * v / 1) by field. apply sqrt_ratio_lt; nra.
Qed.

Lemma resonance_expand q O : 0 < q -> resonance q O = 1 + (/ (q * q) - 2) * (O * O) + O * O * (O * O).
Proof. intros. unfold resonance. field. lra. Qed.

Lemma damped q : 0 < q -> 2 * (q * q) <= 1 -> 2 <= / (q * q).
Proof. intros Hq H. apply Rmult_le_reg_r with (q * q); [nra|]. rewrite Rinv_l by nra. lra. Qed.

(** Without resonance (q at most 1/sqrt 2) a low-pass filter lets less through the higher the
    frequency, a high-pass filter more; neither ever amplifies, and beyond the cut-off the
    low-pass falls at least as fast as the inverse square of the warped frequency (before the
    cut-off the high-pass rises at most as fast as its square). *)
Theorem C92_monotone : forall (MO : MathOps R) fc q sr v w, exact_powi MO -> exact_sqrt MO ->
  0 < fc -> 0 < q -> 0 < sr -> 2 * (q * q) <= 1 -> 0 < v -> v < w < PI ->
  (forall g h, 0 <= g -> 0 <= h -> has_gain (lowpass fc q sr) v g -> has_gain (lowpass fc q sr) w h ->
    h < g < 1 /\ h * (relative fc sr w * relative fc sr w) < 1) /\
  (forall g h, 0 <= g -> 0 <= h -> has_gain (highpass fc q sr) v g -> has_gain (highpass fc q sr) w h ->
    g < h < 1 /\ g < relative fc sr v * relative fc sr v).
Proof.
  intros MO fc q sr v w Hp Hs Hfc Hq Hsr Hd Hv Hw.
  pose proof (C92_response MO fc q sr v Hp Hs Hfc Hq Hsr ltac:(lra)) as (LV & HV & _).
  pose proof (C92_response MO fc q sr w Hp Hs Hfc Hq Hsr ltac:(lra)) as (LW & HW & _).
  pose proof (relative_pos fc sr v Hfc Hsr ltac:(lra)) as PV. pose proof (relative_mono fc sr v w Hfc Hsr Hv Hw) as M.
  set (A := relative fc sr v) in *. set (B := relative fc sr w) in *. cbv zeta in *.
  pose proof (resonance_pos q A Hq PV) as RA. pose proof (resonance_pos q B Hq ltac:(lra)) as RB.
  pose proof (damped q Hq Hd) as D. rewrite !(resonance_expand q _ Hq) in *. set (d := / (q * q) - 2) in *. assert (Pd : 0 <= d) by (unfold d; lra). clearbody d A B.
  assert (PB : 0 < B) by lra. assert (Ma : 0 < A * A) by nra. assert (Mab : A * A < B * B) by nra.
  set (a := A * A) in *. set (b := B * B) in *. clearbody a b.
  assert (Mda : 0 <= d * a) by (apply Rmult_le_pos; lra). assert (Mdb : d * a <= d * b) by (apply Rmult_le_compat_l; lra). assert (Maa : 0 < a * a) by nra. assert (Mbb : a * a < b * b) by nra.
  assert (Nn : forall x, 0 <= sqrt x) by apply sqrt_pos.
  split; intros g h Hg Hh Gg Gh.
  - rewrite (gain_unique _ v _ _ ltac:(lra) Hg (Nn _) Gg LV). rewrite (gain_unique _ w _ _ ltac:(lra) Hh (Nn _) Gh LW).
    split; [split|].
    + apply sqrt_ratio_lt; nra.
    + apply sqrt_ratio_below; nra.
    + apply Rmult_lt_reg_r with (/ b); [apply Rinv_0_lt_compat; lra|]. rewrite Rmult_assoc, Rinv_r, Rmult_1_r, Rmult_1_l by lra.
      apply sqrt_ratio_below; try lra; [apply Rinv_0_lt_compat; lra|]. apply Rmult_lt_reg_r with (b * b); [lra|].
      replace (/ b * / b * (1 + d * b + b * b) * (b * b)) with (1 + d * b + b * b) by (field; lra). lra.
  - rewrite (gain_unique _ v _ _ ltac:(lra) Hg (Nn _) Gg HV). rewrite (gain_unique _ w _ _ ltac:(lra) Hh (Nn _) Gh HW).
    split; [split|].
    + apply sqrt_ratio_lt; try nra. assert (0 < b - a) by lra.
      assert (E : b * b * (1 + d * a + a * a) - a * a * (1 + d * b + b * b) = (b - a) * (b + a + d * a * b)) by ring.
      assert (0 <= d * a * b) by (apply Rmult_le_pos; [apply Rmult_le_pos|]; lra). nra.
    + apply sqrt_ratio_below; nra.
    + apply sqrt_ratio_below; try lra. replace (a * a) with (a * a * 1) at 1 by ring. apply Rmult_lt_compat_l; lra.
Qed.
Print Assumptions C92_monotone.

(** A low-pass (or high-pass) filter amplifies no frequency exactly when q is at most 1/sqrt 2:
    any larger q makes some frequency come out louder than it went in. *)
Theorem C92_amplifies_iff_resonant : forall (MO : MathOps R) fc q sr, exact_powi MO -> exact_sqrt MO ->
  0 < fc -> 0 < q -> 0 < sr ->
  ((forall w g, 0 < w < PI -> 0 <= g -> has_gain (lowpass fc q sr) w g -> g <= 1) <-> 2 * (q * q) <= 1) /\
  ((forall w g, 0 < w < PI -> 0 <= g -> has_gain (highpass fc q sr) w g -> g <= 1) <-> 2 * (q * q) <= 1).
Proof.
  intros MO fc q sr Hp Hs Hfc Hq Hsr.
  assert (Inv : 1 < 2 * (q * q) -> 0 < / (q * q) < 2).
  { intros H. split; [apply Rinv_0_lt_compat; nra|]. apply Rmult_lt_reg_r with (q * q); [nra|]. rewrite Rinv_l by nra. lra. }
  split; split.
  - intros H. destruct (Rle_or_lt (2 * (q * q)) 1) as [?|L]; [assumption|exfalso]. specialize (Inv L).
    assert (PX : 0 < 1 - / (q * q) / 2) by lra.
    destruct (relative_onto fc sr (sqrt (1 - / (q * q) / 2)) Hfc Hsr (sqrt_lt_R0 _ PX)) as (w & Hw & Ew).
    pose proof (C92_response MO fc q sr w Hp Hs Hfc Hq Hsr Hw) as (LV & _). cbv zeta in LV. rewrite Ew in LV.
    specialize (H w _ Hw (sqrt_pos _) LV). revert H. apply Rlt_not_le.
    pose proof (resonance_pos q _ Hq (sqrt_lt_R0 _ PX)) as PR.
    rewrite (resonance_expand q _ Hq), sqrt_sqrt in * by lra. set (d := / (q * q)) in *. clearbody d.
    apply sqrt_ratio_above; nra.
  - intros D w g Hw Hg Gg. destruct (C92_monotone MO fc q sr w ((w + PI) / 2) Hp Hs Hfc Hq Hsr D) as [L _]; try lra.
    pose proof (C92_response MO fc q sr ((w + PI) / 2) Hp Hs Hfc Hq Hsr ltac:(lra)) as (LV & _).
    destruct (L g _ Hg (sqrt_pos _) Gg LV). lra.
  - intros H. destruct (Rle_or_lt (2 * (q * q)) 1) as [?|L]; [assumption|exfalso]. specialize (Inv L).
    assert (PX : 0 < 1 - / (q * q) / 2) by lra. assert (PY : 0 < / (1 - / (q * q) / 2)) by (now apply Rinv_0_lt_compat).
    destruct (relative_onto fc sr (sqrt (/ (1 - / (q * q) / 2))) Hfc Hsr (sqrt_lt_R0 _ PY)) as (w & Hw & Ew).
    pose proof (C92_response MO fc q sr w Hp Hs Hfc Hq Hsr Hw) as (_ & LV & _). cbv zeta in LV. rewrite Ew in LV.
    specialize (H w _ Hw (sqrt_pos _) LV). revert H. apply Rlt_not_le.
    pose proof (resonance_pos q _ Hq (sqrt_lt_R0 _ PY)) as PR.
    rewrite (resonance_expand q _ Hq), !sqrt_sqrt in * by lra. set (d := / (q * q)) in *. clearbody d.
    assert (E : (1 - d / 2) * / (1 - d / 2) = 1) by (field; lra). set (y := / (1 - d / 2)) in *. clearbody y.
    apply sqrt_ratio_above; nra.
  - intros D w g Hw Hg Gg. destruct (C92_monotone MO fc q sr w ((w + PI) / 2) Hp Hs Hfc Hq Hsr D) as [_ L]; try lra.
    pose proof (C92_response MO fc q sr ((w + PI) / 2) Hp Hs Hfc Hq Hsr ltac:(lra)) as (_ & LV & _).
    destruct (L g _ Hg (sqrt_pos _) Gg LV). lra.
Qed.
Print Assumptions C92_amplifies_iff_resonant.

(** A shelf of unit gain is expected to leave every frequency alone.  It does so for
    q = 1/sqrt 2 only; for every other q it changes the level of every frequency. *)
Theorem C92_unit_shelf_refuted : forall (MO : MathOps R) fc q sr w g, exact_powi MO -> exact_sqrt MO ->
  0 < fc -> 0 < q -> 0 < sr -> 0 < w < PI -> 0 <= g -> has_gain (low_shelf fc q 1 sr) w g ->
  (g = 1 <-> 2 * (q * q) = 1) /\ (g < 1 <-> 2 * (q * q) < 1).
Proof.
  intros MO fc q sr w g Hp Hs Hfc Hq Hsr Hw Hg Gg.
  pose proof (C92_response MO fc q sr w Hp Hs Hfc Hq Hsr Hw) as (_ & _ & _ & _ & H & _). destruct (H 1 ltac:(lra)) as [_ S]. clear H.
  rewrite (gain_unique _ _ _ _ Hw Hg (sqrt_pos _) Gg S). clear g Hg Gg S.
  pose proof (relative_pos fc sr w Hfc Hsr Hw) as PO. set (O := relative fc sr w) in *. clearbody O.
  pose proof (resonance_pos q O Hq PO) as PR. rewrite (resonance_expand q O Hq) in *.
  assert (Pq : 0 < q * q) by nra. assert (E : q * q * / (q * q) = 1) by (field; nra). pose proof (Rinv_0_lt_compat _ Pq) as Pd.
  set (d := / (q * q)) in *. set (p := q * q) in *. clearbody d p.
  assert (PO2 : 0 < O * O) by nra. set (a := O * O) in *. clearbody a.
  assert (Tri : (d < 2 -> 1 < sqrt ((1 * 1 + a * a) / (1 + (d - 2) * a + a * a))) /\ (2 < d -> sqrt ((1 * 1 + a * a) / (1 + (d - 2) * a + a * a)) < 1) /\
    (d = 2 -> sqrt ((1 * 1 + a * a) / (1 + (d - 2) * a + a * a)) = 1)).
  { repeat split; intros Hd.
    - apply sqrt_ratio_above; nra.
    - apply sqrt_ratio_below; nra.
    - subst d. replace ((1 * 1 + a * a) / (1 + (2 - 2) * a + a * a)) with 1 by (field; nra). apply sqrt_1. }
  destruct Tri as (T1 & T2 & T3). set (r := sqrt _) in *. clearbody r.
  destruct (Rtotal_order d 2) as [L|[L|L]].
  - specialize (T1 L). assert (1 < 2 * p) by nra. lra.
  - specialize (T3 L). subst d. lra.
  - specialize (T2 L). assert (2 * p < 1) by nra. lra.
Qed.
Print Assumptions C92_unit_shelf_refuted.

(** The hypotheses are met: a 1 kHz filter with q = 1/2 at 48 kHz, and the gain of one at its
    cut-off frequency. *)
Example C92_met : exact_powi powi_math /\ exact_sqrt powi_math /\ 0 < centre 1000 48000 < PI /\
  relative 1000 48000 (centre 1000 48000) = 1 /\ has_gain (lowpass (MO := powi_math) 1000 (1 / 2) 48000) (centre 1000 48000) (1 / 2).
Proof.
  pose proof (design_k_pos 1000 48000 ltac:(lra) ltac:(lra)) as Pk. unfold centre. set (k := design_k 1000 48000) in *.
  pose proof (atan_bound k) as B. assert (P : 0 < atan k) by (rewrite <- atan_0; now apply atan_increasing).
  assert (E : relative 1000 48000 (2 * atan k) = 1).
  { unfold relative. fold k. replace (2 * atan k / 2) with (atan k) by field. rewrite tan_atan. field. lra. }
  split; [exact powi_math_exact|]. split; [exact powi_math_sqrt|]. split; [lra|]. split; [exact E|].
  destruct (C92_response powi_math 1000 (1 / 2) 48000 (2 * atan k) powi_math_exact powi_math_sqrt) as (H & _); try lra. cbv zeta in H. rewrite E in H.
  replace (1 / 2) with (sqrt (1 / resonance (1 / 2) 1)) at 2; [exact H|].
  unfold resonance. replace (1 / ((1 - 1 * 1) * (1 - 1 * 1) + 1 / (1 / 2) * (1 / (1 / 2)))) with (Rsqr (1 / 2)) by (unfold Rsqr; field). apply sqrt_Rsqr. lra.
Qed.
