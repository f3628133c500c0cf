(** * Theorems: bell and low-shelf filters designed and run in f32 (C107). *)

From Coq Require Import ZArith List Bool Reals Lia Lra Psatz.
From Flocq Require Import Core.
From Verif Require Import Base F32 F32Lemmas F32Range Num M_FloatMath M_Biquad S_Biquad S_BiquadF32 S_DesignF32 S_TanF32 S_GainF32 S_EndToEnd
  P_DelayNum P_Interp P_Biquad P_Butterworth P_BiquadF32 P_DesignF32 P_Tan P_TanF32 P_EndToEnd T_Biquad T_Tan T_BiquadF32 T_DesignF32 T_TanF32 T_EndToEnd T_DecibelsF32 T_GainF32.
Local Open Scope R_scope.

(** Any design over the denominator 1 + S + K with numerators n0, n1, n2. *)
Lemma gain_follows (NP : NanPolicy) (S K e M n0 n1 n2 : R) (x : nat -> f32) (c : coeffs f32) (d : coeffs R) :
  let D := 1 + S + K in
  d = BC (n0 / D) (n1 / D) (n2 / D) (2 * (K - 1) / D) ((1 - S + K) / D) ->
  0 < S -> 0 < K -> coeffs_within e c d -> 2 <= Rabs n0 + Rabs n2 -> Rabs n0 + Rabs n1 + Rabs n2 <= 16384 * D ->
  let G := design_ringing S K in let B := forward_weight d in
  pow2 (-14) <= e -> e * G <= 1 / 32 -> pow2 (-70) <= M <= pow2 45 -> samples_within M x ->
  follows c d x (G * (G * B * (1 / 70000 + 11 / 4 * e) + 3 * e) * M).
Proof.
  intros D Ed PS PK C N2 NB G B E14 HE HM Hx.
  assert (PD : 1 < D) by (unfold D; lra). assert (PI : 0 < / D) by (apply Rinv_0_lt_compat; lra).
  assert (Q1 : forall N, Rabs (N / D) = Rabs N / D) by (intros; unfold Rdiv; rewrite Rabs_mult, (Rabs_pos_eq (/ D)) by lra; reflexivity).
  assert (EB : B = (Rabs n0 + Rabs n1 + Rabs n2) / D) by (unfold B, forward_weight; rewrite Ed; cbn [b0 b1 b2]; rewrite !Q1; field; lra).
  assert (X14 : 0 < pow2 (-14)) by apply bpow_gt_0. assert (X20 : pow2 (-20) <= pow2 (-14)) by (apply bpow_le; lia).
  assert (G1 : 1 <= G) by (now apply design_ringing_1). pose proof (Rabs_pos n1) as N1.
  assert (BG : 2 / 4 <= B * G).
  { rewrite EB. apply rings_enough; [lra|lra|lra|]. fold D. apply Rle_trans with (2 * D); [unfold D; lra|apply Rmult_le_compat_r; lra]. }
  assert (B16 : 16 * e <= B) by (apply Rmult_le_reg_r with G; lra).
  assert (BU : B <= 16384).
  { rewrite EB. apply Rmult_le_reg_r with D; [lra|]. unfold Rdiv. rewrite Rmult_assoc, Rinv_l, Rmult_1_r by lra. exact NB. }
  assert (X70 : 0 < pow2 (-70)) by apply bpow_gt_0. assert (HE' : e * G <= 1 / 16) by lra.
  apply (terms_follow NP S K e M x); try assumption; try lra; try (rewrite Ed; reflexivity).
  fold B. apply Rle_trans with (pow2 14 * pow2 45); [|rewrite <- bpow_plus; apply bpow_le; lia].
  replace (pow2 14) with 16384 by (cbn; lra). apply Rmult_le_compat; lra.
Qed.

Lemma outer_two a b : 1 <= a -> 2 <= Rabs (a + b) + Rabs (a - b).
Proof. intros H. unfold Rabs. repeat destruct Rcase_abs; lra. Qed.
Lemma outer_le a b m : 0 <= b -> 0 <= a -> a + b <= m -> Rabs (a + b) <= m /\ Rabs (a - b) <= m.
Proof. intros. split; apply Rabs_le; lra. Qed.

(** C107, bell: boosting or cutting by a gain of magnitude between 1/L and L. *)
Theorem C107_bell_follows : forall (NP : NanPolicy) (MO : MathOps f32) (MR : MathOps R) (L : R) (fc q gain sr : f32) (M : R) (x : nat -> f32),
  close_powi MO -> exact_powi MR -> design_args (pow2 (-30)) (3 / 2) fc q sr -> 1 <= L <= 1024 -> gain_within L gain ->
  let k := design_k (val fc) (val sr) in let t := bell_terms (val gain) (k / val q) (k * k) in
  let G := design_ringing (fst t) (snd t) in let e := L * pow2 (-14) in
  e * G <= 1 / 32 -> pow2 (-70) <= M <= pow2 45 -> samples_within M x ->
  let d := bell (val fc) (val q) (val gain) (val sr) in
  follows (bell fc q gain sr) d x (G * (G * forward_weight d * (1 / 70000 + 11 / 4 * e) + 3 * e) * M).
Proof.
  intros NP MO MR L fc q g sr M x HM HR HA HL Hg k t G e HE HMr Hx d.
  destruct (design_facts MO fc q sr HM HA) as (_ & _ & HS & HK & SK & Pf & Pq & Ps). fold k in HS, HK, SK.
  pose proof (C101_bell_accuracy NP MO MR L fc q g sr HM HR HA HL Hg) as C. fold d in C. fold e in C.
  assert (P : 0 < / L) by (apply Rinv_0_lt_compat; lra). destruct Hg as [_ Hg].
  assert (X14 : 0 < pow2 (-14)) by apply bpow_gt_0. assert (E14 : pow2 (-14) <= e) by (unfold e; nra).
  assert (X40 : 0 < pow2 (-40)) by apply bpow_gt_0. assert (X60 : 0 < pow2 (-60)) by apply bpow_gt_0.
  assert (LI : L * / L = 1) by (apply Rinv_r; lra).
  set (S := k / val q) in *. set (K := k * k) in *. unfold bell_terms in t. destruct (Rle_dec 0 (val g)) as [Z|Z]; unfold t in G; cbn [fst snd] in G.
  - assert (Bg : / L <= val g <= L) by (rewrite Rabs_pos_eq in Hg by lra; exact Hg).
    assert (Ed : d = BC ((1 + val g * S + K) / (1 + S + K)) (2 * (K - 1) / (1 + S + K)) ((1 - val g * S + K) / (1 + S + K)) (2 * (K - 1) / (1 + S + K)) ((1 - S + K) / (1 + S + K))).
    { unfold d. rewrite bell_pos by lra. apply (bell_boost_form MR HR _ _ _ Pf Pq Ps). }
    assert (T : 0 <= val g * S <= L * S) by (split; [apply Rmult_le_pos; lra|apply Rmult_le_compat_r; lra]).
    replace (1 + val g * S + K) with (1 + K + val g * S) in Ed by ring. replace (1 - val g * S + K) with (1 + K - val g * S) in Ed by ring.
    apply (gain_follows NP S K e M _ _ _ x _ d Ed); try assumption; try lra; [apply outer_two; lra|].
    assert (LS : 0 < L * S <= 1024 * S) by nra.
    destruct (outer_le (1 + K) (val g * S) (1 + K + 1024 * S)) as [O1 O2]; try lra.
    assert (Rabs (2 * (K - 1)) <= 2 * (1 + K)) by (apply Rabs_le; lra). lra.
  - assert (Bg : / L <= - val g <= L) by (rewrite Rabs_left in Hg by lra; exact Hg).
    assert (Ed : d = BC ((1 + S + K) / (1 + - val g * S + K)) (2 * (K - 1) / (1 + - val g * S + K)) ((1 - S + K) / (1 + - val g * S + K))
      (2 * (K - 1) / (1 + - val g * S + K)) ((1 - - val g * S + K) / (1 + - val g * S + K))).
    { unfold d. replace (val g) with (- - val g) by ring. rewrite bell_neg by lra. rewrite (bell_cut_form MR HR _ _ _ Pf Pq Ps) by lra. fold k. fold S K. now rewrite !Ropp_involutive. }
    set (h := - val g) in *. clearbody h. assert (T : / L * S <= h * S) by (apply Rmult_le_compat_r; lra).
    assert (TS : S <= 1024 * (h * S)).
    { apply Rle_trans with (L * (/ L * S)); [right; rewrite <- Rmult_assoc, LI; ring|]. apply Rmult_le_compat; try lra. apply Rmult_le_pos; lra. }
    assert (0 < h * S) by (assert (0 < / L * S) by (apply Rmult_lt_0_compat; lra); lra).
    replace (1 + S + K) with (1 + K + S) in Ed by ring. replace (1 - S + K) with (1 + K - S) in Ed by ring.
    apply (gain_follows NP (h * S) K e M _ _ _ x _ d Ed); try assumption; try lra; [apply outer_two; lra|].
    destruct (outer_le (1 + K) S (1 + K + 1024 * (h * S))) as [O1 O2]; try lra.
    assert (Rabs (2 * (K - 1)) <= 2 * (1 + K)) by (apply Rabs_le; lra). lra.
Qed.
Print Assumptions C107_bell_follows.

(** C107, low shelf: likewise. *)
Theorem C107_low_shelf_follows : forall (NP : NanPolicy) (MO : MathOps f32) (MR : MathOps R) (L : R) (fc q gain sr : f32) (M : R) (x : nat -> f32),
  close_powi MO -> close_sqrt MO -> exact_powi MR -> exact_sqrt MR -> design_args (pow2 (-30)) (3 / 2) fc q sr -> 1 <= L <= 1024 -> gain_within L gain ->
  let k := design_k (val fc) (val sr) in let t := shelf_terms (val gain) (k / val q) (k * k) in
  let G := design_ringing (fst t) (snd t) in let e := L * pow2 (-13) in
  e * G <= 1 / 32 -> pow2 (-70) <= M <= pow2 45 -> samples_within M x ->
  let d := low_shelf (val fc) (val q) (val gain) (val sr) in
  follows (low_shelf fc q gain sr) d x (G * (G * forward_weight d * (1 / 70000 + 11 / 4 * e) + 3 * e) * M).
Proof.
  intros NP MO MR L fc q g sr M x HM HQ HR HQR HA HL Hg k t G e HE HMr Hx d.
  destruct (design_facts MO fc q sr HM HA) as (_ & _ & HS & HK & SK & Pf & Pq & Ps). fold k in HS, HK, SK.
  pose proof (C101_low_shelf_accuracy NP MO MR L fc q g sr HM HQ HR HQR HA HL Hg) as C. fold d in C. fold e in C.
  assert (P : 0 < / L) by (apply Rinv_0_lt_compat; lra). destruct Hg as [_ Hg].
  assert (X14 : 0 < pow2 (-14) <= pow2 (-13)) by (split; [apply bpow_gt_0|apply bpow_le; lia]). assert (E14 : pow2 (-14) <= e) by (unfold e; nra).
  assert (X40 : 0 < pow2 (-40)) by apply bpow_gt_0. assert (X60 : 0 < pow2 (-60)) by apply bpow_gt_0.
  assert (LI : L * / L = 1) by (apply Rinv_r; lra).
  assert (AM : forall y, 0 <= y -> 0 <= sqrt (2 * y) <= 1 + y).
  { intros y Hy. split; [apply sqrt_pos|]. rewrite <- (sqrt_square (1 + y)) by lra. apply sqrt_le_1; nra. }
  set (S := k / val q) in *. set (K := k * k) in *. unfold shelf_terms in t. destruct (Rle_dec 0 (val g)) as [Z|Z]; unfold t in G; cbn [fst snd] in G.
  - assert (Bg : / L <= val g <= L) by (rewrite Rabs_pos_eq in Hg by lra; exact Hg).
    assert (Ed : d = BC ((1 + sqrt (2 * (val g * K)) + val g * K) / (1 + S + K)) (2 * (val g * K - 1) / (1 + S + K)) ((1 - sqrt (2 * (val g * K)) + val g * K) / (1 + S + K))
      (2 * (K - 1) / (1 + S + K)) ((1 - S + K) / (1 + S + K))).
    { unfold d. rewrite low_shelf_pos by lra. apply (low_shelf_boost_form MR HR HQR _ _ _ Pf Pq Ps). lra. }
    assert (T : 0 <= val g * K <= 1024 * K) by (split; [apply Rmult_le_pos; lra|apply Rmult_le_compat_r; lra]). pose proof (AM _ (proj1 T)) as Sq.
    replace (1 + sqrt (2 * (val g * K)) + val g * K) with (1 + val g * K + sqrt (2 * (val g * K))) in Ed by ring.
    replace (1 - sqrt (2 * (val g * K)) + val g * K) with (1 + val g * K - sqrt (2 * (val g * K))) in Ed by ring.
    apply (gain_follows NP S K e M _ _ _ x _ d Ed); try assumption; try lra; [apply outer_two; lra|].
    destruct (outer_le (1 + val g * K) (sqrt (2 * (val g * K))) (2 + 2048 * K)) as [O1 O2]; try lra.
    assert (Rabs (2 * (val g * K - 1)) <= 2 * (1 + 1024 * K)) by (apply Rabs_le; lra). lra.
  - assert (Bg : / L <= - val g <= L) by (rewrite Rabs_left in Hg by lra; exact Hg).
    set (h := - val g) in *. set (r := sqrt (2 * (h * K))) in *.
    assert (Ed : d = BC ((1 + S + K) / (1 + r + h * K)) (2 * (K - 1) / (1 + r + h * K)) ((1 - S + K) / (1 + r + h * K))
      (2 * (h * K - 1) / (1 + r + h * K)) ((1 - r + h * K) / (1 + r + h * K))).
    { unfold d. replace (val g) with (- h) by (unfold h; ring). rewrite low_shelf_neg by lra. rewrite (low_shelf_cut_form MR HR HQR _ _ _ Pf Pq Ps) by lra. reflexivity. }
    assert (T : / L * K <= h * K) by (apply Rmult_le_compat_r; lra).
    assert (TS : K <= 1024 * (h * K)).
    { apply Rle_trans with (L * (/ L * K)); [right; rewrite <- Rmult_assoc, LI; ring|]. apply Rmult_le_compat; try lra. apply Rmult_le_pos; lra. }
    assert (PK : 0 < h * K) by (assert (0 < / L * K) by (apply Rmult_lt_0_compat; lra); lra).
    assert (Pr : 0 < r) by (apply sqrt_lt_R0; lra). clearbody r. clearbody h.
    replace (1 + S + K) with (1 + K + S) in Ed by ring. replace (1 - S + K) with (1 + K - S) in Ed by ring.
    apply (gain_follows NP r (h * K) e M _ _ _ x _ d Ed); try assumption; try lra; [apply outer_two; lra|].
    destruct (outer_le (1 + K) S (5 + 5 * 1024 * (h * K))) as [O1 O2]; try lra.
    assert (Rabs (2 * (K - 1)) <= 2 * (1 + K)) by (apply Rabs_le; lra). lra.
Qed.
Print Assumptions C107_low_shelf_follows.

(** Instances at a quarter of the sample rate, with external functions that round the mathematical result: a bell
    boosting by 2 and a low shelf cutting by 2 stay for ever within 1/20 of the ideal ones, for any samples within 1. *)
Lemma k_quarter : 999 / 1000 <= design_k 12000 48000 <= 1001 / 1000.
Proof.
  unfold design_k. set (y := pi32 * 12000 / 48000). assert (Y : 78539 / 100000 <= y <= 78540 / 100000) by (unfold y, pi32; change (IZR (2 ^ 22)) with 4194304; lra).
  clearbody y. assert (P : forall n, (78539 / 100000) ^ n <= y ^ n <= (78540 / 100000) ^ n) by (intros n; split; apply pow_incr; lra).
  unfold tan_poly. pose proof (P 3%nat). pose proof (P 5%nat). pose proof (P 7%nat). pose proof (P 9%nat). pose proof (P 11%nat). pose proof (P 13%nat). pose proof (P 15%nat). split; lra.
Qed.

Example C107_gain_met (NP : NanPolicy) (x : nat -> f32) : samples_within 1 x ->
  let MO := nearest_math in let MR := powi_math in
  follows (bell (of_int 12000) (of_int 1) (of_int 2) (of_int 48000)) (bell 12000 1 2 48000) x (1 / 20) /\
  follows (low_shelf (of_int 12000) (of_int 1) (of_int (-2)) (of_int 48000)) (low_shelf 12000 1 (-2) 48000) x (1 / 20).
Proof.
  intros Hx MO MR. destruct (C101_met NP) as (P1 & P2 & P3 & P4 & _). pose proof k_quarter as K.
  assert (V1 : val (of_int 12000) = 12000 /\ fin (of_int 12000) = true) by (split; apply of_int_exact; lia). assert (V2 : val (of_int 1) = 1 /\ fin (of_int 1) = true) by (split; apply of_int_exact; lia).
  assert (V3 : val (of_int 48000) = 48000 /\ fin (of_int 48000) = true) by (split; apply of_int_exact; lia).
  assert (V4 : val (of_int 2) = 2 /\ fin (of_int 2) = true) by (split; apply of_int_exact; lia). assert (V5 : val (of_int (-2)) = -2 /\ fin (of_int (-2)) = true) by (split; apply of_int_exact; lia).
  destruct V1 as [V1 F1], V2 as [V2 F2], V3 as [V3 F3], V4 as [V4 F4], V5 as [V5 F5].
  assert (DA : design_args (pow2 (-30)) (3 / 2) (of_int 12000) (of_int 1) (of_int 48000)).
  { unfold design_args. rewrite V1, V2, V3. assert (pow2 (-30) <= / 8) by (replace (/ 8) with (pow2 (-3)) by (cbn; lra); apply bpow_le; lia).
    pose proof pi32_range. repeat split; auto; try lra. }
  assert (M1 : pow2 (-70) <= 1 <= pow2 45) by (split; [change 1 with (pow2 0)|change 1 with (pow2 0)]; apply bpow_le; lia).
  assert (E14 : pow2 (-14) = / 16384) by (cbn; lra). assert (E13 : pow2 (-13) = / 8192) by (cbn; lra).
  split.
  - pose proof (C107_bell_follows NP MO MR 2 (of_int 12000) (of_int 1) (of_int 2) (of_int 48000) 1 x P3 P1 DA) as C. cbv zeta in C.
    rewrite V1, V2, V3, V4 in C. unfold bell_terms in C. destruct (Rle_dec 0 2) as [_|Z]; [|lra]. cbn [fst snd] in C.
    specialize (C ltac:(lra)).
    assert (GW : gain_within 2 (of_int 2)) by (split; [exact F4|rewrite V4, Rabs_pos_eq; lra]). specialize (C GW). clear GW.
    assert (Ed : bell 12000 1 2 48000 = bell_boost_only 12000 1 2 48000) by (apply bell_pos; lra).
    rewrite (bell_boost_form MR P1 12000 1 48000) in Ed by lra. set (k := design_k 12000 48000) in *. clearbody k. replace (k / 1) with k in * by field.
    assert (KK : 998 / 1000 <= k * k <= 1003 / 1000) by nra.
    assert (G : 1 <= design_ringing k (k * k) <= 91 / 10).
    { split; [apply design_ringing_1; lra|]. unfold design_ringing. rewrite Rmin_left by lra. apply Rmult_le_reg_r with (k * k); [lra|].
      unfold Rdiv at 1. rewrite Rmult_assoc, Rinv_l by lra. nra. }
    set (g := design_ringing k (k * k)) in *. clearbody g.
    assert (B : 0 <= forward_weight (bell 12000 1 2 48000) <= 135 / 100).
    { rewrite Ed. unfold forward_weight. cbn [b0 b1 b2]. unfold Rdiv. rewrite !Rabs_mult, (Rabs_pos_eq (/ (1 + k + k * k))) by (left; apply Rinv_0_lt_compat; lra).
      assert (I : 0 < / (1 + k + k * k) <= 1000 / 2996) by (split; [apply Rinv_0_lt_compat; lra|replace (1000 / 2996) with (/ (2996 / 1000)) by lra; apply Rinv_le_contravar; lra]).
      rewrite <- !Rabs_mult. rewrite <- !Rmult_plus_distr_r. set (n := _ + _ + _ : R).
      assert (N : 0 <= n <= 402 / 100) by (unfold n, Rabs; repeat destruct Rcase_abs; lra). split; [apply Rmult_le_pos; lra|].
      apply Rle_trans with (402 / 100 * (1000 / 2996)); [apply Rmult_le_compat; lra|lra]. }
    specialize (C ltac:(rewrite E14; lra) M1 Hx). set (b := forward_weight (bell 12000 1 2 48000)) in *. clearbody b.
    intros n. destruct (C n) as [F D]. split; [exact F|]. eapply Rle_trans; [exact D|]. rewrite E14.
    assert (GB : 0 <= g * b <= 91 / 10 * (135 / 100)) by (split; [apply Rmult_le_pos; lra|apply Rmult_le_compat; lra]). nra.
  - pose proof (C107_low_shelf_follows NP MO MR 2 (of_int 12000) (of_int 1) (of_int (-2)) (of_int 48000) 1 x P3 P4 P1 P2 DA) as C. cbv zeta in C.
    rewrite V1, V2, V3, V5 in C. unfold shelf_terms in C. destruct (Rle_dec 0 (-2)) as [Z|_]; [lra|]. cbn [fst snd] in C.
    specialize (C ltac:(lra)).
    assert (GW : gain_within 2 (of_int (-2))) by (split; [exact F5|rewrite V5, Rabs_left; lra]). specialize (C GW). clear GW.
    assert (Ed : low_shelf 12000 1 (- (2)) 48000 = low_shelf_cut_only 12000 1 (- (2)) 48000) by (apply low_shelf_neg; lra).
    rewrite (low_shelf_cut_form MR P1 P2 12000 1 48000) in Ed by lra. replace (- (2)) with (-2) in Ed by lra.
    replace (- -2) with 2 in C by lra. set (k := design_k 12000 48000) in *. clearbody k. replace (k / 1) with k in * by field.
    assert (KK : 998 / 1000 <= k * k <= 1003 / 1000) by nra.
    assert (Sq : 2 * (2 * (k * k)) = 2 * k * (2 * k)) by ring. rewrite Sq, sqrt_square in C, Ed by lra.
    assert (G : 1 <= design_ringing (2 * k) (2 * (k * k)) <= 64 / 10).
    { split; [apply design_ringing_1; lra|]. unfold design_ringing. rewrite Rmin_left by lra. apply Rmult_le_reg_r with (2 * k * (2 * k)); [lra|].
      unfold Rdiv at 1. rewrite Rmult_assoc, Rinv_l by lra. nra. }
    set (g := design_ringing _ _) in *. clearbody g.
    assert (B : 0 <= forward_weight (low_shelf 12000 1 (-2) 48000) <= 9 / 10).
    { rewrite Ed. unfold forward_weight. cbn [b0 b1 b2]. unfold Rdiv. set (i := / (1 + 2 * k + 2 * (k * k))).
      assert (I : 0 < i <= 1000 / 4990) by (unfold i; split; [apply Rinv_0_lt_compat; lra|replace (1000 / 4990) with (/ (4990 / 1000)) by lra; apply Rinv_le_contravar; lra]).
      rewrite (Rabs_mult (1 + k + k * k)), (Rabs_mult (2 * (k * k - 1))), (Rabs_mult (1 - k + k * k)), (Rabs_pos_eq i) by lra. rewrite <- !Rmult_plus_distr_r. set (n := _ + _ + _ : R).
      assert (N : 0 <= n <= 402 / 100) by (unfold n, Rabs; repeat destruct Rcase_abs; lra). split; [apply Rmult_le_pos; lra|].
      apply Rle_trans with (402 / 100 * (1000 / 4990)); [apply Rmult_le_compat; lra|lra]. }
    specialize (C ltac:(rewrite E13; lra) M1 Hx). set (b := forward_weight _) in *. clearbody b.
    intros n. destruct (C n) as [F D]. split; [exact F|]. eapply Rle_trans; [exact D|]. rewrite E13.
    assert (GB : 0 <= g * b <= 64 / 10 * (9 / 10)) by (split; [apply Rmult_le_pos; lra|apply Rmult_le_compat; lra]). nra.
Qed.
