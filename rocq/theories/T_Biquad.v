(** * Theorems about src/biquad. *)

From Coq Require Import ZArith Reals Lia Lra Psatz Bool List.
From Flocq Require Import Core.
From Verif Require Import Base F32 F32Lemmas F32Exact Num M_FloatMath M_Biquad S_Biquad
  P_DelayNum P_Biquad P_Butterworth P_BiquadMore Examples.
Import ListNotations.
Local Open Scope R_scope.

(** C27: from rest the filter computes
    y[n] = b0 x[n] + b1 x[n-1] + b2 x[n-2] - a1 y[n-1] - a2 y[n-2]. *)
Theorem C27_biquad_recurrence : forall (c : coeffs R) (x : nat -> R),
  let y := response (bq_new c) x in
  forall n, y n = b0 c * x n + b1 c * ago 1 x n + b2 c * ago 2 x n
                  - a1 c * ago 1 y n - a2 c * ago 2 y n.
Proof. exact response_rest. Qed.
Print Assumptions C27_biquad_recurrence.

Example C27_example :
  let y := response (bq_new (BC 1 2 3 (-1) 0)) unit_impulse in y 0%nat = 1 /\ y 1%nat = 3 /\ y 2%nat = 6.
Proof.
  cbv zeta. rewrite !response_R. cbn [after unit_impulse bq_new fst snd bq_process z1 z2 b0 b1 b2 a1 a2 bq_coeffs nadd nmul nsub num_R].
  rewrite !nint_R. lra.
Qed.

(** C28 *)
Theorem C28_biquad_linear : forall (c : coeffs R) (u v : nat -> R) (p q : R) n,
  response (bq_new c) (fun i => p * u i + q * v i) n
    = p * response (bq_new c) u n + q * response (bq_new c) v n.
Proof. exact response_linear. Qed.
Print Assumptions C28_biquad_linear.

Theorem C28_biquad_time_invariant : forall (c : coeffs R) (d : nat) (x : nat -> R) n,
  response (bq_new c) (ago d x) n = ago d (response (bq_new c) x) n.
Proof. exact response_delay. Qed.
Print Assumptions C28_biquad_time_invariant.

Example C28_example : let c := BC 1 2 3 (-1) 0 in
  response (bq_new c) unit_impulse 2 = 6 /\ response (bq_new c) (ago 3 unit_impulse) 5 = 6 /\
  response (bq_new c) (fun i => 2 * unit_impulse i + 3 * ago 3 unit_impulse i) 5 = 2 * response (bq_new c) unit_impulse 5 + 18.
Proof.
  cbv zeta.
  assert (E : response (bq_new (BC 1 2 3 (-1) 0)) unit_impulse 2 = 6) 
    by (rewrite !response_R; cbn [after unit_impulse bq_new fst snd bq_process z1 z2 b0 b1 b2 a1 a2 bq_coeffs nadd nmul nsub num_R]; rewrite !nint_R; lra).
  assert (E3 : response (bq_new (BC 1 2 3 (-1) 0)) (ago 3 unit_impulse) 5 = 6) by (rewrite C28_biquad_time_invariant; exact E).
  split; [exact E|]. split; [exact E3|]. rewrite C28_biquad_linear, E3. lra.
Qed.

(** C29: in f32 a non-finite output stays non-finite and a NaN stays NaN for ever,
    whatever coefficients are installed and whatever is fed in afterwards; a
    non-finite input suffices. *)
Theorem C29_biquad_poisoned : forall (NP : NanPolicy) (b : biquad f32) (c : nat -> coeffs f32) (x : nat -> f32) m,
  (fin (x m) = false \/ fin (response_var b c x m) = false ->
     forall n, (m <= n)%nat -> fin (response_var b c x n) = false) /\
  (isnan (x m) = true \/ isnan (response_var b c x m) = true ->
     forall n, (m <= n)%nat -> isnan (response_var b c x n) = true).
Proof.
  intros NP b c x m. destruct (poison_input b c x m) as [P1 P2]. split; intros [H|H].
  - apply poison_fin. now apply P1.
  - now apply poison_fin.
  - apply poison_nan. now apply P2.
  - now apply poison_nan.
Qed.
Print Assumptions C29_biquad_poisoned.

(** A filter whose coefficients were never designed is silent. *)
Theorem C29_fresh_is_silent : forall (NP : NanPolicy) (x : nat -> f32), (forall n, fin (x n) = true) ->
  forall n, fin (response (bq_new bw_new) x n) = true /\ val (response (bq_new bw_new) x n) = 0.
Proof. exact @fresh_silent. Qed.
Print Assumptions C29_fresh_is_silent.

(** One infinite sample through an ordinary low-pass-like filter, zeros afterwards. *)
Example C29_example (NP : NanPolicy) :
  let c := BC (lit 1 (-2)) (lit 1 (-1)) (lit 1 (-2)) (lit (-1) (-1)) (lit 1 (-2)) in
  let x := fun n => match n with 1%nat => f_inf | _ => f_zero end in
  fin (response_var (bq_new c) (fun _ => c) x 0) = true /\
  map (fun n => isinf (response_var (bq_new c) (fun _ => c) x n)) [1; 2]%nat = [true; true] /\
  isnan (response_var (bq_new c) (fun _ => c) x 3) = true.
Proof. repeat split; vm_compute; reflexivity. Qed.

(** C30: every design is stable. *)
Definition well_behaved (c : coeffs R) : Prop := poles_inside c /\ bibo c /\ decays c.

Theorem C30_designs_stable : forall (MO : MathOps R) fc q sr gain,
  exact_powi MO -> exact_sqrt MO -> 0 < fc -> 0 < q -> 0 < sr ->
  well_behaved (lowpass fc q sr) /\ well_behaved (highpass fc q sr) /\
  well_behaved (allpass fc q sr) /\ well_behaved (notch fc q sr) /\
  well_behaved (bell fc q gain sr) /\ well_behaved (low_shelf fc q gain sr).
Proof.
  intros MO fc q sr gain Hp Hs H1 H2 H3.
  assert (J : forall c, jury c -> well_behaved c).
  { intros c Hc. repeat split; [now apply jury_poles|now apply jury_bibo|now apply jury_decays]. }
  repeat split; apply J.
  all: first [ now apply jury_lowpass | now apply jury_highpass | now apply jury_allpass
             | now apply jury_notch | now apply jury_bell | now apply jury_low_shelf ].
Qed.
Print Assumptions C30_designs_stable.

(** The two cut designs called with gain 0 are not stable, and [bell]/[low_shelf]
    reach them in f32 with gain -0.0 (its sign bit is set). The low shelf then has
    its double pole at z = 1: the response to a unit impulse grows without bound. *)
Theorem C30_zero_cut_refuted : forall (MO : MathOps R) fc q sr,
  exact_powi MO -> exact_sqrt MO -> 0 < fc -> 0 < q -> 0 < sr ->
  ~ poles_inside (bell_cut_only fc q 0 sr) /\
  ~ poles_inside (low_shelf_cut_only fc q 0 sr) /\
  (forall M, exists n, M < response (bq_new (low_shelf_cut_only fc q 0 sr)) unit_impulse n).
Proof.
  intros MO fc q sr Hp Hs H1 H2 H3.
  pose proof (design_k_pos fc sr H1 H3) as Hk. set (k := design_k fc sr) in *.
  assert (E1 : bell_cut_only fc q 0 sr = bell_cut_only fc q (- 0) sr) by (f_equal; ring).
  assert (E2 : low_shelf_cut_only fc q 0 sr = low_shelf_cut_only fc q (- 0) sr) by (f_equal; ring).
  rewrite E1, E2, (bell_cut_form MO Hp fc q sr), (low_shelf_cut_form MO Hp Hs fc q sr) by (auto; lra).
  fold k. rewrite !Rmult_0_l, Rmult_0_r, sqrt_0.
  assert (HG : 0 < k * k) by nra. set (G := k * k) in *. set (s := k / q).
  split; [|split].
  - intros P. specialize (P (- ((G - 1) / (1 + G))) (sqrt (1 - ((G - 1) / (1 + G)) * ((G - 1) / (1 + G))))).
    cbn [a1 a2] in P. set (u := (G - 1) / (1 + G)) in *.
    assert (Hu : -1 <= u <= 1).
    { unfold u. split; apply Rmult_le_reg_r with (1 + G); try lra; unfold Rdiv; rewrite Rmult_assoc, Rinv_l by lra; lra. }
    assert (Hw : 0 <= 1 - u * u) by nra.
    pose proof (sqrt_sqrt _ Hw) as Hv. set (v := sqrt (1 - u * u)) in *.
    replace (2 * (G - 1) / (1 + 0 + G)) with (2 * u) in P by (unfold u; field; lra).
    replace ((1 - 0 + G) / (1 + 0 + G)) with 1 in P by (field; lra).
    assert (C : - u * - u + v * v < 1) by (apply P; [nra|ring]). nra.
  - intros P. specialize (P 1 0). cbn [a1 a2] in P.
    assert (C : 1 * 1 + 0 * 0 < 1) by (apply P; field). lra.
  - intros M. set (c := BC _ _ _ _ _).
    destruct (archimed ((M - (b1 c + 2 * b0 c)) / (4 * G))) as [A _].
    set (z := up _) in A. set (n := Z.to_nat (Z.max 0 z)).
    exists (S n). rewrite double_pole_grows by (cbn [c a1 a2]; field).
    replace (b0 c + b1 c + b2 c) with (4 * G) by (unfold c; cbn [b0 b1 b2]; field).
    assert (IZR z <= INR n).
    { unfold n. rewrite INR_IZR_INZ, Z2Nat.id by lia. apply IZR_le. lia. }
    assert ((M - (b1 c + 2 * b0 c)) / (4 * G) < INR n) by lra.
    apply Rmult_lt_compat_r with (r := 4 * G) in H0; [|lra].
    unfold Rdiv in H0. rewrite Rmult_assoc, Rinv_l in H0 by lra. lra.
Qed.
Print Assumptions C30_zero_cut_refuted.

Theorem C30_low_shelf_minus_zero_refuted : forall (NP : NanPolicy) (MO : MathOps f32) fc q sr,
  (forall x, fin x = true /\ val x = 0 -> fin (m_sqrt x) = true /\ val (m_sqrt x) = 0) ->
  fin (fst (setup_coeffs fc q sr)) = true ->
  let c := low_shelf fc q (fneg f_zero) sr in
  fin (a1 c) = true /\ val (a1 c) = -2 /\ fin (a2 c) = true /\ val (a2 c) = 1.
Proof. exact @low_shelf_minus_zero. Qed.
Print Assumptions C30_low_shelf_minus_zero_refuted.

Definition powi_math : MathOps R := {|
  m_floor := fun x => IZR (Zfloor x); m_sqrt := sqrt; m_exp := exp; m_log10 := fun x => ln x / ln 10;
  m_powf := Rpower; m_powi := fun x n => x ^ Z.to_nat n |}.
Lemma powi_math_exact : exact_powi powi_math.
Proof. intros x n _. reflexivity. Qed.
Lemma powi_math_sqrt : exact_sqrt powi_math.
Proof. intros x _. reflexivity. Qed.
Example C30_example : well_behaved (lowpass (MO := powi_math) 1000 1 48000).
Proof.
  destruct (C30_designs_stable powi_math 1000 1 48000 1) as [H _]; try lra; auto;
    intro; intros; reflexivity.
Qed.
Definition sq_math {NP : NanPolicy} : MathOps f32 := {|
  m_floor := ref_floor; m_sqrt := fun x => x; m_exp := fun x => x; m_log10 := fun x => x;
  m_powf := fun x _ => x; m_powi := fun x n => fmul x (fmul x x) |}.
Example C30_example_f32 (NP : NanPolicy) :
  fin (fst (setup_coeffs (MO := sq_math) (of_int 1000) (of_int 1) (of_int 48000))) = true.
Proof. vm_compute. reflexivity. Qed.

(** C31: gains at the two ends of the spectrum, from any initial state. *)
Theorem C31_lowpass_gain : forall (MO : MathOps R) fc q sr (b : biquad R) c,
  exact_powi MO -> 0 < fc -> 0 < q -> 0 < sr -> bq_coeffs b = lowpass fc q sr ->
  settles_to b (constant c) (constant c) /\ settles_to b (alternating c) (constant 0).
Proof.
  intros MO fc q sr b c Hp H1 H2 H3 Hb.
  pose proof (jury_lowpass MO Hp fc q sr H1 H2 H3) as J. rewrite <- Hb in J.
  pose proof (s_pos fc q sr H1 H2 H3) as Ps. pose proof (G_pos fc sr H1 H3) as PG.
  rewrite (lowpass_form MO Hp fc q sr H1 H2 H3) in Hb.
  split.
  - apply settle_dc1; [exact J|]. rewrite Hb. cbn [b0 b1 b2 a1 a2]. set (s := design_k fc sr / q) in *. set (G := design_k fc sr * design_k fc sr) in *. field. lra.
  - apply settle_alt0; [exact J|]. rewrite Hb. cbn [b0 b1 b2 a1 a2]. set (s := design_k fc sr / q) in *. set (G := design_k fc sr * design_k fc sr) in *. field. lra.
Qed.
Print Assumptions C31_lowpass_gain.

Theorem C31_highpass_gain : forall (MO : MathOps R) fc q sr (b : biquad R) c,
  exact_powi MO -> 0 < fc -> 0 < q -> 0 < sr -> bq_coeffs b = highpass fc q sr ->
  settles_to b (constant c) (constant 0) /\ settles_to b (alternating c) (alternating c).
Proof.
  intros MO fc q sr b c Hp H1 H2 H3 Hb.
  pose proof (jury_highpass MO Hp fc q sr H1 H2 H3) as J. rewrite <- Hb in J.
  pose proof (s_pos fc q sr H1 H2 H3) as Ps. pose proof (G_pos fc sr H1 H3) as PG.
  rewrite (highpass_form MO Hp fc q sr H1 H2 H3) in Hb.
  split.
  - apply settle_dc0; [exact J|]. rewrite Hb. cbn [b0 b1 b2 a1 a2]. set (s := design_k fc sr / q) in *. set (G := design_k fc sr * design_k fc sr) in *. field. lra.
  - apply settle_alt1; [exact J|]. rewrite Hb. cbn [b0 b1 b2 a1 a2]. set (s := design_k fc sr / q) in *. set (G := design_k fc sr * design_k fc sr) in *. field. lra.
Qed.
Print Assumptions C31_highpass_gain.

Example C31_example : settles_to (BQ 3 (-4) (lowpass (MO := powi_math) 1000 1 48000)) (constant 5) (constant 5).
Proof.
  refine (proj1 (C31_lowpass_gain powi_math 1000 1 48000 (BQ 3 (-4) (lowpass (MO := powi_math) 1000 1 48000)) 5 powi_math_exact _ _ _ eq_refl)); lra.
Qed.

(** C32 *)
Theorem C32_allpass_lossless : forall (MO : MathOps R) fc q sr x,
  exact_powi MO -> 0 < fc -> 0 < q -> 0 < sr ->
  let y := response (bq_new (allpass fc q sr)) x in
  (forall n, energy_upto y n <= energy_upto x n) /\
  (exists V : R -> R -> R, (forall s t, 0 <= V s t) /\ V 0 0 = 0 /\ forall n,
     let b := after (bq_new (allpass fc q sr)) x (S n) in
     energy_upto x n - energy_upto y n = V (z1 b) (z2 b)) /\
  (forall N, (forall n, (N <= n)%nat -> x n = 0) -> Un_cv (fun n => energy_upto x n - energy_upto y n) 0).
Proof.
  intros MO fc q sr x Hp H1 H2 H3 y.
  pose proof (jury_allpass MO Hp fc q sr H1 H2 H3) as J.
  assert (E : b0 (allpass fc q sr) = a2 (allpass fc q sr) /\ b1 (allpass fc q sr) = a1 (allpass fc q sr)
              /\ b2 (allpass fc q sr) = 1).
  { rewrite (allpass_form MO Hp fc q sr H1 H2 H3). repeat split. }
  destruct E as (E0 & E1 & E2). destruct (lossless _ x J E0 E1 E2) as (S1 & S2 & S3).
  split; [exact S2|]. split; [|exact S3].
  exists (stored (a1 (allpass fc q sr)) (a2 (allpass fc q sr))). destruct J as [J1 J2].
  split; [apply stored_nonneg; assumption|]. split; [apply stored_0|]. exact S1.
Qed.
Print Assumptions C32_allpass_lossless.

Example C32_example : let y := response (bq_new (allpass (MO := powi_math) 1000 1 48000)) unit_impulse in
  Un_cv (fun n => 1 - energy_upto y n) 0.
Proof.
  cbv zeta. destruct (C32_allpass_lossless powi_math 1000 1 48000 unit_impulse) as (_ & _ & S); try lra.
  { intro; intros; reflexivity. }
  pose proof (S 1%nat) as S1. intros eps He. destruct S1 with (eps := eps) as [N HN]; auto.
  { intros [|n] Hn; [lia|reflexivity]. }
  exists N. intros n Hn. specialize (HN n Hn).
  assert (E : energy_upto unit_impulse n = 1).
  { unfold energy_upto. clear. induction n as [|n I]; cbn [sum_f_R0 unit_impulse]; [ring|rewrite I; ring]. }
  now rewrite E in HN.
Qed.

(** All-pass phase: constant and alternating inputs pass, the centre is inverted. *)
Theorem C78_allpass_phase : forall (MO : MathOps R) fc q sr (b : biquad R) c amp phi,
  exact_powi MO -> 0 < fc -> 0 < q -> 0 < sr -> bq_coeffs b = allpass fc q sr ->
  settles_to b (constant c) (constant c) /\ settles_to b (alternating c) (alternating c) /\
  settles_to b (sinusoid amp (centre fc sr) phi) (sinusoid (- amp) (centre fc sr) phi).
Proof.
  intros MO fc q sr b c amp phi Hp H1 H2 H3 Hb.
  pose proof (jury_allpass MO Hp fc q sr H1 H2 H3) as J. rewrite <- Hb in J.
  pose proof (s_pos fc q sr H1 H2 H3) as Ps. pose proof (G_pos fc sr H1 H3) as PG.
  rewrite (allpass_form MO Hp fc q sr H1 H2 H3) in Hb.
  split; [|split].
  - apply settle_dc1; [exact J|]. rewrite Hb. cbn [b0 b1 b2 a1 a2]. set (s := design_k fc sr / q) in *. set (G := design_k fc sr * design_k fc sr) in *. field. lra.
  - apply settle_alt1; [exact J|]. rewrite Hb. cbn [b0 b1 b2 a1 a2]. set (s := design_k fc sr / q) in *. set (G := design_k fc sr * design_k fc sr) in *. field. lra.
  - destruct (trig_centre fc sr H1 H3) as [Cw Sw].
    pose proof (settle_centre fc sr b amp phi (-1) 0 J) as S. cbv zeta in S.
    intros eps He. destruct S with (eps := eps) as [N HN]; auto.
    + intros Sn Cn. rewrite Hb. cbn [b0 b1 b2 a1 a2]. rewrite Cw. set (s := design_k fc sr / q) in *. set (G := design_k fc sr * design_k fc sr) in *. field. lra.
    + exists N. intros n Hn. specialize (HN n Hn). unfold R_dist in *.
      replace (response b (sinusoid amp (centre fc sr) phi) n - sinusoid (- amp) (centre fc sr) phi n)
        with (response b (sinusoid amp (centre fc sr) phi) n
          - (-1 * sinusoid amp (centre fc sr) phi n + 0 * sinusoid amp (centre fc sr) (phi + PI / 2) n));
        [exact HN|unfold sinusoid; ring].
Qed.
Print Assumptions C78_allpass_phase.

Example C78_example : settles_to (BQ 3 (-4) (allpass (MO := powi_math) 1000 2 48000))
  (sinusoid 1 (centre 1000 48000) 0) (sinusoid (- 1) (centre 1000 48000) 0).
Proof.
  apply (C78_allpass_phase powi_math 1000 2 48000 _ 0 1 0); try lra; [exact powi_math_exact|reflexivity].
Qed.

(** C33 *)
Theorem C33_notch : forall (MO : MathOps R) fc q sr (b : biquad R) c amp phi,
  exact_powi MO -> 0 < fc -> 0 < q -> 0 < sr -> bq_coeffs b = notch fc q sr ->
  settles_to b (sinusoid amp (centre fc sr) phi) (constant 0) /\
  settles_to b (constant c) (constant c) /\ settles_to b (alternating c) (alternating c).
Proof.
  intros MO fc q sr b c amp phi Hp H1 H2 H3 Hb.
  pose proof (jury_notch MO Hp fc q sr H1 H2 H3) as J. rewrite <- Hb in J.
  pose proof (s_pos fc q sr H1 H2 H3) as Ps. pose proof (G_pos fc sr H1 H3) as PG.
  rewrite (notch_form MO Hp fc q sr H1 H2 H3) in Hb.
  split; [|split].
  - destruct (trig_centre fc sr H1 H3) as [Cw Sw].
    pose proof (settle_centre fc sr b amp phi 0 0 J) as S. cbv zeta in S.
    intros eps He. destruct S with (eps := eps) as [N HN]; auto.
    + intros Sn Cn. rewrite Hb. cbn [b0 b1 b2 a1 a2]. rewrite Cw. set (s := design_k fc sr / q) in *. set (G := design_k fc sr * design_k fc sr) in *. field. lra.
    + exists N. intros n Hn. specialize (HN n Hn). unfold R_dist in *.
      replace (response b (sinusoid amp (centre fc sr) phi) n - constant 0 n)
        with (response b (sinusoid amp (centre fc sr) phi) n
          - (0 * sinusoid amp (centre fc sr) phi n + 0 * sinusoid amp (centre fc sr) (phi + PI / 2) n));
        [exact HN|unfold constant; ring].
  - apply settle_dc1; [exact J|]. rewrite Hb. cbn [b0 b1 b2 a1 a2]. set (s := design_k fc sr / q) in *. set (G := design_k fc sr * design_k fc sr) in *. field. lra.
  - apply settle_alt1; [exact J|]. rewrite Hb. cbn [b0 b1 b2 a1 a2]. set (s := design_k fc sr / q) in *. set (G := design_k fc sr * design_k fc sr) in *. field. lra.
Qed.
Print Assumptions C33_notch.

Example C33_example :
  settles_to (bq_new (notch (MO := powi_math) 1000 1 48000)) (sinusoid 1 (centre 1000 48000) 0) (constant 0).
Proof.
  refine (proj1 (C33_notch powi_math 1000 1 48000 (bq_new (notch (MO := powi_math) 1000 1 48000)) 0 1 0 powi_math_exact _ _ _ eq_refl)); lra.
Qed.

(** C34 *)
Theorem C34_bell_gain : forall (MO : MathOps R) fc q sr g (b : biquad R) c amp phi,
  exact_powi MO -> 0 < fc -> 0 < q -> 0 < sr -> 0 <= g -> bq_coeffs b = bell fc q g sr ->
  settles_to b (constant c) (constant c) /\ settles_to b (alternating c) (alternating c) /\
  settles_to b (sinusoid amp (centre fc sr) phi) (sinusoid (g * amp) (centre fc sr) phi).
Proof.
  intros MO fc q sr g b c amp phi Hp H1 H2 H3 Hg Hb.
  pose proof (jury_bell MO Hp fc q sr H1 H2 H3 g) as J. rewrite <- Hb in J.
  pose proof (s_pos fc q sr H1 H2 H3) as Ps. pose proof (G_pos fc sr H1 H3) as PG.
  rewrite bell_pos, (bell_boost_form MO Hp fc q sr H1 H2 H3) in Hb by exact Hg.
  split; [|split].
  - apply settle_dc1; [exact J|]. rewrite Hb. cbn [b0 b1 b2 a1 a2]. set (s := design_k fc sr / q) in *. set (G := design_k fc sr * design_k fc sr) in *. field. lra.
  - apply settle_alt1; [exact J|]. rewrite Hb. cbn [b0 b1 b2 a1 a2]. set (s := design_k fc sr / q) in *. set (G := design_k fc sr * design_k fc sr) in *. field. lra.
  - destruct (trig_centre fc sr H1 H3) as [Cw Sw].
    pose proof (settle_centre fc sr b amp phi g 0 J) as S. cbv zeta in S.
    intros eps He. destruct S with (eps := eps) as [N HN]; auto.
    + intros Sn Cn. rewrite Hb. cbn [b0 b1 b2 a1 a2]. rewrite Cw. set (s := design_k fc sr / q) in *. set (G := design_k fc sr * design_k fc sr) in *. field. lra.
    + exists N. intros n Hn. specialize (HN n Hn). unfold R_dist in *.
      replace (response b (sinusoid amp (centre fc sr) phi) n - sinusoid (g * amp) (centre fc sr) phi n)
        with (response b (sinusoid amp (centre fc sr) phi) n
          - (g * sinusoid amp (centre fc sr) phi n + 0 * sinusoid amp (centre fc sr) (phi + PI / 2) n));
        [exact HN|unfold sinusoid; ring].
Qed.
Print Assumptions C34_bell_gain.

Theorem C34_bell_inverse : forall (MO : MathOps R) fc q sr g x n,
  exact_powi MO -> 0 < fc -> 0 < q -> 0 < sr -> 0 < g ->
  response (bq_new (bell fc q (- g) sr)) (response (bq_new (bell fc q g sr)) x) n = x n /\
  response (bq_new (bell fc q g sr)) (response (bq_new (bell fc q (- g) sr)) x) n = x n.
Proof.
  intros MO fc q sr g x n Hp H1 H2 H3 Hg.
  pose proof (s_pos fc q sr H1 H2 H3) as Ps. pose proof (G_pos fc sr H1 H3) as PG.
  rewrite bell_neg, (bell_pos MO fc q sr), (bell_boost_form MO Hp fc q sr H1 H2 H3), (bell_cut_form MO Hp fc q sr H1 H2 H3) by lra.
  set (s := design_k fc sr / q) in *. set (G := design_k fc sr * design_k fc sr) in *. clearbody s G.
  assert (0 < g * s) by nra.
  assert (D : forall u v, 0 < u -> 0 < v -> u / v <> 0).
  { intros u v Hu Hv. pose proof (Rdiv_lt_0_compat u v Hu Hv). lra. }
  split; apply inverse_cascade; cbn [b0 b1 b2 a1 a2]; try (apply D; lra); field; lra.
Qed.
Print Assumptions C34_bell_inverse.

Example C34_example : forall x n,
  response (bq_new (bell (MO := powi_math) 1000 1 (-2) 48000)) (response (bq_new (bell (MO := powi_math) 1000 1 2 48000)) x) n = x n.
Proof. intros. refine (proj1 (C34_bell_inverse powi_math 1000 1 48000 2 x n powi_math_exact _ _ _ _)); lra. Qed.

(** C35 *)
Theorem C35_low_shelf_gain : forall (MO : MathOps R) fc q sr g (b : biquad R) c,
  exact_powi MO -> exact_sqrt MO -> 0 < fc -> 0 < q -> 0 < sr -> 0 <= g -> bq_coeffs b = low_shelf fc q g sr ->
  settles_to b (constant c) (constant (g * c)) /\ settles_to b (alternating c) (alternating c).
Proof.
  intros MO fc q sr g b c Hp Hs H1 H2 H3 Hg Hb.
  pose proof (jury_low_shelf MO Hp Hs fc q sr H1 H2 H3 g) as J. rewrite <- Hb in J.
  pose proof (s_pos fc q sr H1 H2 H3) as Ps. pose proof (G_pos fc sr H1 H3) as PG.
  rewrite low_shelf_pos, (low_shelf_boost_form MO Hp Hs fc q sr H1 H2 H3) in Hb by exact Hg.
  split.
  - apply (settle_dc b c g J). rewrite Hb. cbn [b0 b1 b2 a1 a2]. set (s := design_k fc sr / q) in *. set (G := design_k fc sr * design_k fc sr) in *. field. lra.
  - apply settle_alt1; [exact J|]. rewrite Hb. cbn [b0 b1 b2 a1 a2]. set (s := design_k fc sr / q) in *. set (G := design_k fc sr * design_k fc sr) in *. field. lra.
Qed.
Print Assumptions C35_low_shelf_gain.

Theorem C35_low_shelf_inverse : forall (MO : MathOps R) fc q sr g x n,
  exact_powi MO -> exact_sqrt MO -> 0 < fc -> 0 < q -> 0 < sr -> 0 < g ->
  response (bq_new (low_shelf fc q (- g) sr)) (response (bq_new (low_shelf fc q g sr)) x) n = x n /\
  response (bq_new (low_shelf fc q g sr)) (response (bq_new (low_shelf fc q (- g) sr)) x) n = x n.
Proof.
  intros MO fc q sr g x n Hp Hs H1 H2 H3 Hg.
  pose proof (s_pos fc q sr H1 H2 H3) as Ps. pose proof (G_pos fc sr H1 H3) as PG.
  rewrite low_shelf_neg, (low_shelf_pos MO fc q sr), (low_shelf_boost_form MO Hp Hs fc q sr H1 H2 H3),
    (low_shelf_cut_form MO Hp Hs fc q sr H1 H2 H3) by lra.
  set (s := design_k fc sr / q) in *. set (G := design_k fc sr * design_k fc sr) in *. clearbody s G.
  assert (0 < g * G) by nra. pose proof (sqrt_pos (2 * (g * G))) as Hr.
  set (r := sqrt (2 * (g * G))) in *. clearbody r.
  assert (D : forall u v, 0 < u -> 0 < v -> u / v <> 0).
  { intros u v Hu Hv. pose proof (Rdiv_lt_0_compat u v Hu Hv). lra. }
  split; apply inverse_cascade; cbn [b0 b1 b2 a1 a2]; try (apply D; lra); field; lra.
Qed.
Print Assumptions C35_low_shelf_inverse.

Example C35_example : settles_to (bq_new (low_shelf (MO := powi_math) 1000 1 2 48000)) (constant 5) (constant (2 * 5)).
Proof.
  refine (proj1 (C35_low_shelf_gain powi_math 1000 1 48000 2 (bq_new (low_shelf (MO := powi_math) 1000 1 2 48000)) 5 powi_math_exact powi_math_sqrt _ _ _ _ eq_refl)); lra.
Qed.

(** C79: at its centre the low-pass scales by q and delays by a quarter period, the
    high-pass scales by q and advances by a quarter period. *)
Theorem C79_cutoff_gain : forall (MO : MathOps R) fc q sr (b : biquad R) amp phi,
  exact_powi MO -> 0 < fc -> 0 < q -> 0 < sr ->
  (bq_coeffs b = lowpass fc q sr ->
     settles_to b (sinusoid amp (centre fc sr) phi) (sinusoid (q * amp) (centre fc sr) (phi - PI / 2))) /\
  (bq_coeffs b = highpass fc q sr ->
     settles_to b (sinusoid amp (centre fc sr) phi) (sinusoid (q * amp) (centre fc sr) (phi + PI / 2))).
Proof.
  intros MO fc q sr b amp phi Hp H1 H2 H3.
  pose proof (s_pos fc q sr H1 H2 H3) as Ps. pose proof (G_pos fc sr H1 H3) as PG.
  destruct (trig_centre fc sr H1 H3) as [Cw Sw].
  pose proof (design_k_pos fc sr H1 H3) as Pk.
  split; intros Hb.
  - pose proof (jury_lowpass MO Hp fc q sr H1 H2 H3) as J. rewrite <- Hb in J.
    rewrite (lowpass_form MO Hp fc q sr H1 H2 H3) in Hb.
    pose proof (settle_centre fc sr b amp phi 0 (- q) J) as S. cbv zeta in S.
    intros eps He. destruct S with (eps := eps) as [N HN]; auto.
    + intros Sn Cn. rewrite Hb. cbn [b0 b1 b2 a1 a2]. rewrite Cw, Sw.
      set (k := design_k fc sr) in *. field. nra.
    + exists N. intros n Hn. specialize (HN n Hn). unfold R_dist in *.
      replace (response b (sinusoid amp (centre fc sr) phi) n - sinusoid (q * amp) (centre fc sr) (phi - PI / 2) n)
        with (response b (sinusoid amp (centre fc sr) phi) n
          - (0 * sinusoid amp (centre fc sr) phi n + - q * sinusoid amp (centre fc sr) (phi + PI / 2) n));
        [exact HN|].
      unfold sinusoid. set (th := centre fc sr * INR n).
      replace (th + (phi - PI / 2)) with (th + phi - PI / 2) by ring.
      replace (th + (phi + PI / 2)) with (th + phi + PI / 2) by ring.
      rewrite (sin_minus (th + phi)), (sin_plus (th + phi)), cos_PI2, sin_PI2. ring.
  - pose proof (jury_highpass MO Hp fc q sr H1 H2 H3) as J. rewrite <- Hb in J.
    rewrite (highpass_form MO Hp fc q sr H1 H2 H3) in Hb.
    pose proof (settle_centre fc sr b amp phi 0 q J) as S. cbv zeta in S.
    intros eps He. destruct S with (eps := eps) as [N HN]; auto.
    + intros Sn Cn. rewrite Hb. cbn [b0 b1 b2 a1 a2]. rewrite Cw, Sw.
      set (k := design_k fc sr) in *. field. nra.
    + exists N. intros n Hn. specialize (HN n Hn). unfold R_dist in *.
      replace (response b (sinusoid amp (centre fc sr) phi) n - sinusoid (q * amp) (centre fc sr) (phi + PI / 2) n)
        with (response b (sinusoid amp (centre fc sr) phi) n
          - (0 * sinusoid amp (centre fc sr) phi n + q * sinusoid amp (centre fc sr) (phi + PI / 2) n));
        [exact HN|unfold sinusoid; ring].
Qed.
Print Assumptions C79_cutoff_gain.

Example C79_example : settles_to (bq_new (lowpass (MO := powi_math) 1000 2 48000))
  (sinusoid 1 (centre 1000 48000) 0) (sinusoid (2 * 1) (centre 1000 48000) (0 - PI / 2)).
Proof.
  refine (proj1 (C79_cutoff_gain powi_math 1000 2 48000 (bq_new (lowpass (MO := powi_math) 1000 2 48000)) 1 0 powi_math_exact _ _ _) eq_refl); lra.
Qed.
