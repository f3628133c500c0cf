(** * Theorems: the filter designs computed in f32 (C96). *)

From Coq Require Import ZArith List Bool Reals Lia Lra Psatz Classical.
From Flocq Require Import Core.
From Verif Require Import Base F32 F32Lemmas F32Exact F32Range Num M_FloatMath M_Biquad S_Biquad S_BiquadF32 S_DesignF32 P_DelayNum P_Biquad P_DesignF32 T_Biquad.
Local Open Scope R_scope.

(** The designs with the common factor named. *)
Section Shapes.
Context {NP : NanPolicy} {MO : MathOps f32}.
Variables fc q sr : f32.
Let s := snd (setup_coeffs fc q sr).
Let k2 := fst (setup_coeffs fc q sr).
Let a1' := fmul (nrm s k2) (fmul (of_int 2) (fsub k2 (of_int 1))).
Let a2' := fmul (nrm s k2) (fadd (fsub (of_int 1) s) k2).
Ltac shape := rewrite (surjective_pairing (setup_coeffs fc q sr)); unfold a1', a2', nrm, a0_; fold s k2; reflexivity.
Lemma lowpass_shape : lowpass fc q sr = BC (fmul (nrm s k2) k2) (fmul (fmul (nrm s k2) (of_int 2)) k2) (fmul (nrm s k2) k2)
  (fmul (fmul (nrm s k2) (of_int 2)) (fsub k2 (of_int 1))) a2'.
Proof. unfold lowpass. shape. Qed.
Lemma highpass_shape : highpass fc q sr = BC (nrm s k2) (fmul (nrm s k2) (fneg (of_int 2))) (nrm s k2) a1' a2'.
Proof. unfold highpass. shape. Qed.
Lemma allpass_shape : allpass fc q sr = BC a2' a1' (of_int 1) a1' a2'.
Proof. unfold allpass. shape. Qed.
Lemma notch_shape : notch fc q sr = BC (fmul (nrm s k2) (fadd (of_int 1) k2)) a1' (fmul (nrm s k2) (fadd (of_int 1) k2)) a1' a2'.
Proof. unfold notch. shape. Qed.
Lemma bell_boost_shape g : a1 (bell_boost_only fc q g sr) = a1' /\ a2 (bell_boost_only fc q g sr) = a2'.
Proof. unfold bell_boost_only. split; shape. Qed.
Lemma shelf_boost_shape g : a1 (low_shelf_boost_only fc q g sr) = a1' /\ a2 (low_shelf_boost_only fc q g sr) = a2'.
Proof. unfold low_shelf_boost_only. split; shape. Qed.
Lemma bell_cut_shape g : let s' := fmul (fneg g) s in
  a1 (bell_cut_only fc q g sr) = fmul (nrm s' k2) (fmul (of_int 2) (fsub k2 (of_int 1))) /\ a2 (bell_cut_only fc q g sr) = fmul (nrm s' k2) (fadd (fsub (of_int 1) s') k2).
Proof. cbv zeta. unfold bell_cut_only. split; shape. Qed.
Lemma shelf_cut_shape g : let s' := m_sqrt (fmul (fmul (fneg g) (of_int 2)) k2) in let k' := fmul (fneg g) k2 in
  a1 (low_shelf_cut_only fc q g sr) = fmul (nrm s' k') (fmul (of_int 2) (fsub k' (of_int 1))) /\ a2 (low_shelf_cut_only fc q g sr) = fmul (nrm s' k') (fadd (fsub (of_int 1) s') k').
Proof. cbv zeta. unfold low_shelf_cut_only. split; shape. Qed.
End Shapes.

(** C30: with gain -0.0 [bell] and [low_shelf] are the cut designs at gain 0; the bell's a2,
    the product of its poles, is 1 up to rounding. *)
Theorem C30_minus_zero_cut_refuted : forall (NP : NanPolicy) (MO : MathOps f32) (fc q sr : f32),
  let s := snd (setup_coeffs fc q sr) in let k2 := fst (setup_coeffs fc q sr) in
  bell fc q (fneg f_zero) sr = bell_cut_only fc q (fneg f_zero) sr /\
  low_shelf fc q (fneg f_zero) sr = low_shelf_cut_only fc q (fneg f_zero) sr /\
  (fin s = true -> fin k2 = true -> 0 <= val k2 <= 4194303 ->
   fin (a2 (bell fc q (fneg f_zero) sr)) = true /\ Rabs (val (a2 (bell fc q (fneg f_zero) sr)) - 1) <= pow2 (-22)).
Proof.
  intros NP MO fc q sr s k2. split; [reflexivity|]. split; [reflexivity|]. intros Fs Fk Hk.
  change (bell fc q (fneg f_zero) sr) with (bell_cut_only fc q (fneg f_zero) sr).
  rewrite (proj2 (bell_cut_shape fc q sr (fneg f_zero))). fold s k2. change (fneg (fneg f_zero)) with f_zero.
  assert (Z : fin (fmul f_zero s) = true /\ val (fmul f_zero s) = 0).
  { destruct (fmul_spec f_zero s eq_refl Fs) as [F V]; change (val f_zero) with 0 in *; rewrite Rmult_0_l, rnd_0 in *; [rewrite Rabs_R0; apply big_pos|auto]. }
  generalize dependent (fmul f_zero s). intros z [Fz Vz]. destruct one_spec as [F1 V1]. unfold nrm, a0_.
  assert (A1 : fin (fadd (of_int 1) z) = true /\ val (fadd (of_int 1) z) = 1).
  { destruct (fadd_spec (of_int 1) z F1 Fz) as [F V]; rewrite V1, Vz, Rplus_0_r, rnd_repr in * by (apply (repr_int 1); lia); [|auto]. apply (int_lt_big 1). lia. }
  assert (A2 : fin (fsub (of_int 1) z) = true /\ val (fsub (of_int 1) z) = 1).
  { destruct (fsub_spec (of_int 1) z F1 Fz) as [F V]; rewrite V1, Vz, Rminus_0_r, rnd_repr in * by (apply (repr_int 1); lia); [|auto]. apply (int_lt_big 1). lia. }
  set (p := fadd (of_int 1) z) in *. set (m := fsub (of_int 1) z) in *. destruct A1 as [Fp Vp]. destruct A2 as [Fm Vm]. clearbody p m.
  assert (S : Rabs (1 + val k2) <= pow2 100) by (apply small100; rewrite Rabs_pos_eq; lra).
  destruct (rnd_u _ S) as [R1 R2].
  destruct (fadd_spec p k2 Fp Fk) as [Fd Vd]; [rewrite Vp; exact R2|]. destruct (fadd_spec m k2 Fm Fk) as [Fe Ve]; [rewrite Vm; exact R2|].
  rewrite Vp in Vd. rewrite Vm in Ve. set (d := fadd p k2) in *. set (e := fadd m k2) in *. clearbody d e.
  rewrite (Rabs_pos_eq (1 + val k2)) in R1 by lra. pose proof t_range as T. set (D := rnd (1 + val k2)) in *. clearbody D.
  apply Rabs_le_inv in R1.
  assert (HD : 1 / 2 <= D <= 8388608) by (unfold u in *; lra).
  assert (I : 0 < / D <= 2). { split; [apply Rinv_0_lt_compat; lra|]. replace 2 with (/ (1 / 2)) by lra. apply Rinv_le; lra. }
  assert (E0 : val (of_int 1) / val d = / D) by (rewrite V1, Vd; lra).
  destruct (div_u (of_int 1) d F1) as [Fn En]; [rewrite Vd; lra|rewrite E0; apply small100; rewrite Rabs_pos_eq; lra|].
  rewrite E0, (Rabs_pos_eq (/ D)) in En by lra. set (n := fdiv (of_int 1) d) in *. clearbody n. apply Rabs_le_inv in En.
  assert (P : Rabs (val n * D - 1) <= u + t * D).
  { replace (val n * D - 1) with ((val n - / D) * D) by (field; lra). apply Rabs_le.
    assert (/ D * D = 1) by (field; lra). split.
    - apply Rle_trans with (- (u * / D + t) * D); [nra|apply Rmult_le_compat_r; lra].
    - apply Rle_trans with ((u * / D + t) * D); [apply Rmult_le_compat_r; lra|nra]. }
  assert (TD : t * D <= u / 65536) by (apply Rle_trans with (u / 1099511627776 * 8388608); [apply Rmult_le_compat; lra|unfold u; lra]).
  assert (PD : Rabs (val n * val e) <= 2) by (rewrite Ve; apply Rabs_le_inv in P; apply Rabs_le; unfold u in *; lra).
  destruct (mul_u n e Fn Fe) as [Fr Er]; [apply small100; lra|]. split; [exact Fr|].
  rewrite Ve in *. apply Rabs_le_inv in P. apply Rabs_le_inv in Er. replace (pow2 (-22)) with (4 * u) by (unfold u; cbn; lra).
  apply Rabs_le. pose proof (Rabs_pos (val n * D)). unfold u in *. lra.
Qed.
Print Assumptions C30_minus_zero_cut_refuted.

(** C96: with k/q and k^2 taken as they come out of the tangent, every coefficient of the four
    basic designs is finite and within 2^-20 of the textbook value. *)
Theorem C96_rounded_coefficients : forall (NP : NanPolicy) (MO : MathOps f32) (fc q sr : f32),
  let s := snd (setup_coeffs fc q sr) in let k2 := fst (setup_coeffs fc q sr) in
  fin s = true -> fin k2 = true -> 0 <= val s -> 0 <= val k2 -> 1 + val s + val k2 <= 4194304 ->
  coeffs_within (pow2 (-20)) (lowpass fc q sr) (textbook_lowpass (val s) (val k2)) /\
  coeffs_within (pow2 (-20)) (highpass fc q sr) (textbook_highpass (val s) (val k2)) /\
  coeffs_within (pow2 (-20)) (allpass fc q sr) (textbook_allpass (val s) (val k2)) /\
  coeffs_within (pow2 (-20)) (notch fc q sr) (textbook_notch (val s) (val k2)).
Proof.
  intros NP MO fc q sr s k2 Fs Fk Ps Pk HD.
  assert (E : pow2 (-20) = 16 * u) by (unfold u; cbn; lra). rewrite E. clear E.
  pose proof t_range as T.
  destruct (a1_ok s k2 Fs Fk Ps Pk HD) as [[Fa1 Ea1] [Fa1' Ea1']]. destruct (a2_ok s k2 Fs Fk Ps Pk HD) as [Fa2 Ea2].
  destruct (bk_ok s k2 Fs Fk Ps Pk HD) as [[Fb Eb] [Fb' Eb']]. destruct (b1_ok s k2 Fs Fk Ps Pk HD) as [Fn En].
  destruct (bm2_ok s k2 Fs Fk Ps Pk HD) as [Fm Em]. destruct (bn_ok s k2 Fs Fk Ps Pk HD) as [Fo Eo].
  pose proof (kD s k2 Ps Pk) as Q.
  set (d := 1 + val s + val k2) in *.
  assert (Z : Rabs (val (of_int 1) - 1) <= 16 * u) by (rewrite (proj2 one_spec), Rminus_eq_0, Rabs_R0; unfold u; lra).
  rewrite lowpass_shape, highpass_shape, allpass_shape, notch_shape. fold s k2.
  unfold coeffs_within, finite_coeffs, textbook_lowpass, textbook_highpass, textbook_allpass, textbook_notch. cbn [b0 b1 b2 a1 a2]. fold d.
  pose proof (proj1 one_spec) as F1.
  assert (Eb2 : Rabs (val (fmul (nrm s k2) k2) - val k2 / d) <= 16 * u) by (unfold u in *; lra).
  assert (Eb2' : Rabs (val (fmul (fmul (nrm s k2) (of_int 2)) k2) - 2 * val k2 / d) <= 16 * u) by (unfold u in *; lra).
  clear Eb Eb' Q.
  repeat match goal with |- _ /\ _ => split end; try assumption; unfold u in *; lra.
Qed.
Print Assumptions C96_rounded_coefficients.

Lemma stable_of_den {NP : NanPolicy} s k2 c : moderate s k2 ->
  (a1 c = fmul (nrm s k2) (fmul (of_int 2) (fsub k2 (of_int 1))) \/ a1 c = fmul (fmul (nrm s k2) (of_int 2)) (fsub k2 (of_int 1))) ->
  a2 c = fmul (nrm s k2) (fadd (fsub (of_int 1) s) k2) ->
  fin (a1 c) = true /\ fin (a2 c) = true /\ jury (exact_coeffs c).
Proof.
  intros (Fs & Fk & HD & Hs & Hk) E1 E2.
  assert (Pd : 1 <= 1 + val s + val k2).
  { destruct (Rle_or_lt 1 (1 + val s + val k2)) as [L|L]; [exact L|exfalso]. lra. }
  assert (Ps : 0 <= val s) by lra. assert (Pk : 0 <= val k2) by lra.
  assert (HD' : 1 + val s + val k2 <= 4194304) by lra.
  destruct (a1_ok s k2 Fs Fk Ps Pk HD') as [[Fa1 Ea1] [Fa1' Ea1']]. destruct (a2_ok s k2 Fs Fk Ps Pk HD') as [Fa2 Ea2].
  unfold jury. cbn [exact_coeffs a1 a2]. rewrite E2. split; [destruct E1 as [-> | ->]; assumption|]. split; [assumption|].
  apply (rounded_jury s k2 Ps Pk); try assumption. destruct E1 as [-> | ->]; assumption.
Qed.

(** C96: unless the denominator is badly scaled, the rounded designs are stable too: all of them,
    with the terms of the respective denominator. *)
Theorem C96_rounded_designs_stable : forall (NP : NanPolicy) (MO : MathOps f32) (fc q sr gain : f32),
  let s := snd (setup_coeffs fc q sr) in let k2 := fst (setup_coeffs fc q sr) in
  let stable c := fin (a1 c) = true /\ fin (a2 c) = true /\ well_behaved (exact_coeffs c) in
  (moderate s k2 -> stable (lowpass fc q sr) /\ stable (highpass fc q sr) /\ stable (allpass fc q sr) /\ stable (notch fc q sr) /\
     (is_sign_positive gain = true -> stable (bell fc q gain sr) /\ stable (low_shelf fc q gain sr))) /\
  (is_sign_positive gain = false ->
     (moderate (fmul (fneg gain) s) k2 -> stable (bell fc q gain sr)) /\
     (moderate (m_sqrt (fmul (fmul (fneg gain) (of_int 2)) k2)) (fmul (fneg gain) k2) -> stable (low_shelf fc q gain sr))).
Proof.
  intros NP MO fc q sr gain s k2 stable.
  assert (J : forall s' k' c, moderate s' k' ->
    (a1 c = fmul (nrm s' k') (fmul (of_int 2) (fsub k' (of_int 1))) \/ a1 c = fmul (fmul (nrm s' k') (of_int 2)) (fsub k' (of_int 1))) ->
    a2 c = fmul (nrm s' k') (fadd (fsub (of_int 1) s') k') -> stable c).
  { intros s' k' c M E1 E2. destruct (stable_of_den s' k' c M E1 E2) as (A & B & C). split; [exact A|]. split; [exact B|].
    repeat split; [now apply jury_poles|now apply jury_bibo|now apply jury_decays]. }
  split.
  - intros M. split; [|split; [|split; [|split]]].
    + rewrite lowpass_shape. apply (J s k2 _ M); [right|]; reflexivity.
    + rewrite highpass_shape. apply (J s k2 _ M); [left|]; reflexivity.
    + rewrite allpass_shape. apply (J s k2 _ M); [left|]; reflexivity.
    + rewrite notch_shape. apply (J s k2 _ M); [left|]; reflexivity.
    + intros E. unfold bell, low_shelf. cbn [npos num_f32]. rewrite E. split.
      * destruct (bell_boost_shape fc q sr gain) as [A1 A2]. exact (J s k2 _ M (or_introl A1) A2).
      * destruct (shelf_boost_shape fc q sr gain) as [A1 A2]. exact (J s k2 _ M (or_introl A1) A2).
  - intros E. unfold bell, low_shelf. cbn [npos num_f32]. rewrite E. split; intros M.
    + destruct (bell_cut_shape fc q sr gain) as [A1 A2]. exact (J _ _ _ M (or_introl A1) A2).
    + destruct (shelf_cut_shape fc q sr gain) as [A1 A2]. exact (J _ _ _ M (or_introl A1) A2).
Qed.
Print Assumptions C96_rounded_designs_stable.

Lemma dc_of_jury c : jury c -> dc_gain c ((b0 c + b1 c + b2 c) / (1 + a1 c + a2 c)).
Proof.
  intros J b x Hb. apply settle; [rewrite Hb; exact J|]. intros n. rewrite Hb. unfold constant. destruct J as [J1 J2]. field. lra.
Qed.

Lemma dc_arith sv kv p r b b' : 0 <= sv -> 1 + sv + kv <= 2097152 -> (1 + sv + kv) / 2097152 <= kv -> 1 <= 1 + sv + kv ->
  Rabs (p - 2 * (kv - 1) / (1 + sv + kv)) <= 102 / 10 * u -> Rabs (r - (1 - sv + kv) / (1 + sv + kv)) <= 61 / 10 * u ->
  Rabs (b - kv / (1 + sv + kv)) <= 401 / 100 * u * (kv / (1 + sv + kv)) + t ->
  Rabs (b' - 2 * kv / (1 + sv + kv)) <= 401 / 100 * u * (2 * (kv / (1 + sv + kv))) + t ->
  0 <= kv / (1 + sv + kv) <= 1 ->
  Rabs ((b + b' + b) / (1 + p + r) - 1) <= 10 * u * (1 + sv + kv) / kv.
Proof.
  intros Ps HD Hk Pd Ea1 Ea2 Eb Eb' Q. pose proof t_range as T.
  set (d := 1 + sv + kv) in *. set (y := kv / d) in *.
  assert (Dk : d / kv = / y) by (unfold y; field; lra).
  replace (10 * u * d / kv) with (10 * u * / y) by (rewrite <- Dk; field; lra).
  assert (Y8 : 8 * u <= y).
  { unfold y. apply Rmult_le_reg_r with d; [lra|]. unfold Rdiv. rewrite (Rmult_assoc (kv)), Rinv_l by lra. unfold u. lra. }
  replace (2 * kv / d) with (2 * y) in Eb' by (unfold y; field; lra).
  assert (Ed : 1 + 2 * (kv - 1) / d + (1 - sv + kv) / d = 4 * y) by (unfold y, d; field; unfold d in *; lra).
  apply Rabs_le_inv in Ea1, Ea2, Eb, Eb'.
  assert (ED : 4 * y - 163 / 10 * u <= 1 + p + r <= 4 * y + 163 / 10 * u) by lra.
  assert (EN : 4 * y - 1605 / 100 * u * y - 3 * t <= b + b' + b <= 4 * y + 1605 / 100 * u * y + 3 * t) by (unfold u in *; lra).
  assert (TT : t <= u * y / 1000).
  { apply Rle_trans with (u * (8 * u) / 1000); [|unfold Rdiv; apply Rmult_le_compat_r; [lra|]; apply Rmult_le_compat_l; [unfold u|]; lra].
    unfold t. apply Rle_trans with (pow2 (-60)); [apply bpow_le; lia|]. unfold u. cbn. lra. }
  assert (EN' : 4 * y - 1606 / 100 * u * y <= b + b' + b <= 4 * y + 1606 / 100 * u * y) by lra.
  clearbody y d. clear Ed Ea1 Ea2 Eb Eb' EN TT T Dk.
  set (N := b + b' + b) in *. set (De := 1 + p + r) in *. clearbody N De.
  assert (PD : 15 * u < De) by (unfold u in *; lra). assert (Py : 0 < y) by (unfold u in *; lra).
  replace (N / De - 1) with ((N - De) / De) by (field; unfold u in *; lra).
  unfold Rdiv. rewrite Rabs_mult, (Rabs_pos_eq (/ De)) by (left; apply Rinv_0_lt_compat; unfold u in *; lra).
  apply Rmult_le_reg_r with (De * y); [apply Rmult_lt_0_compat; unfold u in *; lra|].
  replace (Rabs (N - De) * / De * (De * y)) with (Rabs (N - De) * y) by (field; unfold u in *; lra).
  replace (10 * u * / y * (De * y)) with (10 * u * De) by (field; lra).
  apply Rle_trans with ((163 / 10 * u + 1606 / 100 * u * y) * y).
  - apply Rmult_le_compat_r; [lra|]. apply Rabs_le. lra.
  - apply Rle_trans with (10 * u * (4 * y - 163 / 10 * u)); [|apply Rmult_le_compat_l; unfold u in *; lra].
    assert (P : 0 <= (y - 8 * u) * (1 - y)) by (apply Rmult_le_pos; lra).
    apply Rmult_le_reg_l with (/ u); [unfold u; lra|].
    replace (/ u * ((163 / 10 * u + 1606 / 100 * u * y) * y)) with ((163 / 10 + 1606 / 100 * y) * y) by (unfold u; field).
    replace (/ u * (10 * u * (4 * y - 163 / 10 * u))) with (10 * (4 * y - 163 / 10 * u)) by (unfold u; field).
    unfold u in *. nra.
Qed.

Lemma exact_lowpass {NP : NanPolicy} {MO : MathOps f32} fc q sr : let s := snd (setup_coeffs fc q sr) in let k2 := fst (setup_coeffs fc q sr) in
  exact_coeffs (lowpass fc q sr) = BC (val (fmul (nrm s k2) k2)) (val (fmul (fmul (nrm s k2) (of_int 2)) k2)) (val (fmul (nrm s k2) k2))
     (val (fmul (fmul (nrm s k2) (of_int 2)) (fsub k2 (of_int 1)))) (val (fmul (nrm s k2) (fadd (fsub (of_int 1) s) k2))).
Proof. cbv zeta. rewrite lowpass_shape. reflexivity. Qed.

(** C96: the low-pass lets a constant through with a gain whose error is at most
    10 * 2^-24 / (k^2 / (1 + k/q + k^2)): small unless the cut-off is low. *)
Theorem C96_lowpass_dc_gain : forall (NP : NanPolicy) (MO : MathOps f32) (fc q sr : f32),
  let s := snd (setup_coeffs fc q sr) in let k2 := fst (setup_coeffs fc q sr) in
  moderate s k2 ->
  exists g, dc_gain (exact_coeffs (lowpass fc q sr)) g /\ Rabs (g - 1) <= 10 * pow2 (-24) * (1 + val s + val k2) / val k2.
Proof.
  intros NP MO fc q sr s k2 M.
  assert (J : jury (exact_coeffs (lowpass fc q sr))).
  { destruct (stable_of_den s k2 (lowpass fc q sr) M) as (_ & _ & J); [right| |exact J]; rewrite lowpass_shape; reflexivity. }
  pose proof (exact_lowpass fc q sr) as E. cbv zeta in E. fold s k2 in E. set (c := exact_coeffs (lowpass fc q sr)) in *. clearbody c s k2.
  destruct M as (Fs & Fk & HD & Hs & Hk).
  assert (Pd : 1 <= 1 + val s + val k2).
  { destruct (Rle_or_lt 1 (1 + val s + val k2)) as [L|L]; [exact L|exfalso]. lra. }
  assert (Ps : 0 <= val s) by lra. assert (Pk : 0 <= val k2) by lra. assert (HD' : 1 + val s + val k2 <= 4194304) by lra.
  pose proof (proj2 (proj2 (a1_ok s k2 Fs Fk Ps Pk HD'))) as Ea1. pose proof (proj2 (a2_ok s k2 Fs Fk Ps Pk HD')) as Ea2.
  pose proof (proj2 (proj1 (bk_ok s k2 Fs Fk Ps Pk HD'))) as Eb. pose proof (proj2 (proj2 (bk_ok s k2 Fs Fk Ps Pk HD'))) as Eb'. pose proof (kD s k2 Ps Pk) as Q.
  pose proof (dc_arith _ _ _ _ _ _ Ps HD Hk Pd Ea1 Ea2 Eb Eb' Q) as R. rewrite <- u_eq in R.
  exists ((b0 c + b1 c + b2 c) / (1 + a1 c + a2 c)). split; [apply dc_of_jury; exact J|]. rewrite E. exact R.
Qed.
Print Assumptions C96_lowpass_dc_gain.

Lemma low_arith sv kv p r b b' : 0 <= sv <= 1 / 4 -> 0 < kv <= u / 8 -> repr p -> repr r -> 0 <= b -> 0 <= b' ->
  Rabs (p - 2 * (kv - 1) / (1 + sv + kv)) <= 102 / 10 * u -> Rabs (r - (1 - sv + kv) / (1 + sv + kv)) <= 61 / 10 * u ->
  Rabs (b - kv / (1 + sv + kv)) <= 401 / 100 * u * (kv / (1 + sv + kv)) + t ->
  Rabs (b' - 2 * kv / (1 + sv + kv)) <= 401 / 100 * u * (2 * (kv / (1 + sv + kv))) + t ->
  0 < 1 + p + r -> p <= -1 /\ 1 / 2 <= r /\ 0 <= (b + b' + b) / (1 + p + r) <= 51 / 100.
Proof.
  intros Ps Pk Rp Rr Pb Pb' Ea1 Ea2 Eb Eb' N1. pose proof t_range as T.
  set (d := 1 + sv + kv) in *.
  assert (Bd : 1 <= d <= 126 / 100) by (unfold d, u in *; lra).
  assert (Id : 79 / 100 <= / d <= 1).
  { split; [apply Rle_trans with (/ (126 / 100)); [lra|apply Rinv_le_contravar; lra]|rewrite <- Rinv_1; apply Rinv_le_contravar; lra]. }
  assert (Ya : 2 * (kv - 1) / d <= - 1 - 1 / 4) by (unfold Rdiv, u in *; nra).
  assert (Yb : 55 / 100 <= (1 - sv + kv) / d) by (unfold Rdiv, u in *; nra).
  assert (Yk : 0 <= kv / d <= u / 8).
  { split; [unfold Rdiv; apply Rmult_le_pos; lra|]. unfold Rdiv at 1. apply Rle_trans with (u / 8 * 1); [apply Rmult_le_compat|]; lra. }
  replace (2 * kv / d) with (2 * (kv / d)) in Eb' by (unfold Rdiv; ring).
  set (y := kv / d) in *. clearbody y.
  apply Rabs_le_inv in Ea1, Ea2, Eb, Eb'.
  assert (Bp : p <= -1) by (unfold u in *; lra). assert (Br : 1 / 2 <= r) by (unfold u in *; lra).
  split; [exact Bp|]. split; [exact Br|].
  destruct (repr_multiple p 0 Rp ltac:(lia)) as [n1 En1]; [rewrite Rabs_left by lra; cbn; lra|].
  destruct (repr_multiple r (-1) Rr ltac:(lia)) as [n2 En2]; [rewrite Rabs_pos_eq by lra; cbn; lra|].
  assert (G : u <= 1 + p + r).
  { change (0 - 23)%Z with (-23)%Z in En1. change (-1 - 23)%Z with (-24)%Z in En2. rewrite u_eq in En2.
    replace (pow2 (-23)) with (2 * u) in En1 by (unfold u; cbn; lra).
    assert (EZ : 1 + p + r = IZR (16777216 + 2 * n1 + n2) * u) by (rewrite En1, En2, !plus_IZR, mult_IZR; unfold u; lra).
    rewrite EZ in N1 |- *. assert (0 < 16777216 + 2 * n1 + n2)%Z by (apply lt_IZR; unfold u in N1; lra).
    assert (1 <= IZR (16777216 + 2 * n1 + n2)) by (apply IZR_le; lia). unfold u. lra. }
  assert (ID : 0 < / (1 + p + r)) by (apply Rinv_0_lt_compat; lra).
  split; [unfold Rdiv; apply Rmult_le_pos; lra|].
  apply Rmult_le_reg_r with (1 + p + r); [lra|]. unfold Rdiv. rewrite Rmult_assoc, Rinv_l by lra. unfold u in *. lra.
Qed.

Lemma mul_nonneg {NP : NanPolicy} a e : fin a = true -> fin e = true -> 0 <= val a <= 4 -> 0 <= val e <= 4 -> 0 <= val (fmul a e).
Proof.
  intros Fa Fe Ha He. assert (B : Rabs (val a * val e) <= pow2 100) by (apply small100; rewrite Rabs_pos_eq by nra; nra).
  destruct (rnd_u _ B) as [_ W]. destruct (fmul_spec a e Fa Fe W) as [_ ->]. rewrite <- (rnd_repr 0 repr_0). apply rnd_le. nra.
Qed.

Lemma low_case sv kv p r b b' : 0 <= sv <= 1 / 4 -> 0 < kv <= u / 8 -> repr p -> repr r -> 0 <= b -> 0 <= b' ->
  Rabs (p - 2 * (kv - 1) / (1 + sv + kv)) <= 102 / 10 * u -> Rabs (r - (1 - sv + kv) / (1 + sv + kv)) <= 61 / 10 * u ->
  Rabs (b - kv / (1 + sv + kv)) <= 401 / 100 * u * (kv / (1 + sv + kv)) + t ->
  Rabs (b' - 2 * kv / (1 + sv + kv)) <= 401 / 100 * u * (2 * (kv / (1 + sv + kv))) + t ->
  ~ poles_inside (BC b b' b p r) \/ exists g, dc_gain (BC b b' b p r) g /\ 0 <= g <= 51 / 100.
Proof.
  intros. destruct (classic (poles_inside (BC b b' b p r))) as [I|I]; [right|left; exact I].
  destruct (poles_needs _ I) as [N1 N2]. cbn [a1 a2] in N1, N2.
  destruct (low_arith sv kv p r b b') as (Bp & Br & Bg); try assumption.
  assert (J : jury (BC b b' b p r)) by (split; cbn [a1 a2]; lra).
  eexists. split; [apply dc_of_jury; exact J|]. exact Bg.
Qed.

(** C96: whenever the computed k^2 is at most 2^-27 (a cut-off of about 1.3 Hz at 48 kHz) and k/q
    at most 1/4, the low-pass computed in f32 is not one: it is not stable, or it about halves a
    constant input or attenuates it even more. *)
Theorem C96_low_cutoff_refuted : forall (NP : NanPolicy) (MO : MathOps f32) (fc q sr : f32),
  let s := snd (setup_coeffs fc q sr) in let k2 := fst (setup_coeffs fc q sr) in
  fin s = true -> fin k2 = true -> 0 <= val s <= 1 / 4 -> 0 < val k2 <= pow2 (-27) ->
  let c := exact_coeffs (lowpass fc q sr) in
  ~ poles_inside c \/ exists g, dc_gain c g /\ 0 <= g <= 51 / 100.
Proof.
  intros NP MO fc q sr s k2 Fs Fk Ps Pk c. unfold c. rewrite exact_lowpass. fold s k2. clear c. clearbody s k2.
  replace (pow2 (-27)) with (u / 8) in Pk by (unfold u; cbn; lra).
  assert (Ps' : 0 <= val s) by lra. assert (Pk' : 0 <= val k2) by lra.
  assert (HD' : 1 + val s + val k2 <= 4194304) by (unfold u in Pk; lra).
  destruct (nrm_ok s k2 Fs Fk Ps' Pk' HD') as (Fn & _ & Bn).
  destruct (dbl_exact (nrm s k2) Fn) as [_ [F2 V2]]; [rewrite Rabs_pos_eq; lra|].
  apply (low_case (val s) (val k2)); [exact Ps|exact Pk|apply repr_val|apply repr_val| | |
    exact (proj2 (proj2 (a1_ok s k2 Fs Fk Ps' Pk' HD')))|exact (proj2 (a2_ok s k2 Fs Fk Ps' Pk' HD'))|
    exact (proj2 (proj1 (bk_ok s k2 Fs Fk Ps' Pk' HD')))|exact (proj2 (proj2 (bk_ok s k2 Fs Fk Ps' Pk' HD')))].
  - apply mul_nonneg; [exact Fn|exact Fk| |]; unfold u in Pk; lra.
  - apply mul_nonneg; [exact F2|exact Fk| |]; unfold u in Pk; lra.
Qed.
Print Assumptions C96_low_cutoff_refuted.

(** Integer powers by repeated multiplication. *)
Definition mul_math {NP : NanPolicy} : MathOps f32 := {|
  m_floor := fun x => x; m_sqrt := fun x => x; m_exp := fun x => x; m_log10 := fun x => x;
  m_powf := fun x _ => x; m_powi := fun x n => Nat.iter (Z.to_nat n - 1) (fmul x) x |}.

Lemma between {x lo hi} : fin x = true -> fin lo = true -> fin hi = true -> fle lo x = true -> fle x hi = true -> val lo <= val x <= val hi.
Proof.
  intros Fx Fl Fh A B. rewrite fle_fin in A, B by assumption. split.
  - destruct (Rle_bool_spec (val lo) (val x)) as [L|L]; [exact L|discriminate].
  - destruct (Rle_bool_spec (val x) (val hi)) as [L|L]; [exact L|discriminate].
Qed.

(** 1 kHz at 48 kHz is well scaled, 1 Hz at 48 kHz is in the range of [C96_low_cutoff_refuted]. *)
Example C96_met (NP : NanPolicy) : let p := setup_coeffs (MO := mul_math) (of_int 1000) (of_int 1) (of_int 48000) in moderate (snd p) (fst p).
Proof.
  intros p.
  assert (F1 : fin (snd p) = true) by (vm_compute; reflexivity). assert (F2 : fin (fst p) = true) by (vm_compute; reflexivity).
  pose proof (between (lo := lit 1 (-4)) (hi := lit 1 (-3)) F1 ltac:(vm_compute; reflexivity) ltac:(vm_compute; reflexivity) ltac:(vm_compute; reflexivity) ltac:(vm_compute; reflexivity)) as B1.
  pose proof (between (lo := lit 1 (-8)) (hi := lit 1 (-7)) F2 ltac:(vm_compute; reflexivity) ltac:(vm_compute; reflexivity) ltac:(vm_compute; reflexivity) ltac:(vm_compute; reflexivity)) as B2.
  rewrite (proj2 (lit_exact 1 (-4) ltac:(lia) ltac:(lia))), (proj2 (lit_exact 1 (-3) ltac:(lia) ltac:(lia))) in B1.
  rewrite (proj2 (lit_exact 1 (-8) ltac:(lia) ltac:(lia))), (proj2 (lit_exact 1 (-7) ltac:(lia) ltac:(lia))) in B2.
  set (a := snd p) in *. set (b := fst p) in *. clearbody a b. clear p.
  replace (pow2 (-4)) with (/ 16) in B1 by (cbn; lra). replace (pow2 (-3)) with (/ 8) in B1 by (cbn; lra).
  replace (pow2 (-8)) with (/ 256) in B2 by (cbn; lra). replace (pow2 (-7)) with (/ 128) in B2 by (cbn; lra).
  split; [exact F1|]. split; [exact F2|]. lra.
Qed.
Example C96_low_met (NP : NanPolicy) : let p := setup_coeffs (MO := mul_math) (of_int 1) (of_int 1) (of_int 48000) in
  fin (snd p) = true /\ fin (fst p) = true /\ 0 <= val (snd p) <= 1 / 4 /\ 0 < val (fst p) <= pow2 (-27).
Proof.
  intros p.
  assert (F1 : fin (snd p) = true) by (vm_compute; reflexivity). assert (F2 : fin (fst p) = true) by (vm_compute; reflexivity).
  pose proof (between (lo := lit 1 (-14)) (hi := lit 1 (-13)) F1 ltac:(vm_compute; reflexivity) ltac:(vm_compute; reflexivity) ltac:(vm_compute; reflexivity) ltac:(vm_compute; reflexivity)) as B1.
  pose proof (between (lo := lit 1 (-28)) (hi := lit 1 (-27)) F2 ltac:(vm_compute; reflexivity) ltac:(vm_compute; reflexivity) ltac:(vm_compute; reflexivity) ltac:(vm_compute; reflexivity)) as B2.
  rewrite (proj2 (lit_exact 1 (-14) ltac:(lia) ltac:(lia))), (proj2 (lit_exact 1 (-13) ltac:(lia) ltac:(lia))) in B1.
  rewrite (proj2 (lit_exact 1 (-28) ltac:(lia) ltac:(lia))), (proj2 (lit_exact 1 (-27) ltac:(lia) ltac:(lia))) in B2.
  set (a := snd p) in *. set (b := fst p) in *. clearbody a b. clear p.
  replace (pow2 (-14)) with (/ 16384) in B1 by (cbn; lra). replace (pow2 (-13)) with (/ 8192) in B1 by (cbn; lra).
  replace (pow2 (-28)) with (/ 268435456) in B2 by (cbn; lra).
  split; [exact F1|]. split; [exact F2|]. lra.
Qed.
