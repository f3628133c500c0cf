(** * Theorems: panning, decibels, clipping, unit conversions (C65-C72). *)

From Coq Require Import ZArith List Bool Reals Lia Lra.
From Flocq Require Import Core IEEE754.BinarySingleNaN IEEE754.Binary.
From Verif Require Import Base F32 F32Lemmas F32Exact F32Ints F32Range F32Over Num M_Levels P_Interp P_SineFloat P_Bits P_Levels Examples.
Import ListNotations.
Local Open Scope R_scope.

(** ** Panning *)

Lemma pan_check_cases (NP : NanPolicy) (a : f32) :
  (check_pan_error a = Err TooLeft <-> isnan a = false /\ ext a < -1) /\
  (check_pan_error a = Err TooRight <-> isnan a = false /\ 1 < ext a) /\
  (check_pan_error a = Ok a <-> isnan a = true \/ (-1 <= ext a <= 1)).
Proof.
  destruct (of_int_exact 1 ltac:(lia)) as [F1 V1]. destruct (of_int_exact (-1) ltac:(lia)) as [Fm Vm].
  unfold check_pan_error. change (@nint f32 num_f32 1) with (of_int 1). change (@nint f32 num_f32 (-1)) with (of_int (-1)).
  change (@nlt f32 num_f32) with flt. destruct (isnan a) eqn:N.
  - rewrite !flt_nan by tauto. intuition discriminate.
  - rewrite !flt_ext by (auto using fin_notnan). rewrite (ext_fin _ F1), (ext_fin _ Fm), V1, Vm.
    destruct (Rlt_bool_spec (ext a) (-1)); destruct (Rlt_bool_spec 1 (ext a));
      repeat split; intros; try discriminate; try tauto; try lra; try (intuition (try discriminate; lra)).
Qed.

(** C65: both pan functions refuse an amount below -1 as too far left, one above 1 as too far
    right, and accept every other amount, NaN included; whatever the samples and whatever the
    square root routine. ([ext] is the value of a float, infinities being +-2^128.) *)
Theorem C65_pan_range_check : forall (NP : NanPolicy) (MO : MathOps f32) (a s : f32) (ss : f32 * f32),
  (mono_pan a s = Err TooLeft <-> isnan a = false /\ ext a < -1) /\
  (mono_pan a s = Err TooRight <-> isnan a = false /\ 1 < ext a) /\
  ((exists r, mono_pan a s = Ok r) <-> isnan a = true \/ -1 <= ext a <= 1) /\
  (stereo_pan a ss = Err TooLeft <-> isnan a = false /\ ext a < -1) /\
  (stereo_pan a ss = Err TooRight <-> isnan a = false /\ 1 < ext a) /\
  ((exists r, stereo_pan a ss = Ok r) <-> isnan a = true \/ -1 <= ext a <= 1).
Proof.
  intros NP MO a s ss. destruct (pan_check_cases NP a) as (H1 & H2 & H3). unfold mono_pan, stereo_pan.
  destruct (check_pan_error a) as [r|e] eqn:E.
  - assert (r = a).
    { unfold check_pan_error in E. destruct (_ <? _)%num; [discriminate|]. destruct (_ <? _)%num; [discriminate|]. congruence. }
    subst r. assert (A : isnan a = true \/ -1 <= ext a <= 1) by (now apply H3).
    repeat split; intros; try discriminate; try (eexists; reflexivity); try tauto; exfalso; intuition (congruence || lra).
  - assert (A : ~ (isnan a = true \/ -1 <= ext a <= 1)) by (rewrite <- H3; discriminate).
    destruct e.
    + assert (B : isnan a = false /\ ext a < -1) by now apply H1.
      repeat split; intros; try tauto; try discriminate; try (destruct H as [r H]; discriminate); exfalso; intuition (congruence || lra).
    + assert (B : isnan a = false /\ 1 < ext a) by now apply H2.
      repeat split; intros; try tauto; try discriminate; try (destruct H as [r H]; discriminate); exfalso; intuition (congruence || lra).
Qed.
Print Assumptions C65_pan_range_check.

(** C65: a NaN amount turns both channels into NaN, if the square root keeps a NaN. *)
Theorem C65_nan_amount : forall (NP : NanPolicy) (MO : MathOps f32) (a s : f32) (ss : f32 * f32),
  isnan a = true ->
  (exists l r, mono_pan a s = Ok (l, r) /\ isnan l = true /\ isnan r = true) /\
  ((forall x, isnan x = true -> isnan (m_sqrt x) = true) ->
   exists l r, stereo_pan a ss = Ok (l, r) /\ isnan l = true /\ isnan r = true).
Proof.
  intros NP MO a s ss N. destruct (pan_check_cases NP a) as (_ & _ & H3). assert (E : check_pan_error a = Ok a) by (apply H3; now left).
  assert (Nl : isnan (fst (equal_amplitude_pan_unchecked a)) = true) by (apply fmul_nan; left; apply fsub_nan; now right).
  assert (Nr : isnan (snd (equal_amplitude_pan_unchecked a)) = true) by (apply fmul_nan; left; apply fadd_nan; now right).
  unfold mono_pan, stereo_pan. rewrite E. split.
  - do 2 eexists. split; [reflexivity|]. split; apply fmul_nan; now right.
  - intros Hs. do 2 eexists. split; [reflexivity|]. split; apply fmul_nan; right; apply Hs; assumption.
Qed.
Print Assumptions C65_nan_amount.

Example C65_ex (NP : NanPolicy) : mono_pan (lit (-5) (-2)) (of_int 1) = Err TooLeft /\ mono_pan (lit 5 (-2)) (of_int 1) = Err TooRight /\
  (exists p, mono_pan (lit 1 (-2)) (of_int 1) = Ok p /\ to_bits (fst p) = to_bits (lit 3 (-3)) /\ to_bits (snd p) = to_bits (lit 5 (-3))).
Proof. split; [reflexivity|]. split; [reflexivity|]. eexists. split; [reflexivity|]. split; vm_compute; reflexivity. Qed.

(** C66: for an amount in [-1, 1] and a finite sample both channels are finite and no larger
    than the sample. *)
Theorem C66_mono_pan_bounded : forall (NP : NanPolicy) (a s : f32),
  fin a = true -> -1 <= val a <= 1 -> fin s = true ->
  exists l r, mono_pan a s = Ok (l, r) /\ fin l = true /\ fin r = true /\
    Rabs (val l) <= Rabs (val s) /\ Rabs (val r) <= Rabs (val s).
Proof.
  intros NP a s Fa Ha Fs. destruct (pan_check_cases NP a) as (_ & _ & H3).
  assert (E : check_pan_error a = Ok a) by (apply H3; right; now rewrite ext_fin).
  unfold mono_pan. rewrite E. do 2 eexists. split; [reflexivity|].
  destruct (pan_l_spec a Fa Ha) as (Fl & _ & Bl). destruct (pan_r_spec a Fa Ha) as (Fr & _ & Br).
  destruct (gain_mul s (pan_l a) Fs Fl Bl) as (F1 & _ & B1). destruct (gain_mul s (pan_r a) Fs Fr Br) as (F2 & _ & B2).
  split; [exact F1|]. split; [exact F2|]. split; [exact B1|exact B2].
Qed.
Print Assumptions C66_mono_pan_bounded.

(** C66: panning by -a swaps the channels, bit for bit. *)
Theorem C66_mono_pan_mirror : forall (NP : NanPolicy) (a s : f32), fin a = true -> -1 <= val a <= 1 ->
  exists l r, mono_pan a s = Ok (l, r) /\ mono_pan (fneg a) s = Ok (r, l).
Proof.
  intros NP a s Fa Ha. destruct (pan_check_cases NP a) as (_ & _ & H3). destruct (pan_check_cases NP (fneg a)) as (_ & _ & H4).
  assert (E : check_pan_error a = Ok a) by (apply H3; right; now rewrite ext_fin).
  assert (E' : check_pan_error (fneg a) = Ok (fneg a)).
  { apply H4. right. rewrite ext_fin by now rewrite fin_fneg. rewrite val_fneg. lra. }
  unfold mono_pan. rewrite E, E'. destruct (pan_swap a Fa Ha) as [S1 S2]. do 2 eexists. split; [reflexivity|].
  unfold mono_pan_unchecked. fold (pan_l (fneg a)). fold (pan_r (fneg a)). now rewrite S1, S2.
Qed.
Print Assumptions C66_mono_pan_mirror.

(** C66: moving to the right never makes the left channel louder nor the right one quieter. *)
Theorem C66_mono_pan_monotone : forall (NP : NanPolicy) (a b s : f32),
  fin a = true -> fin b = true -> fin s = true -> -1 <= val a -> val a <= val b -> val b <= 1 ->
  exists la ra lb rb, mono_pan a s = Ok (la, ra) /\ mono_pan b s = Ok (lb, rb) /\
    Rabs (val lb) <= Rabs (val la) /\ Rabs (val ra) <= Rabs (val rb).
Proof.
  intros NP a b s Fa Fb Fs H1 H2 H3. destruct (pan_check_cases NP a) as (_ & _ & Ka). destruct (pan_check_cases NP b) as (_ & _ & Kb).
  assert (Ea : check_pan_error a = Ok a) by (apply Ka; right; rewrite ext_fin by exact Fa; lra).
  assert (Eb : check_pan_error b = Ok b) by (apply Kb; right; rewrite ext_fin by exact Fb; lra).
  unfold mono_pan. rewrite Ea, Eb. do 4 eexists. split; [reflexivity|]. split; [reflexivity|].
  destruct (pan_l_spec a Fa ltac:(lra)) as (Fla & Vla & Bla). destruct (pan_r_spec a Fa ltac:(lra)) as (Fra & Vra & Bra).
  destruct (pan_l_spec b Fb ltac:(lra)) as (Flb & Vlb & Blb). destruct (pan_r_spec b Fb ltac:(lra)) as (Frb & Vrb & Brb).
  assert (rnd (1 - val b) <= rnd (1 - val a)) by (apply rnd_le; lra). assert (rnd (1 + val a) <= rnd (1 + val b)) by (apply rnd_le; lra).
  split; [apply (gain_mono s (pan_l b) (pan_l a))|apply (gain_mono s (pan_r a) (pan_r b))]; assumption || lra.
Qed.
Print Assumptions C66_mono_pan_monotone.

(** C66: hard left is the sample itself and a zero, hard right the opposite. *)
Theorem C66_mono_pan_ends : forall (NP : NanPolicy) (s : f32), fin s = true ->
  (exists r, mono_pan (of_int (-1)) s = Ok (s, r) /\ fin r = true /\ val r = 0) /\
  (exists l, mono_pan (of_int 1) s = Ok (l, s) /\ fin l = true /\ val l = 0).
Proof.
  intros NP s Fs.
  assert (L1 : pan_l (of_int (-1)) = of_int 1) by (apply bits_inj; vm_compute; reflexivity).
  assert (R1 : pan_r (of_int (-1)) = of_int 0) by (apply bits_inj; vm_compute; reflexivity).
  assert (L2 : pan_l (of_int 1) = of_int 0) by (apply bits_inj; vm_compute; reflexivity).
  assert (R2 : pan_r (of_int 1) = of_int 1) by (apply bits_inj; vm_compute; reflexivity).
  destruct (of_int_exact 1 ltac:(lia)) as [F1 V1]. destruct (of_int_exact 0 ltac:(lia)) as [F0 V0].
  assert (M1 : fmul s (of_int 1) = s) by (apply mul_one; [exact Fs|exact F1|exact V1|reflexivity]).
  destruct (gain_mul s (of_int 0) Fs F0 ltac:(rewrite V0; lra)) as (Fz & Vz & _). rewrite V0, Rmult_0_r, rnd_0 in Vz.
  split.
  - exists (fmul s (of_int 0)). split; [|split; [exact Fz|exact Vz]].
    change (mono_pan (of_int (-1)) s) with (@Ok (f32 * f32) PanningError (fmul s (pan_l (of_int (-1))), fmul s (pan_r (of_int (-1))))).
    now rewrite L1, R1, M1.
  - exists (fmul s (of_int 0)). split; [|split; [exact Fz|exact Vz]].
    change (mono_pan (of_int 1) s) with (@Ok (f32 * f32) PanningError (fmul s (pan_l (of_int 1)), fmul s (pan_r (of_int 1)))).
    now rewrite L2, R2, M1.
Qed.
Print Assumptions C66_mono_pan_ends.

Example C66_ex (NP : NanPolicy) : let a := lit 1 (-2) in fin a = true /\ -1 <= val a <= 1 /\
  match mono_pan a (of_int (-3)), mono_pan (fneg a) (of_int (-3)) with
  | Ok (l, r), Ok (l', r') => [to_bits l; to_bits r; to_bits l'; to_bits r'] =
      map to_bits [lit (-9) (-3); lit (-15) (-3); lit (-15) (-3); lit (-9) (-3)]
  | _, _ => False end.
Proof.
  cbv zeta. destruct (lit_exact 1 (-2) ltac:(lia) ltac:(lia)) as [Fa Va]. split; [exact Fa|]. split; [|vm_compute; reflexivity].
  rewrite Va. unfold pow2. simpl. lra.
Qed.

(** ** Panning in exact arithmetic *)

Lemma nintR z : @nint R num_R z = IZR z.
Proof. unfold nint. cbn. ring. Qed.
Lemma halfR : @ndy R num_R 1 (-1) = / 2.
Proof. cbn. lra. Qed.

(** C67: in exact arithmetic the two channels of [mono_pan] add up to the sample. *)
Theorem C67_constant_sum : forall (a s : R), -1 <= a <= 1 ->
  exists l r, mono_pan a s = Ok (l, r) /\ l + r = s.
Proof.
  intros a s H. unfold mono_pan, check_pan_error. rewrite !nintR. cbn [nlt num_R].
  rewrite !Rlt_bool_false by lra. do 2 eexists. split; [reflexivity|]. unfold mono_pan_unchecked, equal_amplitude_pan_unchecked.
  cbn [fst snd]. rewrite !nintR, halfR. cbn [nadd nsub nmul num_R]. lra.
Qed.
Print Assumptions C67_constant_sum.

(** C67: crossfading is a convex combination of the two inputs, moving linearly from the
    first (amount -1) to the second (amount 1). *)
Theorem C67_crossfade_convex : forall (a x y : R), -1 <= a <= 1 ->
  let t := (1 + a) / 2 in
  crossfade_correlated_unchecked a (x, y) = (1 - t) * x + t * y /\ 0 <= t <= 1 /\
  Rmin x y <= crossfade_correlated_unchecked a (x, y) <= Rmax x y.
Proof.
  intros a x y H t. assert (E : crossfade_correlated_unchecked a (x, y) = (1 - t) * x + t * y).
  { unfold crossfade_correlated_unchecked, equal_amplitude_pan_unchecked. cbn [fst snd]. rewrite !nintR, halfR. cbn [nadd nsub nmul num_R].
    unfold t. lra. }
  split; [exact E|]. assert (T : 0 <= t <= 1) by (unfold t; lra). split; [exact T|]. rewrite E.
  unfold Rmin, Rmax. destruct (Rle_dec x y); nra.
Qed.
Print Assumptions C67_crossfade_convex.

(** C67: the gains of [stereo_pan] have squares summing to one, so a correlated pair of equal
    samples keeps its power, and the gain is larger on the side panned to. *)
Theorem C67_constant_power : forall (MO : MathOps R) (a x : R), (forall v, 0 <= v -> m_sqrt v = sqrt v) ->
  -1 <= a <= 1 ->
  exists gl gr, (forall ss, stereo_pan a ss = Ok (fst ss * gl, snd ss * gr)) /\ 0 <= gl /\ 0 <= gr /\ gl * gl + gr * gr = 1 /\
    (a < 0 -> gr < gl) /\ (0 < a -> gl < gr) /\
    (x * gl) * (x * gl) + (x * gr) * (x * gr) = x * x.
Proof.
  intros MO a x Hs H. exists (sqrt ((1 - a) / 2)), (sqrt ((1 + a) / 2)).
  assert (S1 : sqrt ((1 - a) / 2) * sqrt ((1 - a) / 2) = (1 - a) / 2) by (apply sqrt_sqrt; lra).
  assert (S2 : sqrt ((1 + a) / 2) * sqrt ((1 + a) / 2) = (1 + a) / 2) by (apply sqrt_sqrt; lra).
  split; [|split; [apply sqrt_pos|split; [apply sqrt_pos|split; [lra|split; [|split; [|]]]]]].
  - intros [s1 s2]. unfold stereo_pan, check_pan_error. rewrite !nintR. cbn [nlt num_R]. rewrite !Rlt_bool_false by lra.
    unfold stereo_pan_unchecked, equal_power_pan_unchecked, equal_amplitude_pan_unchecked. cbn [fst snd].
    rewrite !nintR, halfR. cbn [nadd nsub nmul num_R]. do 2 f_equal; f_equal; apply Hs; lra.
  - intros N. apply sqrt_lt_1_alt. lra.
  - intros N. apply sqrt_lt_1_alt. lra.
  - transitivity (x * x * (sqrt ((1 - a) / 2) * sqrt ((1 - a) / 2) + sqrt ((1 + a) / 2) * sqrt ((1 + a) / 2))); [ring|].
    rewrite S1, S2. field.
Qed.
Print Assumptions C67_constant_power.

Example C67_ex : mono_pan (/ 2) 8 = Ok (2, 6) /\ crossfade_correlated_unchecked (/ 2) (8, 4) = 5.
Proof.
  split.
  - unfold mono_pan, check_pan_error. rewrite !nintR. cbn [nlt num_R]. rewrite !Rlt_bool_false by lra.
    unfold mono_pan_unchecked, equal_amplitude_pan_unchecked. rewrite !nintR, !halfR. cbn [nadd nsub nmul num_R]. cbn [fst snd]. apply f_equal; apply f_equal2; lra.
  - destruct (C67_crossfade_convex (/ 2) 8 4 ltac:(lra)) as (E & _). rewrite E. lra.
Qed.

(** ** Decibels *)

(** C68: [to_decibels] refuses exactly the negative ratios, [to_decibels_checked] also zero
    (of either sign); everything else gets 20 times its logarithm. *)
Theorem C68_decibel_validation : forall (NP : NanPolicy) (MO : MathOps f32) (x : f32),
  (isnan x = false /\ ext x < 0 -> to_decibels x = Err Nan /\ to_decibels_checked x = Err Nan) /\
  (fin x = true /\ val x = 0 -> to_decibels x = Ok (fmul (of_int 20) (m_log10 x)) /\ to_decibels_checked x = Err Infinite) /\
  (isnan x = true \/ 0 < ext x ->
     to_decibels x = Ok (fmul (of_int 20) (m_log10 x)) /\ to_decibels_checked x = Ok (fmul (of_int 20) (m_log10 x))).
Proof.
  intros NP MO x. destruct (of_int_exact 0 ltac:(lia)) as [F0 V0]. unfold to_decibels, to_decibels_checked.
  change (@nint f32 num_f32 0) with (of_int 0). change (@nlt f32 num_f32) with flt. change (@neq f32 num_f32) with feq.
  assert (N0 := fin_notnan _ F0). split; [|split].
  - intros [N H]. rewrite flt_ext by assumption. rewrite (ext_fin (of_int 0) F0), V0. rewrite Rlt_bool_true by exact H. split; reflexivity.
  - intros [F V]. rewrite flt_fin, feq_fin by assumption. rewrite V0, V, Rlt_bool_false, Req_bool_true by lra. split; reflexivity.
  - intros H. destruct (isnan x) eqn:N.
    + rewrite flt_nan, feq_nan by tauto. split; reflexivity.
    + destruct H as [H|H]; [discriminate|]. rewrite flt_ext, feq_ext by assumption. rewrite (ext_fin (of_int 0) F0), V0.
      rewrite Rlt_bool_false, Req_bool_false by lra. split; reflexivity.
Qed.
Print Assumptions C68_decibel_validation.

(** C68: against the documentation ("cannot yield a NaN") both accept a NaN and return one,
    if the logarithm keeps it. *)
Theorem C68_never_nan_refuted : forall (NP : NanPolicy) (MO : MathOps f32) (x : f32),
  (forall y, isnan y = true -> isnan (m_log10 y) = true) -> isnan x = true ->
  exists v w, to_decibels x = Ok v /\ isnan v = true /\ to_decibels_checked x = Ok w /\ isnan w = true.
Proof.
  intros NP MO x Hl N. destruct (C68_decibel_validation NP MO x) as (_ & _ & H). destruct (H (or_introl N)) as [E1 E2].
  do 2 eexists. split; [exact E1|]. split; [apply fmul_nan; right; now apply Hl|]. split; [exact E2|]. apply fmul_nan. right. now apply Hl.
Qed.
Print Assumptions C68_never_nan_refuted.

Example C68_ex (NP : NanPolicy) : @to_decibels_checked f32 num_f32 ref_math (of_int 0) = Err Infinite /\
  @to_decibels f32 num_f32 ref_math (of_int (-3)) = Err Nan /\ (forall y, isnan y = true -> isnan (@m_log10 _ ref_math y) = true).
Proof. split; [reflexivity|]. split; [reflexivity|]. intros y H. exact H. Qed.

(** The mathematical logarithm and power. *)
Definition exact_log_pow (MO : MathOps R) : Prop :=
  (forall x, 0 < x -> m_log10 x = ln x / ln 10) /\ (forall x y, 0 < x -> m_powf x y = Rpower x y).

(** C69: in exact arithmetic the two conversions are inverse to each other, turn products
    into sums and back, and are strictly increasing. *)
Theorem C69_decibel_round_trip : forall (MO : MathOps R), exact_log_pow MO ->
  (forall x, 0 < x -> to_volt_ratio (to_decibels_unchecked x) = x) /\
  (forall d, 0 < to_volt_ratio d /\ to_decibels_unchecked (to_volt_ratio d) = d) /\
  (forall x y, 0 < x -> 0 < y -> to_decibels_unchecked (x * y) = to_decibels_unchecked x + to_decibels_unchecked y) /\
  (forall x y, 0 < x -> x < y -> to_decibels_unchecked x < to_decibels_unchecked y) /\
  (forall d e, d < e -> to_volt_ratio d < to_volt_ratio e) /\
  to_decibels_unchecked 10 = 20 /\ to_decibels_unchecked 1 = 0 /\
  (forall x, 0 < x -> to_decibels x = Ok (to_decibels_unchecked x) /\ to_decibels_checked x = Ok (to_decibels_unchecked x)).
Proof.
  intros MO [Hl Hp]. assert (L10 : 0 < ln 10) by (rewrite <- ln_1; apply ln_increasing; lra).
  assert (D : forall x, 0 < x -> to_decibels_unchecked x = 20 * (ln x / ln 10)).
  { intros x Hx. unfold to_decibels_unchecked. rewrite nintR, Hl by exact Hx. reflexivity. }
  assert (V : forall d, to_volt_ratio d = exp (d / 20 * ln 10)).
  { intros d. unfold to_volt_ratio. rewrite !nintR, Hp by lra. reflexivity. }
  split; [|split; [|split; [|split; [|split; [|split; [|split]]]]]].
  - intros x Hx. rewrite V, D by exact Hx. replace (20 * (ln x / ln 10) / 20 * ln 10) with (ln x) by (field; lra). now apply exp_ln.
  - intros d. rewrite V. split; [apply exp_pos|]. rewrite D by apply exp_pos. rewrite ln_exp. field. lra.
  - intros x y Hx Hy. rewrite !D by (try apply Rmult_lt_0_compat; assumption). rewrite ln_mult by assumption. field. lra.
  - intros x y Hx H. rewrite !D by lra. apply Rmult_lt_compat_l; [lra|]. apply Rmult_lt_compat_r; [now apply Rinv_0_lt_compat|].
    now apply ln_increasing.
  - intros d e H. rewrite !V. apply exp_increasing. apply Rmult_lt_compat_r; lra.
  - rewrite D by lra. field. lra.
  - rewrite D by lra. rewrite ln_1. field. lra.
  - intros x Hx. unfold to_decibels, to_decibels_checked. rewrite nintR. cbn [nlt neq num_R].
    rewrite Rlt_bool_false by lra. rewrite Req_bool_false by lra. split; reflexivity.
Qed.
Print Assumptions C69_decibel_round_trip.

(** The hypothesis of C69 is met by the mathematical functions. *)
Definition exact_math : MathOps R := {| m_floor := fun x => IZR (Zfloor x); m_sqrt := sqrt; m_exp := exp;
  m_log10 := fun x => ln x / ln 10; m_powf := Rpower; m_powi := fun x n => powerRZ x n |}.
Example C69_ex : exact_log_pow exact_math.
Proof. split; reflexivity. Qed.

(** ** Clipping *)

(** C70: [digital_clip] never panics; it returns x itself inside [-1, 1] (and a NaN
    unchanged), 1 above and -1 below. *)
Theorem C70_digital_clip : forall (x : f32),
  (isnan x = true \/ (-1 <= ext x <= 1) -> digital_clip x = Ret x) /\
  (isnan x = false -> 1 < ext x -> digital_clip x = Ret (of_int 1)) /\
  (isnan x = false -> ext x < -1 -> digital_clip x = Ret (of_int (-1))).
Proof.
  intros x. destruct (of_int_exact 1 ltac:(lia)) as [F1 V1]. destruct (of_int_exact (-1) ltac:(lia)) as [Fm Vm].
  unfold digital_clip, fclamp, fgt. replace (fle (of_int (-1)) (of_int 1)) with true by reflexivity.
  destruct (isnan x) eqn:N.
  - rewrite (flt_nan x) by tauto. cbv iota. rewrite flt_nan by tauto. repeat split; intros; discriminate.
  - assert (N1 := fin_notnan _ F1). assert (Nm := fin_notnan _ Fm).
    rewrite (flt_ext x) by assumption. rewrite (ext_fin _ Fm), Vm. split; [|split].
    + intros [H|H]; [discriminate|]. rewrite Rlt_bool_false by lra. rewrite flt_ext by assumption. rewrite (ext_fin _ F1), V1.
      now rewrite Rlt_bool_false by lra.
    + intros _ H. rewrite Rlt_bool_false by lra. rewrite flt_ext by assumption. rewrite (ext_fin _ F1), V1.
      now rewrite Rlt_bool_true by lra.
    + intros _ H. rewrite Rlt_bool_true by lra. reflexivity.
Qed.
Print Assumptions C70_digital_clip.

(** C70: the result is in [-1, 1], clipping it again changes nothing, and the order of two
    inputs is kept. *)
Theorem C70_digital_clip_properties : forall (x y : f32), isnan x = false -> isnan y = false ->
  exists u v, digital_clip x = Ret u /\ digital_clip y = Ret v /\ fin u = true /\ -1 <= val u <= 1 /\
    digital_clip u = Ret u /\ (ext x <= ext y -> val u <= val v).
Proof.
  assert (G : forall x, isnan x = false -> exists u, digital_clip x = Ret u /\ fin u = true /\ -1 <= val u <= 1 /\
    val u = Rmax (-1) (Rmin 1 (ext x))).
  { intros x N. destruct (C70_digital_clip x) as (H1 & H2 & H3).
    destruct (of_int_exact 1 ltac:(lia)) as [F1 V1]. destruct (of_int_exact (-1) ltac:(lia)) as [Fm Vm].
    destruct (Rle_lt_dec (-1) (ext x)) as [L|L]; [destruct (Rle_lt_dec (ext x) 1) as [L'|L']|].
    - exists x. rewrite H1 by (right; lra). pose proof big_ge. assert (F : fin x = true) by (apply ext_fin_of_bounds; [exact N|lra]).
      rewrite (ext_fin x F) in *. split; [reflexivity|]. split; [exact F|]. split; [lra|]. rewrite Rmin_right, Rmax_right by lra. reflexivity.
    - exists (of_int 1). rewrite H2 by assumption. rewrite V1. split; [reflexivity|]. split; [exact F1|]. split; [lra|].
      rewrite Rmin_left, Rmax_right by lra. reflexivity.
    - exists (of_int (-1)). rewrite H3 by assumption. rewrite Vm. split; [reflexivity|]. split; [exact Fm|]. split; [lra|].
      rewrite Rmin_right, Rmax_left by lra. reflexivity. }
  intros x y Nx Ny. destruct (G x Nx) as (u & Eu & Fu & Bu & Vu). destruct (G y Ny) as (v & Ev & Fv & Bv & Vv).
  exists u, v. split; [exact Eu|]. split; [exact Ev|]. split; [exact Fu|]. split; [exact Bu|]. split.
  - apply C70_digital_clip. right. rewrite ext_fin by exact Fu. exact Bu.
  - intros H. rewrite Vu, Vv. apply Rle_max_compat_l, Rle_min_compat_l, H.
Qed.
Print Assumptions C70_digital_clip_properties.

Example C70_ex : obits (digital_clip (lit 5 (-2))) = Ret (to_bits (of_int 1)) /\ obits (digital_clip (lit 3 (-2))) = Ret (to_bits (lit 3 (-2))) /\
  obits (digital_clip f_inf) = Ret (to_bits (of_int 1)).
Proof. repeat split; vm_compute; reflexivity. Qed.

(** C71: the other three clippers saturate outside [-1, 1] and are unfinished inside: every
    sample in [-1, 1] and every NaN makes them panic. *)
Theorem C71_unfinished_clippers_refuted : forall (NP : NanPolicy) (x k : f32),
  (isnan x = true \/ (-1 <= ext x <= 1) -> tanh_clip x = Panic /\ poly_clip x k = Panic /\ sigmoid_clip x k = Panic) /\
  (isnan x = false -> 1 < ext x -> tanh_clip x = Ret (of_int 1) /\ poly_clip x k = Ret (of_int 1) /\ sigmoid_clip x k = Ret (of_int 1)) /\
  (isnan x = false -> ext x < -1 -> tanh_clip x = Ret (of_int (-1)) /\ poly_clip x k = Ret (of_int (-1)) /\ sigmoid_clip x k = Ret (of_int (-1))).
Proof.
  intros NP x k. destruct (of_int_exact 1 ltac:(lia)) as [F1 V1]. destruct (of_int_exact (-1) ltac:(lia)) as [Fm Vm].
  unfold tanh_clip, poly_clip, sigmoid_clip. change (@nint f32 num_f32 1) with (of_int 1). change (@nint f32 num_f32 (-1)) with (of_int (-1)).
  change (@nlt f32 num_f32) with flt. destruct (isnan x) eqn:N.
  - rewrite !flt_nan by tauto. repeat split; intros; discriminate.
  - assert (N1 := fin_notnan _ F1). assert (Nm := fin_notnan _ Fm). rewrite !flt_ext by assumption.
    rewrite (ext_fin _ F1), (ext_fin _ Fm), V1, Vm. split; [|split].
    + intros [H|H]; [discriminate|]. rewrite !Rlt_bool_false by lra. repeat split.
    + intros _ H. rewrite !Rlt_bool_true by lra. repeat split.
    + intros _ H. rewrite Rlt_bool_false, Rlt_bool_true by lra. repeat split.
Qed.
Print Assumptions C71_unfinished_clippers_refuted.

Example C71_ex (NP : NanPolicy) : tanh_clip (of_int 0) = Panic /\ obits (tanh_clip (of_int 2)) = Ret 1065353216%Z.
Proof. split; reflexivity. Qed.

(** ** Unit conversions *)

(** C72: in exact arithmetic the conversions are inverse to each other, and a second is a
    thousand milliseconds. *)
Theorem C72_conversions_inverse : forall (x sr : R), sr <> 0 ->
  seconds_to_samples (samples_to_seconds x sr) sr = x /\ samples_to_seconds (seconds_to_samples x sr) sr = x /\
  millis_to_samples (samples_to_millis x sr) sr = x /\ samples_to_millis (millis_to_samples x sr) sr = x /\
  samples_to_millis x sr = 1000 * samples_to_seconds x sr /\ millis_to_samples (1000 * x) sr = seconds_to_samples x sr.
Proof.
  intros x sr H. unfold seconds_to_samples, samples_to_seconds, millis_to_samples, samples_to_millis. rewrite !nintR.
  cbn [nadd nsub nmul ndiv num_R]. repeat split; field; lra.
Qed.
Print Assumptions C72_conversions_inverse.

(** C72: each f32 conversion is monotone for a positive finite sample rate, infinities
    included. *)
Theorem C72_conversions_monotone : forall (NP : NanPolicy) (x y sr : f32), fin sr = true -> 0 < val sr -> fle x y = true ->
  fle (samples_to_seconds x sr) (samples_to_seconds y sr) = true /\ fle (samples_to_millis x sr) (samples_to_millis y sr) = true /\
  fle (seconds_to_samples x sr) (seconds_to_samples y sr) = true /\ fle (millis_to_samples x sr) (millis_to_samples y sr) = true.
Proof.
  intros NP x y sr Fs Ps H. destruct (of_int_exact 1000 ltac:(lia)) as [Fk Vk].
  assert (Pk : 0 < val (of_int 1000)) by (rewrite Vk; lra).
  split; [now apply div_mono|]. split; [apply mul_mono; [exact Fk|exact Pk|]; now apply div_mono|].
  split; [now apply mul_mono|]. apply div_mono; [exact Fk|exact Pk|]. now apply mul_mono.
Qed.
Print Assumptions C72_conversions_monotone.

Lemma range_mul a b m n : pow2 (- m) <= a <= pow2 m -> pow2 (- n) <= b <= pow2 n -> pow2 (- (m + n)) <= a * b <= pow2 (m + n).
Proof.
  intros H K. replace (- (m + n))%Z with (- m + - n)%Z by lia. rewrite !bpow_plus.
  pose proof (bpow_gt_0 radix2 (- m)). pose proof (bpow_gt_0 radix2 (- n)). split; apply Rmult_le_compat; lra.
Qed.
Lemma range_div a b m n : pow2 (- m) <= a <= pow2 m -> pow2 (- n) <= b <= pow2 n -> pow2 (- (m + n)) <= a / b <= pow2 (m + n).
Proof.
  intros H K. apply range_mul; [exact H|]. pose proof (bpow_gt_0 radix2 n). pose proof (bpow_gt_0 radix2 (- n)).
  split.
  - rewrite bpow_opp. apply Rinv_le; lra.
  - rewrite <- (Z.opp_involutive n), bpow_opp. apply Rinv_le; lra.
Qed.

Lemma mul_rel {NP : NanPolicy} x c v e : fin x = true -> fin c = true -> 0 <= e -> rel (val x) v e ->
  pow2 (-126) <= Rabs (val x * val c) <= pow2 126 ->
  fin (fmul x c) = true /\ rel (val (fmul x c)) (v * val c) (e + pow2 (-24) * (1 + e)) /\
  Rabs (val (fmul x c)) <= pow2 126.
Proof.
  intros Fx Fc He H R. assert (B : pow2 126 < big) by (unfold big; apply bpow_lt; lia).
  destruct (fmul_bnd x c (pow2 126) Fx Fc (repr_bpow 126 ltac:(lia)) B ltac:(tauto)) as (F & V & Bd).
  split; [exact F|]. split; [|exact Bd]. rewrite V. apply rel_rnd; [exact He|now apply rel_mul|tauto].
Qed.
Lemma div_rel {NP : NanPolicy} x c v e : fin x = true -> fin c = true -> val c <> 0 -> 0 <= e -> rel (val x) v e ->
  pow2 (-126) <= Rabs (val x / val c) <= pow2 126 ->
  fin (fdiv x c) = true /\ rel (val (fdiv x c)) (v / val c) (e + pow2 (-24) * (1 + e)) /\
  Rabs (val (fdiv x c)) <= pow2 126.
Proof.
  intros Fx Fc Nc He H R. assert (B : pow2 126 < big) by (unfold big; apply bpow_lt; lia).
  destruct (fdiv_bnd x c (pow2 126) Fx Nc (repr_bpow 126 ltac:(lia)) B ltac:(tauto)) as (F & V & Bd).
  split; [exact F|]. split; [|exact Bd]. rewrite V. apply rel_rnd; [exact He|now apply rel_div|tauto].
Qed.
Lemma rel_range u v e k : rel u v e -> 0 <= e <= 1 / 2 -> pow2 (- k) <= Rabs v <= pow2 k -> pow2 (- (k + 1)) <= Rabs u <= pow2 (k + 1).
Proof.
  intros H He K. destruct (rel_abs u v e H) as [A1 A2]. replace (- (k + 1))%Z with (- k + -1)%Z by lia. rewrite !bpow_plus.
  change (pow2 1) with 2. replace (pow2 (-1)) with (/ 2) by (cbn; lra). pose proof (bpow_gt_0 radix2 (- k)). nra.
Qed.

(** C72: for values and sample rates between 2^-40 and 2^40 in magnitude, samples to seconds
    and back (and seconds to samples and back) errs by at most 2^-23 + 2^-48 relative, the
    way over milliseconds and back by at most 2^-22 + 2^-44. *)
Theorem C72_round_trip_accuracy : forall (NP : NanPolicy) (x sr : f32), fin x = true -> fin sr = true ->
  pow2 (-40) <= Rabs (val x) <= pow2 40 -> pow2 (-40) <= val sr <= pow2 40 ->
  Rabs (val (seconds_to_samples (samples_to_seconds x sr) sr) - val x) <= (pow2 (-23) + pow2 (-48)) * Rabs (val x) /\
  Rabs (val (samples_to_seconds (seconds_to_samples x sr) sr) - val x) <= (pow2 (-23) + pow2 (-48)) * Rabs (val x) /\
  Rabs (val (millis_to_samples (samples_to_millis x sr) sr) - val x) <= (pow2 (-22) + pow2 (-44)) * Rabs (val x).
Proof.
  intros NP x sr Fx Fs Hx Hs. assert (Ps : 0 < val sr) by (pose proof (bpow_gt_0 radix2 (-40)); lra).
  destruct (of_int_exact 1000 ltac:(lia)) as [Fk Vk].
  assert (As : pow2 (-(40)) <= Rabs (val sr) <= pow2 40) by (rewrite Rabs_right by lra; exact Hs).
  assert (Hk : pow2 (-(10)) <= Rabs (val (of_int 1000)) <= pow2 10).
  { rewrite Vk, Rabs_right by lra. cbn. lra. }
  assert (W : forall a k, (0 <= k <= 126)%Z -> pow2 (- k) <= a <= pow2 k -> pow2 (-126) <= a <= pow2 126).
  { intros a k Hk' Ha. assert (pow2 (-126) <= pow2 (- k)) by (apply bpow_le; lia). assert (pow2 k <= pow2 126) by (apply bpow_le; lia). lra. }
  assert (E24 : pow2 (-24) = 1 / 16777216) by (cbn; lra). assert (E23 : pow2 (-23) = 1 / 8388608) by (cbn; lra).
  assert (E22 : pow2 (-22) = 1 / 4194304) by (cbn; lra). assert (E48 : pow2 (-48) = 1 / 281474976710656) by (cbn; lra).
  assert (E44 : pow2 (-44) = 1 / 17592186044416) by (cbn; lra).
  pose proof (rel_refl (val x)) as R0.
  set (e1 := 0 + pow2 (-24) * (1 + 0)). assert (He1 : 0 <= e1 <= 1 / 2) by (unfold e1; rewrite E24; lra).
  set (e2 := e1 + pow2 (-24) * (1 + e1)). assert (He2 : 0 <= e2 <= 1 / 2) by (unfold e2, e1; rewrite E24; lra).
  set (e3 := e2 + pow2 (-24) * (1 + e2)). assert (He3 : 0 <= e3 <= 1 / 2) by (unfold e3, e2, e1; rewrite E24; lra).
  set (e4 := e3 + pow2 (-24) * (1 + e3)).
  assert (Fin2 : forall u, rel u (val x) e2 -> Rabs (u - val x) <= (pow2 (-23) + pow2 (-48)) * Rabs (val x)).
  { intros u H. unfold rel in H. eapply Rle_trans; [exact H|]. apply Rmult_le_compat_r; [apply Rabs_pos|]. unfold e2, e1. rewrite E24, E23, E48. lra. }
  assert (Fin4 : forall u, rel u (val x) e4 -> Rabs (u - val x) <= (pow2 (-22) + pow2 (-44)) * Rabs (val x)).
  { intros u H. unfold rel in H. eapply Rle_trans; [exact H|]. apply Rmult_le_compat_r; [apply Rabs_pos|]. unfold e4, e3, e2, e1. rewrite E24, E22, E44. lra. }
  assert (Qd : pow2 (- (80)) <= Rabs (val x / val sr) <= pow2 80).
  { unfold Rdiv. rewrite Rabs_mult, Rabs_inv. apply (range_div _ _ 40 40 Hx As). }
  assert (Qm : pow2 (- (80)) <= Rabs (val x * val sr) <= pow2 80).
  { rewrite Rabs_mult. apply (range_mul _ _ 40 40 Hx As). }
  destruct (div_rel x sr (val x) 0 Fx Fs ltac:(lra) ltac:(lra) R0 (W _ 80%Z ltac:(lia) Qd)) as (Fd & Rd & _). fold e1 in Rd.
  pose proof (rel_range _ _ _ 80 Rd He1 Qd) as Bd.
  destruct (mul_rel x sr (val x) 0 Fx Fs ltac:(lra) R0 (W _ 80%Z ltac:(lia) Qm)) as (Fm & Rm & _). fold e1 in Rm.
  pose proof (rel_range _ _ _ 80 Rm He1 Qm) as Bm.
  split; [|split].
  - apply Fin2. destruct (mul_rel (fdiv x sr) sr (val x / val sr) e1 Fd Fs ltac:(tauto) Rd) as (_ & R & _).
    + rewrite Rabs_mult. apply (W _ 121%Z ltac:(lia)). apply (range_mul _ _ 81 40 Bd As).
    + replace (val x / val sr * val sr) with (val x) in R by (field; lra). exact R.
  - apply Fin2. destruct (div_rel (fmul x sr) sr (val x * val sr) e1 Fm Fs ltac:(lra) ltac:(tauto) Rm) as (_ & R & _).
    + unfold Rdiv. rewrite Rabs_mult, Rabs_inv. apply (W _ 121%Z ltac:(lia)). apply (range_div _ _ 81 40 Bm As).
    + replace (val x * val sr / val sr) with (val x) in R by (field; lra). exact R.
  - apply Fin4. 
    assert (Q2 : pow2 (- (90)) <= Rabs (val x / val sr * val (of_int 1000)) <= pow2 90).
    { rewrite Rabs_mult. apply (range_mul _ _ 80 10 Qd Hk). }
    destruct (mul_rel (fdiv x sr) (of_int 1000) (val x / val sr) e1 Fd Fk ltac:(tauto) Rd) as (F2 & R2 & _).
    { rewrite Rabs_mult. apply (W _ 91%Z ltac:(lia)). apply (range_mul _ _ 81 10 Bd Hk). }
    fold e2 in R2. set (v2 := fmul (fdiv x sr) (of_int 1000)) in *.
    pose proof (rel_range _ _ _ 90 R2 He2 Q2) as B2.
    (* the exact value after the third step is back near x: use its own range *)
    assert (Q3 : pow2 (- (50)) <= Rabs (val x / val sr * val (of_int 1000) * val sr) <= pow2 50).
    { replace (val x / val sr * val (of_int 1000) * val sr) with (val x * val (of_int 1000)) by (field; lra).
      rewrite Rabs_mult. apply (range_mul _ _ 40 10 Hx Hk). }
    pose proof (rel_mul _ _ _ (val sr) R2) as R2s. pose proof (rel_range _ _ _ 50 R2s He2 Q3) as B2s.
    destruct (mul_rel v2 sr _ e2 F2 Fs ltac:(tauto) R2) as (F3 & R3 & _); [apply (W _ 51%Z ltac:(lia)); exact B2s|].
    fold e3 in R3. pose proof (rel_range _ _ _ 50 R3 He3 Q3) as B3.
    destruct (div_rel (fmul v2 sr) (of_int 1000) _ e3 F3 Fk ltac:(lra) ltac:(tauto) R3) as (_ & R4 & _).
    { unfold Rdiv. rewrite Rabs_mult, Rabs_inv. apply (W _ 61%Z ltac:(lia)). apply (range_div _ _ 51 10 B3 Hk). }
    fold e4 in R4. replace (val x / val sr * val (of_int 1000) * val sr / val (of_int 1000)) with (val x) in R4 by (field; lra). exact R4.
Qed.
Print Assumptions C72_round_trip_accuracy.

(** One second at 48 kHz is 48000 samples and back. *)
Example C72_ex (NP : NanPolicy) : to_bits (seconds_to_samples (of_int 1) (of_int 48000)) = to_bits (of_int 48000) /\
  to_bits (samples_to_millis (of_int 48) (of_int 48000)) = to_bits (of_int 1) /\
  to_bits (samples_to_seconds (of_int 48000) (of_int 48000)) = to_bits (of_int 1).
Proof. repeat split; vm_compute; reflexivity. Qed.
