(** * Reasoning kit for [f32]: every operation as the rounding of the exact result. *)

From Coq Require Import ZArith Reals Bool Lia Lra Psatz.
From Flocq Require Import Core IEEE754.BinarySingleNaN IEEE754.Binary IEEE754.Bits Sterbenz Relative.
From Verif Require Import Base F32.
Open Scope R_scope.

(** Rounding to nearest even in binary32 (unbounded exponent above), and
    representability. *)
Notation fexp32 := (FLT_exp (-149) 24).
Definition rnd (x : R) : R := round radix2 fexp32 ZnearestE x.
Definition repr (x : R) : Prop := generic_format radix2 fexp32 x.
Notation pow2 e := (bpow radix2 e).
(** The overflow threshold 2^128. *)
Definition big : R := pow2 128.

#[global] Instance valid32 : Valid_exp fexp32 := FLT_exp_valid (-149) 24.
#[global] Instance mono32 : Monotone_exp fexp32 := FLT_exp_monotone (-149) 24.
#[global] Instance validrnd : Valid_rnd ZnearestE := valid_rnd_N _.

Lemma big_pos : 0 < big. Proof. apply bpow_gt_0. Qed.

(** ** Representable numbers *)

Lemma repr_val (x : f32) : repr (val x).
Proof. unfold repr, val. apply (Binary.generic_format_B2R 24 128). Qed.

Lemma val_lt_big (x : f32) : Rabs (val x) < big.
Proof. apply (Binary.abs_B2R_lt_emax 24 128). Qed.

Lemma repr_0 : repr 0. Proof. apply generic_format_0. Qed.
Lemma repr_opp x : repr x -> repr (- x). Proof. apply generic_format_opp. Qed.

Lemma repr_dy (m e : Z) : (Z.abs m <= 2 ^ 24)%Z -> (-149 <= e)%Z -> repr (IZR m * pow2 e).
Proof.
  intros Hm He.
  destruct (Z.eq_dec (Z.abs m) (2 ^ 24)) as [Hb|Hb].
  - assert (Hm' : IZR m * pow2 e = pow2 (24 + e) \/ IZR m * pow2 e = - pow2 (24 + e)).
    { rewrite bpow_plus. change (pow2 24) with (IZR (2 ^ 24)).
      destruct (Z.abs_eq_or_opp m) as [E|E]; rewrite Hb in E.
      - left. now rewrite <- E.
      - right. replace m with (- (2 ^ 24))%Z by lia. rewrite opp_IZR. ring. }
    assert (G : repr (pow2 (24 + e))).
    { apply generic_format_bpow. unfold FLT_exp. lia. }
    destruct Hm' as [-> | ->]; [exact G | now apply repr_opp].
  - apply generic_format_FLT. exists (Float radix2 m e); simpl; try lia.
    + reflexivity.
Qed.

Lemma repr_int (m : Z) : (Z.abs m <= 2 ^ 24)%Z -> repr (IZR m).
Proof.
  intros H. replace (IZR m) with (IZR m * pow2 0) by (simpl; ring).
  apply repr_dy; lia.
Qed.

Lemma repr_bpow e : (-149 <= e)%Z -> repr (pow2 e).
Proof.
  intros H. replace (pow2 e) with (IZR 1 * pow2 e) by ring.
  apply repr_dy; lia.
Qed.

(** ** Rounding *)

Lemma rnd_repr x : repr x -> rnd x = x.
Proof. intros H. apply round_generic; [apply validrnd | exact H]. Qed.
Lemma repr_rnd x : repr (rnd x).
Proof. apply generic_format_round; typeclasses eauto. Qed.
Lemma rnd_le x y : x <= y -> rnd x <= rnd y.
Proof. apply round_le; typeclasses eauto. Qed.
Lemma rnd_opp x : rnd (- x) = - rnd x.
Proof. apply round_NE_opp. Qed.
Lemma rnd_0 : rnd 0 = 0.
Proof. apply round_0; typeclasses eauto. Qed.
Lemma rnd_le_repr x y : repr y -> x <= y -> rnd x <= y.
Proof. intros Hy H. rewrite <- (rnd_repr y Hy). now apply rnd_le. Qed.
Lemma rnd_ge_repr x y : repr x -> x <= y -> x <= rnd y.
Proof. intros Hy H. rewrite <- (rnd_repr x Hy). now apply rnd_le. Qed.
Lemma rnd_abs_le x M : repr M -> Rabs x <= M -> Rabs (rnd x) <= M.
Proof.
  intros HM H. apply Rabs_le_inv in H. apply Rabs_le.
  split.
  - apply rnd_ge_repr; [now apply repr_opp | lra].
  - now apply rnd_le_repr.
Qed.
Lemma rnd_pos x : 0 <= x -> 0 <= rnd x.
Proof. intros H. apply rnd_ge_repr; [apply repr_0 | exact H]. Qed.
Lemma rnd_neg x : x <= 0 -> rnd x <= 0.
Proof. intros H. apply rnd_le_repr; [apply repr_0 | exact H]. Qed.

(** Absolute rounding error: half an ulp of any power of two above |x|. *)
Lemma rnd_err_bpow x e : (-149 <= e - 24)%Z -> Rabs x <= pow2 e -> Rabs (rnd x - x) <= pow2 (e - 25).
Proof.
  intros He Hx.
  assert (Hgen : forall y, Rabs y < pow2 e -> Rabs (rnd y - y) <= pow2 (e - 25)).
  { intros y Hy. destruct (Req_dec y 0) as [->|Hy0].
    { rewrite rnd_0. rewrite Rminus_0_r, Rabs_R0. apply bpow_ge_0. }
    eapply Rle_trans; [apply error_le_half_ulp; typeclasses eauto|].
    rewrite ulp_neq_0 by assumption.
    replace (pow2 (e - 25)) with (/ 2 * pow2 (e - 24)).
    2:{ replace (e - 24)%Z with (e - 25 + 1)%Z by lia. rewrite bpow_plus. simpl. lra. }
    apply Rmult_le_compat_l; [lra|].
    apply bpow_le. unfold cexp, FLT_exp.
    assert (mag radix2 y <= e)%Z by now apply mag_le_bpow. lia. }
  destruct (Rle_lt_or_eq_dec _ _ Hx) as [H|H]; [now apply Hgen|].
  assert (repr x).
  { assert (E : x = pow2 e \/ x = - pow2 e).
    { unfold Rabs in H. destruct (Rcase_abs x); lra. }
    destruct E as [-> | ->]; [|apply repr_opp]; apply repr_bpow; lia. }
  rewrite rnd_repr by assumption. unfold Rminus. rewrite Rplus_opp_r, Rabs_R0. apply bpow_ge_0.
Qed.

(** Relative error plus underflow term. *)
Lemma rnd_err x : Rabs (rnd x - x) <= pow2 (-24) * Rabs x + pow2 (-150).
Proof.
  destruct (Rle_or_lt (pow2 (-126)) (Rabs x)) as [H|H].
  - pose proof (relative_error_N_FLT radix2 (-149) 24 ltac:(lia) (fun z => negb (Z.even z)) x) as E.
    assert (E' := E H). clear E.
    change (rnd x) with (round radix2 fexp32 (Znearest (fun z => negb (Z.even z))) x).
    eapply Rle_trans; [exact E'|].
    change (- (24) + 1)%Z with (-24 + 1)%Z. replace (/ 2 * pow2 (-24 + 1)) with (pow2 (-24)).
    2:{ rewrite (bpow_plus radix2 (-24) 1). change (pow2 1) with 2. field. }
    pose proof (bpow_gt_0 radix2 (-150)) as P. set (u := pow2 (-24) * Rabs x). set (v := pow2 (-150)) in *. clearbody u v. lra.
  - pose proof (rnd_err_bpow x (-125)%Z ltac:(lia)) as E.
    assert (Rabs x <= pow2 (-125)).
    { apply Rlt_le. eapply Rlt_trans; [exact H|]. apply bpow_lt. lia. }
    specialize (E H0). change (-125 - 25)%Z with (-150)%Z in E.
    pose proof (bpow_ge_0 radix2 (-24)). pose proof (Rabs_pos x). nra.
Qed.

(** ** Operations as roundings *)

Section Ops.
Context {NP : NanPolicy}.

Lemma fadd_spec x y : fin x = true -> fin y = true ->
  Rabs (rnd (val x + val y)) < big ->
  fin (fadd x y) = true /\ val (fadd x y) = rnd (val x + val y).
Proof.
  intros Hx Hy Hb.
  pose proof (Binary.Bplus_correct 24 128 prec_pos prec_emax (nan_result OpAdd) mode_NE x y Hx Hy) as H.
  change (round radix2 _ _ _) with (rnd (val x + val y)) in H.
  rewrite Rlt_bool_true in H by exact Hb. split; [apply H|]. apply H.
Qed.

Lemma fsub_spec x y : fin x = true -> fin y = true ->
  Rabs (rnd (val x - val y)) < big ->
  fin (fsub x y) = true /\ val (fsub x y) = rnd (val x - val y).
Proof.
  intros Hx Hy Hb.
  pose proof (Binary.Bminus_correct 24 128 prec_pos prec_emax (nan_result OpSub) mode_NE x y Hx Hy) as H.
  change (round radix2 _ _ _) with (rnd (val x - val y)) in H.
  rewrite Rlt_bool_true in H by exact Hb. split; [apply H|]. apply H.
Qed.

Lemma fmul_spec x y : fin x = true -> fin y = true ->
  Rabs (rnd (val x * val y)) < big ->
  fin (fmul x y) = true /\ val (fmul x y) = rnd (val x * val y).
Proof.
  intros Hx Hy Hb.
  pose proof (Binary.Bmult_correct 24 128 prec_pos prec_emax (nan_result OpMul) mode_NE x y) as H.
  change (round radix2 _ _ _) with (rnd (val x * val y)) in H.
  rewrite Rlt_bool_true in H by exact Hb. destruct H as (H1 & H2 & _).
  split; [|exact H1]. unfold fin in *. unfold fmul. rewrite H2, Hx, Hy. reflexivity.
Qed.

Lemma fdiv_spec x y : fin x = true -> val y <> 0 ->
  Rabs (rnd (val x / val y)) < big ->
  fin (fdiv x y) = true /\ val (fdiv x y) = rnd (val x / val y).
Proof.
  intros Hx Hy Hb.
  pose proof (Binary.Bdiv_correct 24 128 prec_pos prec_emax (nan_result OpDiv) mode_NE x y Hy) as H.
  change (round radix2 _ _ _) with (rnd (val x / val y)) in H.
  rewrite Rlt_bool_true in H by exact Hb. destruct H as (H1 & H2 & _).
  split; [|exact H1]. unfold fin in *. unfold fdiv. rewrite H2. exact Hx.
Qed.

(** Versions with a representable bound on the exact result. *)
Lemma fadd_bnd x y M : fin x = true -> fin y = true -> repr M -> M < big ->
  Rabs (val x + val y) <= M ->
  fin (fadd x y) = true /\ val (fadd x y) = rnd (val x + val y) /\ Rabs (val (fadd x y)) <= M.
Proof.
  intros Hx Hy HM Hb H. pose proof (rnd_abs_le _ _ HM H) as Hr.
  destruct (fadd_spec x y Hx Hy) as [F V]; [lra|]. rewrite V. auto.
Qed.
Lemma fsub_bnd x y M : fin x = true -> fin y = true -> repr M -> M < big ->
  Rabs (val x - val y) <= M ->
  fin (fsub x y) = true /\ val (fsub x y) = rnd (val x - val y) /\ Rabs (val (fsub x y)) <= M.
Proof.
  intros Hx Hy HM Hb H. pose proof (rnd_abs_le _ _ HM H) as Hr.
  destruct (fsub_spec x y Hx Hy) as [F V]; [lra|]. rewrite V. auto.
Qed.
Lemma fmul_bnd x y M : fin x = true -> fin y = true -> repr M -> M < big ->
  Rabs (val x * val y) <= M ->
  fin (fmul x y) = true /\ val (fmul x y) = rnd (val x * val y) /\ Rabs (val (fmul x y)) <= M.
Proof.
  intros Hx Hy HM Hb H. pose proof (rnd_abs_le _ _ HM H) as Hr.
  destruct (fmul_spec x y Hx Hy) as [F V]; [lra|]. rewrite V. auto.
Qed.
Lemma fdiv_bnd x y M : fin x = true -> val y <> 0 -> repr M -> M < big ->
  Rabs (val x / val y) <= M ->
  fin (fdiv x y) = true /\ val (fdiv x y) = rnd (val x / val y) /\ Rabs (val (fdiv x y)) <= M.
Proof.
  intros Hx Hy HM Hb H. pose proof (rnd_abs_le _ _ HM H) as Hr.
  destruct (fdiv_spec x y Hx Hy) as [F V]; [lra|]. rewrite V. auto.
Qed.

(** NaN propagation. *)
Lemma isnan_BSN2B n x : isnan (Binary.BSN2B 24 128 n x) = BinarySingleNaN.is_nan x.
Proof. unfold isnan. apply Binary.is_nan_BSN2B. Qed.
Lemma fadd_nan x y : isnan x = true \/ isnan y = true -> isnan (fadd x y) = true.
Proof.
  intros H. unfold fadd, Binary.Bplus. rewrite isnan_BSN2B.
  destruct x, y; destruct H as [H|H]; try discriminate H; reflexivity.
Qed.
Lemma fsub_nan x y : isnan x = true \/ isnan y = true -> isnan (fsub x y) = true.
Proof.
  intros H. unfold fsub, Binary.Bminus. rewrite isnan_BSN2B.
  destruct x, y; destruct H as [H|H]; try discriminate H; reflexivity.
Qed.
Lemma fmul_nan x y : isnan x = true \/ isnan y = true -> isnan (fmul x y) = true.
Proof.
  intros H. unfold fmul, Binary.Bmult. rewrite isnan_BSN2B.
  destruct x, y; destruct H as [H|H]; try discriminate H; reflexivity.
Qed.
Lemma fdiv_nan x y : isnan x = true \/ isnan y = true -> isnan (fdiv x y) = true.
Proof.
  intros H. unfold fdiv, Binary.Bdiv. rewrite isnan_BSN2B.
  destruct x, y; destruct H as [H|H]; try discriminate H; reflexivity.
Qed.
End Ops.

Lemma fin_notnan x : fin x = true -> isnan x = false.
Proof. destruct x; auto; discriminate. Qed.
Lemma fin_notinf x : fin x = true -> isinf x = false.
Proof. destruct x; auto; discriminate. Qed.
Lemma not_nan_cases x : isnan x = false -> fin x = true \/ x = f_inf \/ x = Binary.B754_infinity _ _ true.
Proof. destruct x as [s|s|s pl H|s m e H]; try (now left); try discriminate. destruct s; auto. Qed.

Lemma val_fneg x : val (fneg x) = - val x.
Proof.
  destruct x as [s|s|s pl H|s m e H]; unfold val; simpl; try lra.
  rewrite <- F2R_Zopp. now destruct s.
Qed.
Lemma fin_fneg x : fin (fneg x) = fin x. Proof. now destruct x. Qed.
Lemma isnan_fneg x : isnan (fneg x) = isnan x. Proof. now destruct x. Qed.
Lemma fneg_invol x : fneg (fneg x) = x.
Proof. destruct x; simpl; now rewrite negb_involutive. Qed.
Lemma val_fabs x : val (fabs x) = Rabs (val x).
Proof.
  destruct x as [s|s|s pl H|s m e H]; unfold val; simpl; try (now rewrite Rabs_R0).
  rewrite <- F2R_Zabs. now destruct s.
Qed.
Lemma fin_fabs x : fin (fabs x) = fin x. Proof. now destruct x. Qed.

(** ** Literals *)

Lemma F2R_dy m e : F2R (Float radix2 m e) = IZR m * pow2 e.
Proof. reflexivity. Qed.

Lemma lit_spec m e : Rabs (rnd (IZR m * pow2 e)) < big ->
  fin (lit m e) = true /\ val (lit m e) = rnd (IZR m * pow2 e).
Proof.
  intros Hb.
  pose proof (Binary.binary_normalize_correct 24 128 prec_pos prec_emax mode_NE m e false) as H.
  rewrite F2R_dy in H.
  change (round radix2 _ _ _) with (rnd (IZR m * pow2 e)) in H.
  rewrite Rlt_bool_true in H by exact Hb. split; [apply H|]. apply H.
Qed.

Lemma dy_lt_big m e : (Z.abs m < 2 ^ 24)%Z -> (e <= 104)%Z -> Rabs (IZR m * pow2 e) < big.
Proof.
  intros Hm He. rewrite Rabs_mult, (Rabs_pos_eq (pow2 e)) by apply bpow_ge_0.
  rewrite <- abs_IZR. unfold big.
  apply Rlt_le_trans with (IZR (2 ^ 24) * pow2 e).
  - apply Rmult_lt_compat_r; [apply bpow_gt_0|]. now apply IZR_lt.
  - change (IZR (2 ^ 24)) with (pow2 24). rewrite <- bpow_plus. apply bpow_le. lia.
Qed.

Lemma lit_exact m e : (Z.abs m < 2 ^ 24)%Z -> (-149 <= e <= 104)%Z ->
  fin (lit m e) = true /\ val (lit m e) = IZR m * pow2 e.
Proof.
  intros Hm He.
  assert (R : repr (IZR m * pow2 e)) by (apply repr_dy; lia).
  destruct (lit_spec m e) as [F V].
  { rewrite rnd_repr by exact R. apply dy_lt_big; lia. }
  split; [exact F|]. now rewrite V, rnd_repr.
Qed.

Lemma of_int_spec z : (Z.abs z < 2 ^ 127)%Z ->
  fin (of_int z) = true /\ val (of_int z) = rnd (IZR z).
Proof.
  intros Hz. unfold of_int.
  assert (E : IZR z * pow2 0 = IZR z) by (simpl; ring).
  rewrite <- E. apply lit_spec. rewrite E.
  assert (A : Rabs (IZR z) <= pow2 127).
  { rewrite <- abs_IZR. change (pow2 127) with (IZR (2 ^ 127)). apply IZR_le. lia. }
  eapply Rle_lt_trans; [apply rnd_abs_le with (M := pow2 127); [apply repr_bpow; lia | exact A]|].
  apply bpow_lt. lia.
Qed.

Lemma of_int_exact z : (Z.abs z <= 2 ^ 24)%Z ->
  fin (of_int z) = true /\ val (of_int z) = IZR z.
Proof.
  intros Hz. destruct (of_int_spec z) as [F V]; [lia|].
  split; [exact F|]. rewrite V. apply rnd_repr. now apply repr_int.
Qed.

Lemma fin_of_int z : (Z.abs z < 2 ^ 127)%Z -> fin (of_int z) = true.
Proof. intros H. now apply of_int_spec. Qed.

Lemma of_int_le a b : (Z.abs a < 2 ^ 127)%Z -> (Z.abs b < 2 ^ 127)%Z -> (a <= b)%Z ->
  val (of_int a) <= val (of_int b).
Proof.
  intros Ha Hb H. rewrite (proj2 (of_int_spec a Ha)), (proj2 (of_int_spec b Hb)).
  apply rnd_le. now apply IZR_le.
Qed.

(** ** Comparisons *)

(** Extended value: infinities at +-2^128, just above every finite float. *)
Definition ext (x : f32) : R :=
  match x with
  | Binary.B754_infinity _ _ s => if s then - big else big
  | _ => val x
  end.

Lemma ext_fin x : fin x = true -> ext x = val x.
Proof. destruct x; auto; discriminate. Qed.
Lemma ext_bounds x : - big <= ext x <= big.
Proof.
  destruct x as [s|s|s pl H|s m e H]; unfold ext; pose proof big_pos.
  - unfold val; simpl; lra.
  - destruct s; lra.
  - unfold val; simpl; lra.
  - set (y := Binary.B754_finite 24 128 s m e H). pose proof (val_lt_big y) as V.
    apply Rabs_lt_inv in V. lra.
Qed.

Lemma fcmp_ext x y : isnan x = false -> isnan y = false -> fcmp x y = Some (Rcompare (ext x) (ext y)).
Proof.
  intros Nx Ny.
  destruct (not_nan_cases x Nx) as [Fx|Ix]; destruct (not_nan_cases y Ny) as [Fy|Iy].
  - rewrite !ext_fin by assumption. now apply Binary.Bcompare_correct.
  - rewrite (ext_fin x Fx). pose proof (val_lt_big x) as V. apply Rabs_lt_inv in V.
    destruct Iy as [-> | ->]; simpl ext.
    + rewrite Rcompare_Lt by lra. destruct x as [s|s|s pl H|s m e H]; try discriminate Fx; reflexivity.
    + rewrite Rcompare_Gt by lra. destruct x as [s|s|s pl H|s m e H]; try discriminate Fx; reflexivity.
  - rewrite (ext_fin y Fy). pose proof (val_lt_big y) as V. apply Rabs_lt_inv in V.
    destruct Ix as [-> | ->]; simpl ext.
    + rewrite Rcompare_Gt by lra. destruct y as [s|s|s pl H|s m e H]; try discriminate Fy; reflexivity.
    + rewrite Rcompare_Lt by lra. destruct y as [s|s|s pl H|s m e H]; try discriminate Fy; reflexivity.
  - pose proof big_pos. destruct Ix as [-> | ->]; destruct Iy as [-> | ->]; simpl ext.
    + now rewrite Rcompare_Eq.
    + now rewrite Rcompare_Gt by lra.
    + now rewrite Rcompare_Lt by lra.
    + now rewrite Rcompare_Eq.
Qed.

Lemma fcmp_nan x y : isnan x = true \/ isnan y = true -> fcmp x y = None.
Proof.
  intros H. unfold fcmp, Binary.Bcompare, BinarySingleNaN.Bcompare.
  destruct x, y; destruct H as [H|H]; try discriminate H; try reflexivity;
   destruct s; reflexivity.
Qed.
Lemma flt_nan x y : isnan x = true \/ isnan y = true -> flt x y = false.
Proof. intros H. unfold flt. now rewrite fcmp_nan. Qed.
Lemma fle_nan x y : isnan x = true \/ isnan y = true -> fle x y = false.
Proof. intros H. unfold fle. now rewrite fcmp_nan. Qed.
Lemma feq_nan x y : isnan x = true \/ isnan y = true -> feq x y = false.
Proof. intros H. unfold feq. now rewrite fcmp_nan. Qed.

Lemma flt_ext x y : isnan x = false -> isnan y = false -> flt x y = Rlt_bool (ext x) (ext y).
Proof. intros. unfold flt. rewrite fcmp_ext by assumption. unfold Rlt_bool. now destruct Rcompare. Qed.
Lemma fle_ext x y : isnan x = false -> isnan y = false -> fle x y = Rle_bool (ext x) (ext y).
Proof.
  intros. unfold fle. rewrite fcmp_ext by assumption. unfold Rle_bool.
  rewrite Rcompare_sym. now destruct Rcompare.
Qed.
Lemma feq_ext x y : isnan x = false -> isnan y = false -> feq x y = Req_bool (ext x) (ext y).
Proof. intros. unfold feq. rewrite fcmp_ext by assumption. unfold Req_bool. now destruct Rcompare. Qed.

Lemma flt_fin x y : fin x = true -> fin y = true -> flt x y = Rlt_bool (val x) (val y).
Proof. intros. rewrite flt_ext, !ext_fin by auto using fin_notnan. reflexivity. Qed.
Lemma fle_fin x y : fin x = true -> fin y = true -> fle x y = Rle_bool (val x) (val y).
Proof. intros. rewrite fle_ext, !ext_fin by auto using fin_notnan. reflexivity. Qed.
Lemma feq_fin x y : fin x = true -> fin y = true -> feq x y = Req_bool (val x) (val y).
Proof. intros. rewrite feq_ext, !ext_fin by auto using fin_notnan. reflexivity. Qed.

(** Inversion: a true comparison excludes NaN. *)
Lemma flt_true x y : flt x y = true -> isnan x = false /\ isnan y = false /\ ext x < ext y.
Proof.
  intros H.
  destruct (isnan x) eqn:Nx; [rewrite flt_nan in H by auto; discriminate|].
  destruct (isnan y) eqn:Ny; [rewrite flt_nan in H by auto; discriminate|].
  rewrite flt_ext in H by assumption. repeat split; auto.
  revert H. case Rlt_bool_spec; auto; discriminate.
Qed.
Lemma fle_true x y : fle x y = true -> isnan x = false /\ isnan y = false /\ ext x <= ext y.
Proof.
  intros H.
  destruct (isnan x) eqn:Nx; [rewrite fle_nan in H by auto; discriminate|].
  destruct (isnan y) eqn:Ny; [rewrite fle_nan in H by auto; discriminate|].
  rewrite fle_ext in H by assumption. repeat split; auto.
  revert H. case Rle_bool_spec; auto; discriminate.
Qed.
Lemma feq_true x y : feq x y = true -> isnan x = false /\ isnan y = false /\ ext x = ext y.
Proof.
  intros H.
  destruct (isnan x) eqn:Nx; [rewrite feq_nan in H by auto; discriminate|].
  destruct (isnan y) eqn:Ny; [rewrite feq_nan in H by auto; discriminate|].
  rewrite feq_ext in H by assumption. repeat split; auto.
  revert H. case Req_bool_spec; auto; discriminate.
Qed.
Lemma flt_false x y : isnan x = false -> isnan y = false -> flt x y = false -> ext y <= ext x.
Proof. intros Nx Ny. rewrite flt_ext by assumption. case Rlt_bool_spec; auto; discriminate. Qed.
Lemma fle_false x y : isnan x = false -> isnan y = false -> fle x y = false -> ext y < ext x.
Proof. intros Nx Ny. rewrite fle_ext by assumption. case Rle_bool_spec; auto; discriminate. Qed.

Lemma flt_true_fin x y : fin x = true -> fin y = true -> flt x y = true <-> val x < val y.
Proof. intros. rewrite flt_fin by assumption. case Rlt_bool_spec; split; intros; auto; try discriminate; lra. Qed.
Lemma fle_true_fin x y : fin x = true -> fin y = true -> fle x y = true <-> val x <= val y.
Proof. intros. rewrite fle_fin by assumption. case Rle_bool_spec; split; intros; auto; try discriminate; lra. Qed.
Lemma feq_true_fin x y : fin x = true -> fin y = true -> feq x y = true <-> val x = val y.
Proof. intros. rewrite feq_fin by assumption. case Req_bool_spec; split; intros; auto; try discriminate; lra. Qed.

(** Being between two finite bounds forces finiteness. *)
Lemma ext_fin_of_bounds x : isnan x = false -> - big < ext x < big -> fin x = true.
Proof.
  intros N H. destruct (not_nan_cases x N) as [F|[-> | ->]]; auto; simpl in H; lra.
Qed.

(** Equality of floats with equal non-zero real value. *)
Lemma val_inj x y : fin x = true -> fin y = true -> val x = val y -> val x <> 0 -> x = y.
Proof.
  intros Fx Fy E N. apply (Binary.B2R_inj 24 128); auto.
  - destruct x as [s|s|s pl H|s m e H]; try discriminate Fx; auto; now elim N.
  - rewrite E in N. destruct y as [s|s|s pl H|s m e H]; try discriminate Fy; auto; now elim N.
Qed.
Lemma val_sgn_inj x y : fin x = true -> fin y = true -> val x = val y -> sgn x = sgn y -> x = y.
Proof. intros. now apply (Binary.B2R_Bsign_inj 24 128). Qed.
Lemma sgn_neg_val x : fin x = true -> val x < 0 -> sgn x = true.
Proof.
  destruct x as [s|s|s pl H|s m e H]; unfold val, sgn; simpl; intros F V; try lra; try discriminate.
  destruct s; auto. exfalso. simpl in V. rewrite F2R_dy in V.
  pose proof (bpow_gt_0 radix2 e). assert (0 < IZR (Zpos m)) by now apply IZR_lt. nra.
Qed.
Lemma sgn_pos_val x : fin x = true -> 0 < val x -> sgn x = false.
Proof.
  destruct x as [s|s|s pl H|s m e H]; unfold val, sgn; simpl; intros F V; try lra; try discriminate.
  destruct s; auto. exfalso. simpl in V. rewrite F2R_dy in V.
  pose proof (bpow_gt_0 radix2 e). assert (IZR (Zneg m) < 0) by now apply IZR_lt. nra.
Qed.
Lemma sgn_val_le x : sgn x = true -> val x <= 0.
Proof.
  destruct x as [s|s|s pl H|s m e H]; unfold val, sgn; simpl; intros ->; try lra.
  simpl. rewrite F2R_dy. pose proof (bpow_gt_0 radix2 e). assert (IZR (Zneg m) < 0) by now apply IZR_lt. nra.
Qed.
Lemma sgn_val_ge x : sgn x = false -> 0 <= val x.
Proof.
  destruct x as [s|s|s pl H|s m e H]; unfold val, sgn; simpl; intros ->; try lra.
  simpl. rewrite F2R_dy. pose proof (bpow_gt_0 radix2 e). assert (0 < IZR (Zpos m)) by now apply IZR_lt. nra.
Qed.

(** ** Casts to integers *)

Lemma to_int_fin lo hi x : fin x = true -> to_int lo hi x = Z.max lo (Z.min hi (Ztrunc (val x))).
Proof.
  intros F. assert (E : Binary.Btrunc 24 128 x = Ztrunc (val x)).
  { apply eq_IZR. rewrite (Binary.Btrunc_correct 24 128 prec_emax). unfold val.
    unfold round, F2R, scaled_mantissa, cexp, FIX_exp. simpl.
    now rewrite !Rmult_1_r. }
  destruct x; try discriminate F; unfold to_int; now rewrite E.
Qed.
Lemma to_int_range lo hi x : (lo <= 0 <= hi)%Z -> (lo <= to_int lo hi x <= hi)%Z.
Proof. intros H. destruct x as [s|s|s pl Hp|s m e Hp]; unfold to_int; try lia. destruct s; lia. Qed.

(** ** Deciding equality of concrete floats through their bit patterns *)
Lemma bits_inj x y : to_bits x = to_bits y -> x = y.
Proof.
  intros H. unfold to_bits in H.
  rewrite <- (binary_float_of_bits_of_binary_float 23 8 eq_refl eq_refl eq_refl x).
  rewrite <- (binary_float_of_bits_of_binary_float 23 8 eq_refl eq_refl eq_refl y).
  unfold bits_of_b32 in H. now rewrite H.
Qed.
