(** * Range lemmas for f32 operations, and the remainder. *)

From Coq Require Import ZArith Reals Lra Lia Psatz Bool.
From Flocq Require Import Core BinarySingleNaN Binary Bits.
From Verif Require Import Base F32 F32Lemmas F32Exact.
Local Open Scope R_scope.

(** Finite, with a value between the bounds. *)
Definition within (x : f32) (lo hi : R) : Prop := fin x = true /\ lo <= val x <= hi.

Lemma repr_between r lo hi : repr lo -> repr hi -> lo <= r <= hi -> lo <= rnd r <= hi.
Proof. intros H1 H2 H. split; [apply rnd_ge_repr|apply rnd_le_repr]; tauto. Qed.

Lemma rnd_fits r lo hi : repr lo -> repr hi -> - big < lo -> hi < big -> lo <= r <= hi -> Rabs (rnd r) < big.
Proof.
  intros H1 H2 L U H. pose proof (repr_between r lo hi H1 H2 H). apply Rabs_lt. lra.
Qed.

Lemma trunc_between (a b : Z) (y : R) : IZR a <= y <= IZR b -> (a <= Ztrunc y <= b)%Z.
Proof.
  intros H. pose proof (Ztrunc_IZR a) as Ea. pose proof (Ztrunc_IZR b) as Eb.
  split; [rewrite <- Ea|rewrite <- Eb]; apply Ztrunc_le; tauto.
Qed.

Section Ops.
Context {NP : NanPolicy}.
Lemma add_within x y lo hi : fin x = true -> fin y = true -> repr lo -> repr hi -> - big < lo -> hi < big ->
  lo <= val x + val y <= hi -> within (fadd x y) lo hi /\ val (fadd x y) = rnd (val x + val y).
Proof.
  intros Fx Fy H1 H2 L U H. destruct (fadd_spec x y Fx Fy (rnd_fits _ lo hi H1 H2 L U H)) as [F V].
  split; [split; [exact F|]|exact V]. rewrite V. now apply repr_between.
Qed.
Lemma sub_within x y lo hi : fin x = true -> fin y = true -> repr lo -> repr hi -> - big < lo -> hi < big ->
  lo <= val x - val y <= hi -> within (fsub x y) lo hi /\ val (fsub x y) = rnd (val x - val y).
Proof.
  intros Fx Fy H1 H2 L U H. destruct (fsub_spec x y Fx Fy (rnd_fits _ lo hi H1 H2 L U H)) as [F V].
  split; [split; [exact F|]|exact V]. rewrite V. now apply repr_between.
Qed.
Lemma mul_within x y lo hi : fin x = true -> fin y = true -> repr lo -> repr hi -> - big < lo -> hi < big ->
  lo <= val x * val y <= hi -> within (fmul x y) lo hi /\ val (fmul x y) = rnd (val x * val y).
Proof.
  intros Fx Fy H1 H2 L U H. destruct (fmul_spec x y Fx Fy (rnd_fits _ lo hi H1 H2 L U H)) as [F V].
  split; [split; [exact F|]|exact V]. rewrite V. now apply repr_between.
Qed.
Lemma div_within x y lo hi : fin x = true -> val y <> 0 -> repr lo -> repr hi -> - big < lo -> hi < big ->
  lo <= val x / val y <= hi -> within (fdiv x y) lo hi /\ val (fdiv x y) = rnd (val x / val y).
Proof.
  intros Fx Ny H1 H2 L U H. destruct (fdiv_spec x y Fx Ny (rnd_fits _ lo hi H1 H2 L U H)) as [F V].
  split; [split; [exact F|]|exact V]. rewrite V. now apply repr_between.
Qed.

(** The remainder of two finite numbers is exact. *)
Lemma frem_spec x y : fin x = true -> fin y = true -> val y <> 0 ->
  fin (frem x y) = true /\ Rabs (val (frem x y)) < Rabs (val y) /\
  (exists k : Z, val x = IZR k * val y + val (frem x y)) /\
  (0 <= val x -> 0 <= val (frem x y)) /\ (val x <= 0 -> val (frem x y) <= 0).
Proof.
  intros Fx Fy Ny. destruct x as [sx|sx|sx px Hx|sx mx ex Hx]; try discriminate Fx.
  - destruct y as [sy|sy|sy py Hy|sy my ey Hy]; try discriminate Fy; [now elim Ny|].
    cbn [frem]. split; [reflexivity|].
    assert (V0 : val (Binary.B754_zero 24 128 sx) = 0) by reflexivity. rewrite V0, Rabs_R0.
    split; [now apply Rabs_pos_lt|]. split; [exists 0%Z; lra|]. split; auto.
  - destruct y as [sy|sy|sy py Hy|sy my ey Hy]; try discriminate Fy; [now elim Ny|].
    cbn [frem]. set (e := Z.min ex ey).
    set (nx := (cond_Zopp sx (Zpos mx) * 2 ^ (ex - e))%Z). set (ny := (Zpos my * 2 ^ (ey - e))%Z).
    assert (Bx : (Zpos mx < 2 ^ 24)%Z /\ (-149 <= ex)%Z).
    { clear - Hx. unfold bounded in Hx. apply andb_true_iff in Hx. destruct Hx as [Hx _].
      apply canonical_canonical_mantissa with (sx := false) in Hx.
      unfold canonical, cexp, FLT_exp, SpecFloat.fexp, SpecFloat.emin in Hx. cbn [Fexp Fnum cond_Zopp] in Hx.
      rewrite mag_F2R_Zdigits in Hx by (cbn; lia). cbn in Hx.
      assert (D : (Zdigits radix2 (Zpos mx) <= 24)%Z) by (cbn in *; lia).
      split; [|cbn in *; lia].
      apply Z.lt_le_trans with (Zpower radix2 (Zdigits radix2 (Zpos mx))); [exact (proj2 (Zdigits_correct radix2 (Zpos mx)))|].
      change (2 ^ 24)%Z with (Zpower radix2 24). apply Zpower_le. exact D. }
    assert (By : (Zpos my < 2 ^ 24)%Z /\ (-149 <= ey)%Z).
    { clear - Hy. unfold bounded in Hy. apply andb_true_iff in Hy. destruct Hy as [Hy _].
      apply canonical_canonical_mantissa with (sx := false) in Hy.
      unfold canonical, cexp, FLT_exp, SpecFloat.fexp, SpecFloat.emin in Hy. cbn [Fexp Fnum cond_Zopp] in Hy.
      rewrite mag_F2R_Zdigits in Hy by (cbn; lia). cbn in Hy.
      assert (D : (Zdigits radix2 (Zpos my) <= 24)%Z) by (cbn in *; lia).
      split; [|cbn in *; lia].
      apply Z.lt_le_trans with (Zpower radix2 (Zdigits radix2 (Zpos my))); [exact (proj2 (Zdigits_correct radix2 (Zpos my)))|].
      change (2 ^ 24)%Z with (Zpower radix2 24). apply Zpower_le. exact D. }
    assert (Pny : (0 < ny)%Z) by (unfold ny; apply Z.mul_pos_pos; [lia|apply Z.pow_pos_nonneg; lia]).
    assert (Vx : val (Binary.B754_finite 24 128 sx mx ex Hx) = IZR nx * pow2 e).
    { unfold val. cbn [B2R]. unfold F2R, nx. cbn [Fnum Fexp]. rewrite mult_IZR.
      change (IZR (2 ^ (ex - e))) with (IZR (Zpower radix2 (ex - e))). rewrite IZR_Zpower by lia. rewrite Rmult_assoc, <- bpow_plus.
      now replace (ex - e + e)%Z with ex by lia. }
    assert (Vy : Rabs (val (Binary.B754_finite 24 128 sy my ey Hy)) = IZR ny * pow2 e).
    { unfold val. cbn [B2R]. rewrite <- F2R_Zabs. unfold F2R, ny. cbn [Fnum Fexp].
      replace (Z.abs (cond_Zopp sy (Zpos my))) with (Zpos my) by (destruct sy; reflexivity).
      rewrite mult_IZR. change (IZR (2 ^ (ey - e))) with (IZR (Zpower radix2 (ey - e))). rewrite IZR_Zpower by lia. rewrite Rmult_assoc, <- bpow_plus.
      now replace (ey - e + e)%Z with ey by lia. }
    assert (Hr : (Z.abs (Z.rem nx ny) < ny)%Z).
    { pose proof (Z.rem_bound_abs nx ny ltac:(lia)). lia. }
    assert (Hr2 : (Z.abs (Z.rem nx ny) <= Z.abs nx)%Z).
    { rewrite <- Z.rem_abs by lia. apply Z.rem_le; lia. }
    assert (Hr3 : (Z.abs (Z.rem nx ny) < 2 ^ 24)%Z).
    { unfold e in *. destruct (Z.le_gt_cases ex ey) as [L|L].
      - assert (En : nx = cond_Zopp sx (Zpos mx)).
        { unfold nx. rewrite Z.min_l by lia. rewrite Z.sub_diag. lia. }
        assert (Ea : Z.abs nx = Zpos mx) by (rewrite En; now destruct sx). lia.
      - assert (En : ny = Zpos my).
        { unfold ny. rewrite Z.min_r by lia. rewrite Z.sub_diag. lia. }
        lia. }
    assert (Re : repr (IZR (Z.rem nx ny) * pow2 e)) by (apply repr_dy; unfold e; lia).
    assert (Lt : Rabs (IZR (Z.rem nx ny) * pow2 e) < IZR ny * pow2 e).
    { rewrite Rabs_mult, (Rabs_pos_eq (pow2 e)) by apply bpow_ge_0.
      apply Rmult_lt_compat_r; [apply bpow_gt_0|]. rewrite <- abs_IZR. now apply IZR_lt. }
    assert (Bg : Rabs (IZR (Z.rem nx ny) * pow2 e) < big).
    { apply Rlt_trans with (1 := Lt). rewrite <- Vy. apply val_lt_big. }
    pose proof (Binary.binary_normalize_correct 24 128 prec_pos prec_emax mode_NE (Z.rem nx ny) e sx) as H.
    assert (E1 : round radix2 (SpecFloat.fexp 24 128) (round_mode mode_NE) (F2R (Float radix2 (Z.rem nx ny) e))
                 = IZR (Z.rem nx ny) * pow2 e).
    { apply round_generic; [typeclasses eauto|exact Re]. }
    rewrite E1 in H. rewrite Rlt_bool_true in H by exact Bg. destruct H as (Vr & Fr & _).
    set (r := Binary.binary_normalize 24 128 prec_pos prec_emax mode_NE (Z.rem nx ny) e sx) in *.
    assert (Vr' : val r = IZR (Z.rem nx ny) * pow2 e) by exact Vr.
    pose proof (bpow_gt_0 radix2 e) as Pe.
    split; [exact Fr|]. split; [rewrite Vr', Vy; exact Lt|]. split; [|split].
    + pose proof (Z.quot_rem' nx ny) as Q.
      assert (Sy : exists s : Z, IZR ny * pow2 e = IZR s * val (Binary.B754_finite 24 128 sy my ey Hy)).
      { rewrite <- Vy. destruct (Rle_lt_dec 0 (val (Binary.B754_finite 24 128 sy my ey Hy))) as [L|L].
        - exists 1%Z. rewrite Rabs_pos_eq by exact L. lra.
        - exists (-1)%Z. rewrite Rabs_left by exact L. lra. }
      destruct Sy as [s Sy]. exists (Z.quot nx ny * s)%Z.
      rewrite Vx, Vr', Q at 1. rewrite plus_IZR, !mult_IZR, Rmult_plus_distr_r. f_equal.
      rewrite (Rmult_comm (IZR ny)), Rmult_assoc, Sy. ring.
    + rewrite Vx, Vr'. intros H0. assert (Hn : (0 <= nx)%Z).
      { apply le_IZR. apply Rmult_le_reg_r with (pow2 e); [exact Pe|]. lra. }
      apply Rmult_le_pos; [apply (IZR_le 0), Z.rem_nonneg; lia|lra].
    + rewrite Vx, Vr'. intros H0. assert (Hn : (nx <= 0)%Z).
      { apply le_IZR. apply Rmult_le_reg_r with (pow2 e); [exact Pe|]. lra. }
      assert (Hm : IZR (Z.rem nx ny) <= 0) by (apply (IZR_le _ 0), Z.rem_nonpos; lia). nra.
Qed.

Lemma frem_nan x y : fin x = false -> isnan (frem x y) = true.
Proof.
  intros Fx. assert (E : frem x y = proj1_sig (nan_result OpRem x y)).
  { destruct x; try discriminate Fx; destruct y; reflexivity. }
  rewrite E. exact (proj2_sig (nan_result OpRem x y)).
Qed.

(** [rem_euclid] of finite numbers, positive modulus: between 0 and the modulus, and
    congruent to the argument up to one rounding. *)
Lemma frem_euclid_spec x y : fin x = true -> fin y = true -> 0 < val y ->
  within (frem_euclid x y) 0 (val y) /\
  exists (k : Z) (u : R), val x = IZR k * val y + u /\ 0 <= u < val y /\ val (frem_euclid x y) = rnd u /\ (0 <= val x -> rnd u = u).
Proof.
  intros Fx Fy Py. destruct (frem_spec x y Fx Fy ltac:(lra)) as (Fr & Br & [k Ek] & Sp & Sn).
  rewrite (Rabs_pos_eq (val y)) in Br by lra. apply Rabs_lt_inv in Br.
  unfold frem_euclid. destruct (flt (frem x y) f_zero) eqn:L.
  - apply flt_true_fin in L; [|exact Fr|reflexivity]. change (val f_zero) with 0 in L.
    assert (Fa : fin (fabs y) = true) by now rewrite fin_fabs.
    assert (Va : val (fabs y) = val y) by (rewrite val_fabs; apply Rabs_pos_eq; lra).
    pose proof (val_lt_big y) as Bg. rewrite Rabs_pos_eq in Bg by lra.
    destruct (add_within (frem x y) (fabs y) 0 (val y) Fr Fa repr_0 (repr_val y)) as [W V].
    { pose proof big_pos; lra. }
    { exact Bg. }
    { rewrite Va. lra. }
    split; [exact W|]. exists (k - 1)%Z, (val (frem x y) + val y).
    rewrite Va in V. rewrite minus_IZR. repeat split; try lra; try exact V.
  - assert (L' : 0 <= val (frem x y)).
    { apply Rnot_lt_le. intros Hl.
      apply (flt_true_fin (frem x y) f_zero Fr eq_refl) in Hl. congruence. }
    split; [split; [exact Fr|lra]|]. exists k, (val (frem x y)).
    repeat split; try lra.
    + symmetry. apply rnd_repr, repr_val.
    + intros _. apply rnd_repr, repr_val.
Qed.

Lemma frem_euclid_nan x y : fin x = false -> isnan (frem_euclid x y) = true.
Proof.
  intros Fx. pose proof (frem_nan x y Fx) as H. unfold frem_euclid. rewrite flt_nan by auto. exact H.
Qed.
End Ops.
