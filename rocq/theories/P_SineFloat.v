(** * Proofs about the float sine functions: range, totality, table indexing. *)

From Coq Require Import ZArith List Bool Lia Reals Lra Psatz.
From Flocq Require Import Core.
From Verif Require Import Base F32 F32Lemmas F32Exact F32Ints F32Range Num M_Memory P_Lerp P_Interp M_Sine S_Sine P_Sine P_SineAcc.
Import ListNotations.
Local Open Scope R_scope.

Lemma isv_pi : isv f_pi (13176795 / 4194304).
Proof. eapply isv_eq; [apply isv_lit; [reflexivity|lia]|]. cbn. lra. Qed.
Lemma isv_pi4 : isv f_frac_pi_4 (13176795 / 16777216).
Proof. eapply isv_eq; [apply isv_lit; [reflexivity|lia]|]. cbn. lra. Qed.
Lemma isv_pi2 : isv f_frac_pi_2 (13176795 / 8388608).
Proof. eapply isv_eq; [apply isv_lit; [reflexivity|lia]|]. cbn. lra. Qed.

Lemma big_ge : 1000000000 < big.
Proof. unfold big. change (pow2 128) with (IZR (2 ^ 128)). apply IZR_lt. reflexivity. Qed.

Section Float.
Context {NP : NanPolicy}.

Lemma half_fin x : fin x = true -> fin (fdiv x (of_int 2)) = true /\ val (fdiv x (of_int 2)) = rnd (val x / 2) /\
  Rabs (val (fdiv x (of_int 2))) <= Rabs (val x).
Proof.
  intros Fx. destruct (isv_int 2 ltac:(lia)) as [F2 V2].
  destruct (fdiv_bnd x (of_int 2) (Rabs (val x)) Fx) as (F & V & Bd).
  - rewrite V2. lra.
  - apply generic_format_abs, repr_val.
  - apply val_lt_big.
  - rewrite V2. unfold Rdiv. rewrite Rabs_mult, (Rabs_right (/ 2)) by lra. pose proof (Rabs_pos (val x)). lra.
  - rewrite V2 in V. auto.
Qed.

(** The shifted half angle is finite for every finite argument. *)
Lemma shifted_fin x : fin x = true -> fin (fsub (fdiv x (of_int 2)) f_frac_pi_4) = true /\
  val (fsub (fdiv x (of_int 2)) f_frac_pi_4) = rnd (val (fdiv x (of_int 2)) - 13176795 / 16777216).
Proof.
  intros Fx. destruct (half_fin x Fx) as (F & V & Bd). destruct isv_pi4 as [F4 V4].
  rewrite <- V4. apply fsub_spec; auto. rewrite V4.
  (* the half of a finite number is at most half the largest one *)
  assert (H2 : Rabs (val (fdiv x (of_int 2))) <= pow2 127).
  { rewrite V. apply rnd_abs_le; [apply repr_bpow; lia|].
    pose proof (val_lt_big x) as Hb. unfold big in Hb. change (pow2 128) with (pow2 (1 + 127)) in Hb.
    rewrite bpow_plus in Hb. change (pow2 1) with 2 in Hb.
    unfold Rdiv. rewrite Rabs_mult, (Rabs_right (/ 2)) by lra. lra. }
  assert (E : big = 2 * pow2 127) by (unfold big; change (pow2 128) with (pow2 (1 + 127)); rewrite bpow_plus; reflexivity).
  assert (P : 1 <= pow2 126) by (change 1 with (pow2 0); apply bpow_le; lia).
  assert (E2 : pow2 127 = 2 * pow2 126) by (change (pow2 127) with (pow2 (1 + 126)); rewrite bpow_plus; reflexivity).
  apply Rle_lt_trans with (3 * pow2 126).
  - apply rnd_abs_le; [apply (repr_dy 3 126); lia|]. apply Rabs_le_inv in H2. apply Rabs_le. lra.
  - lra.
Qed.

Lemma normalized_range x : fin x = true -> within (normalized_rads x) (-2) 2.
Proof.
  intros Fx. unfold normalized_rads. destruct (shifted_fin x Fx) as [Fs _].
  destruct isv_pi as [Fp Vp]. destruct isv_pi4 as [F4 V4].
  destruct (frem_euclid_spec _ f_pi Fs Fp) as [[Fr Br] _]; [rewrite Vp; lra|]. rewrite Vp in Br.
  pose proof big_ge as Hg.
  destruct (div_within (frem_euclid (fsub (fdiv x (of_int 2)) f_frac_pi_4) f_pi) f_frac_pi_4 0 4) as [[Fd Bd] _]; auto.
  - rewrite V4. lra.
  - apply repr_0.
  - apply (repr_int 4). lia.
  - lra.
  - lra.
  - rewrite V4. lra.
  - destruct (isv_int 2 ltac:(lia)) as [F2 V2].
    apply sub_within; auto; try lra.
    + apply (repr_int (-2)). lia.
    + apply (repr_int 2). lia.
Qed.

Lemma quadrant_range x : fin x = true -> within (fsub (fabs (normalized_rads x)) (of_int 1)) (-1) 1.
Proof.
  intros Fx. destruct (normalized_range x Fx) as [Fn Bn]. destruct (isv_int 1 ltac:(lia)) as [F1 V1].
  pose proof big_ge.
  apply sub_within; auto; try lra.
  - now rewrite fin_fabs.
  - apply (repr_int (-1)). lia.
  - apply (repr_int 1). lia.
  - rewrite val_fabs, V1. pose proof (Rabs_pos (val (normalized_rads x))).
    assert (Rabs (val (normalized_rads x)) <= 2) by (apply Rabs_le; lra). lra.
Qed.

Lemma nan_chain x : fin x = false -> isnan (normalized_rads x) = true.
Proof.
  intros Fx. unfold normalized_rads. apply fsub_nan. left. apply fdiv_nan. left.
  apply frem_euclid_nan.
  assert (Fh : fin (fdiv x (of_int 2)) = false).
  { destruct (fin (fdiv x (of_int 2))) eqn:E; [|reflexivity]. exfalso.
    destruct x as [s|s|s p H|s m e H]; try discriminate Fx.
    - assert (fdiv (Binary.B754_infinity 24 128 s) (of_int 2) = Binary.B754_infinity 24 128 s) by (destruct s; apply bits_inj; vm_compute; reflexivity).
      rewrite H in E. discriminate E.
    - assert (isnan (fdiv (Binary.B754_nan 24 128 s p H) (of_int 2)) = true) by (apply fdiv_nan; left; reflexivity).
      apply fin_notnan in E. congruence. }
  destruct (isnan (fdiv x (of_int 2))) eqn:N.
  - assert (isnan (fsub (fdiv x (of_int 2)) f_frac_pi_4) = true) by (apply fsub_nan; auto).
    destruct (fin (fsub (fdiv x (of_int 2)) f_frac_pi_4)) eqn:E; auto. apply fin_notnan in E. congruence.
  - destruct (not_nan_cases _ N) as [F|[-> | ->]]; [congruence| |]; reflexivity.
Qed.

Context {B : Build}.

(** [fixed_point_sin] is the quantised polynomial at a phase within +-32767. *)
Lemma fixed_point_sin_ok x : exists p : Z,
  (- 32767 <= p <= 32767)%Z /\ (fin x = false -> p = 0%Z) /\
  p = to_i16 (fmul (of_int 32767) (fsub (fabs (normalized_rads x)) (of_int 1))) /\
  fixed_point_sin x = Ret (fdiv (of_int (sin_fixed p 4)) (of_int 32767)).
Proof.
  set (p := to_i16 (fmul (of_int 32767) (fsub (fabs (normalized_rads x)) (of_int 1)))).
  assert (Hp : (- 32767 <= p <= 32767)%Z /\ (fin x = false -> p = 0%Z)).
  { destruct (fin x) eqn:Fx.
    - split; [|discriminate].
      destruct (quadrant_range x Fx) as [Fq Bq]. destruct (isv_int 32767 ltac:(lia)) as [Fi Vi].
      pose proof big_ge.
      destruct (mul_within (of_int 32767) (fsub (fabs (normalized_rads x)) (of_int 1)) (-32767) 32767) as [[Fm Bm] _]; auto; try lra.
      { apply (repr_int (-32767)). lia. }
      { apply (repr_int 32767). lia. }
      { rewrite Vi. lra. }
      unfold p, to_i16. rewrite to_int_fin by exact Fm.
      assert (T : (- 32767 <= Ztrunc (val (fmul (of_int 32767) (fsub (fabs (normalized_rads x)) (of_int 1)))) <= 32767)%Z).
      { apply trunc_between; lra. }
      lia.
    - assert (N : isnan (fmul (of_int 32767) (fsub (fabs (normalized_rads x)) (of_int 1))) = true).
      { apply fmul_nan. right. apply fsub_nan. left. pose proof (nan_chain x Fx) as H.
        revert H. generalize (normalized_rads x). intros [| | |]; auto. }
      assert (E : p = 0%Z).
      { unfold p, to_i16. revert N. generalize (fmul (of_int 32767) (fsub (fabs (normalized_rads x)) (of_int 1))).
        intros [s|s|s pl H|s m e H]; intros N; try discriminate N; reflexivity. }
      rewrite E. split; [lia|auto]. }
  destruct Hp as [H1 H2]. exists p. split; [exact H1|]. split; [exact H2|]. split; [reflexivity|].
  unfold fixed_point_sin. fold p.
  destruct (sin_ok p 4) as [-> _]; [split; lia|lia|]. reflexivity.
Qed.

Lemma div32767 s : (- 32768 <= s <= 32767)%Z ->
  fin (fdiv (of_int s) (of_int 32767)) = true /\ val (fdiv (of_int s) (of_int 32767)) = rnd (IZR s / 32767) /\
  rnd (-32768 / 32767) <= val (fdiv (of_int s) (of_int 32767)) <= rnd (IZR s / 32767).
Proof.
  intros Hs. destruct (isv_int s ltac:(lia)) as [Fs Vs]. destruct (isv_int 32767 ltac:(lia)) as [Fm Vm].
  assert (L : -32768 <= IZR s <= 32767) by (split; apply IZR_le; lia).
  pose proof big_ge.
  destruct (div_within (of_int s) (of_int 32767) (-2) 2) as [[F _] V]; auto; try lra.
  - apply (repr_int (-2)). lia.
  - apply (repr_int 2). lia.
  - rewrite Vs, Vm. lra.
  - rewrite Vs, Vm in V. split; [exact F|]. split; [exact V|]. rewrite V. split; [apply rnd_le; lra|lra].
Qed.

(** ** Accuracy against the real sine *)
Lemma cos_shift_Z (y : R) (k : Z) : cos (y - 2 * IZR k * PI) = cos y.
Proof.
  destruct (Z.le_gt_cases 0 k) as [H|H].
  - rewrite <- (cos_period (y - 2 * IZR k * PI) (Z.to_nat k)). rewrite INR_IZR_INZ, Z2Nat.id by exact H. f_equal. ring.
  - rewrite <- (cos_period y (Z.to_nat (- k))). rewrite INR_IZR_INZ, Z2Nat.id by lia. rewrite opp_IZR. f_equal. ring.
Qed.

(** The folded phase represents an angle with the same sine. *)
Lemma fold_angle (u : R) (k : Z) (c : R) : 0 < c ->
  sin (PI / 2 * (Rabs (u / c - 2) - 1)) = sin (PI / (4 * c) * 2 * (IZR k * (4 * c) + u + c)).
Proof.
  intros Hc.
  assert (E1 : PI / 2 * (Rabs (u / c - 2) - 1) = Rabs (PI / 2 * (u / c - 2)) - PI / 2).
  { rewrite Rabs_mult, (Rabs_right (PI / 2)) by (pose proof PI_RGT_0; lra). ring. }
  rewrite E1.
  assert (E2 : forall w, sin (Rabs w - PI / 2) = - cos w).
  { intros w. rewrite sin_minus, cos_PI2, sin_PI2.
    assert (Ew : cos (Rabs w) = cos w).
    { unfold Rabs. destruct (Rcase_abs w); [apply cos_neg|reflexivity]. }
    rewrite Ew. ring. }
  rewrite E2. replace (PI / 2 * (u / c - 2)) with (PI / (2 * c) * u - PI) by (field; lra).
  assert (E3 : cos (PI / (2 * c) * u - PI) = - cos (PI / (2 * c) * u)).
  { rewrite cos_minus, cos_PI, sin_PI. ring. }
  rewrite E3, Ropp_involutive.
  replace (PI / (4 * c) * 2 * (IZR k * (4 * c) + u + c)) with (PI / 2 + (PI / (2 * c) * u - 2 * IZR (- k) * PI))
    by (rewrite opp_IZR; field; lra).
  rewrite <- (cos_sin (PI / (2 * c) * u - 2 * IZR (- k) * PI)). now rewrite cos_shift_Z.
Qed.

Lemma abs_half y : Rabs (y / 2) = Rabs y / 2.
Proof. unfold Rdiv. rewrite Rabs_mult, (Rabs_right (/ 2)) by lra. reflexivity. Qed.

Lemma tiny_pow : 0 < pow2 (-150) <= 1 / 1000000000000.
Proof.
  split; [apply bpow_gt_0|]. apply Rle_trans with (pow2 (-40)); [apply bpow_le; lia|]. cbn. lra.
Qed.

(** Everything up to the quantisation, as an angle close to the argument. *)
Lemma quadrant_close x : fin x = true -> exists y : R,
  Rabs (y - val x) <= pow2 (-22) * Rabs (val x) + 1 / 1000000 /\
  exists t : R, sin t = sin y /\ Rabs t <= PI / 2 /\
  Rabs (PI / 2 * val (fsub (fabs (normalized_rads x)) (of_int 1)) - t) <= 1 / 1000000.
Proof.
  intros Fx. destruct (shifted_fin x Fx) as [Fs Vs]. destruct (half_fin x Fx) as (Fh & Vh & Bh).
  set (X := val x) in *. set (s := fsub (fdiv x (of_int 2)) f_frac_pi_4) in *. rewrite Vh in Vs.
  destruct isv_pi as [Fp Vp]. destruct isv_pi4 as [F4 V4].
  destruct (frem_euclid_spec s f_pi Fs Fp) as [[Fr Br] (k & u & Ek & Hu & Vr & _)]; [rewrite Vp; lra|].
  rewrite Vp in Br, Ek, Hu.
  set (r := frem_euclid s f_pi) in *.
  set (c := 13176795 / 16777216) in *.
  assert (Hc : 0 < c) by (unfold c; lra).
  pose proof PI_tight as HP. pose proof tiny_pow as Ht.
  assert (H24 : pow2 (-24) = 1 / 16777216) by (cbn; lra).
  assert (H22 : pow2 (-22) = 1 / 4194304) by (cbn; lra).
  (* rounding errors *)
  pose proof (rnd_err (X / 2)) as E1. rewrite abs_half, H24 in E1.
  pose proof (rnd_err (rnd (X / 2) - c)) as E2. rewrite <- Vs, H24 in E2.
  assert (E3 : Rabs (val r - u) <= pow2 (2 - 25)).
  { rewrite Vr. apply rnd_err_bpow; [lia|]. apply Rabs_le. change (pow2 2) with 4. lra. }
  pose proof big_ge as Hg.
  destruct (div_within r f_frac_pi_4 0 4) as [[Fd Bd] Vd]; auto; try lra.
  { apply repr_0. }
  { apply (repr_int 4). lia. }
  { rewrite V4. unfold c in *. lra. }
  rewrite V4 in Vd.
  assert (E4 : Rabs (val (fdiv r f_frac_pi_4) - val r / c) <= pow2 (2 - 25)).
  { rewrite Vd. apply rnd_err_bpow; [lia|]. apply Rabs_le. change (pow2 2) with 4. unfold c in *. lra. }
  destruct (isv_int 2 ltac:(lia)) as [F2 V2].
  destruct (sub_within (fdiv r f_frac_pi_4) (of_int 2) (-2) 2) as [[Fn Bn] Vn]; auto; try lra.
  { apply (repr_int (-2)). lia. }
  { apply (repr_int 2). lia. }
  assert (En : fsub (fdiv r f_frac_pi_4) (of_int 2) = normalized_rads x) by reflexivity.
  rewrite En in Fn, Bn, Vn. rewrite V2 in Vn.
  assert (E5 : Rabs (val (normalized_rads x) - (val (fdiv r f_frac_pi_4) - 2)) <= pow2 (1 - 25)).
  { rewrite Vn. apply rnd_err_bpow; [lia|]. apply Rabs_le. change (pow2 1) with 2. lra. }
  destruct (isv_int 1 ltac:(lia)) as [F1 V1].
  assert (Ha : 0 <= Rabs (val (normalized_rads x)) <= 2) by (split; [apply Rabs_pos|apply Rabs_le; lra]).
  destruct (sub_within (fabs (normalized_rads x)) (of_int 1) (-1) 1) as [[Fq Bq] Vq]; auto; try lra.
  { now rewrite fin_fabs. }
  { apply (repr_int (-1)). lia. }
  { apply (repr_int 1). lia. }
  { rewrite val_fabs, V1. lra. }
  rewrite val_fabs, V1 in Vq.
  assert (E6 : Rabs (val (fsub (fabs (normalized_rads x)) (of_int 1)) - (Rabs (val (normalized_rads x)) - 1)) <= pow2 (0 - 25)).
  { rewrite Vq. apply rnd_err_bpow; [lia|]. apply Rabs_le. change (pow2 0) with 1. lra. }
  change (2 - 25)%Z with (-23)%Z in *. change (1 - 25)%Z with (-24)%Z in *. change (0 - 25)%Z with (-25)%Z in *.
  assert (H23 : pow2 (-23) = 1 / 8388608) by (cbn; lra).
  assert (H25 : pow2 (-25) = 1 / 33554432) by (cbn; lra).
  rewrite H23 in E3, E4. rewrite H24 in E5. rewrite H25 in E6.
  exists (PI / (4 * c) * 2 * (IZR k * (4 * c) + u + c)). split.
  - assert (Es : IZR k * (4 * c) + u = val s).
    { rewrite Ek. unfold c. lra. }
    rewrite Es. set (g := PI / (4 * c)).
    assert (Hg1 : 1 - 3 / 100000000 <= g <= 1).
    { unfold g. split.
      - apply Rmult_le_reg_r with (4 * c); [lra|]. unfold Rdiv. rewrite Rmult_assoc, Rinv_l by lra.
        unfold c in *. lra.
      - apply Rmult_le_reg_r with (4 * c); [lra|]. unfold Rdiv. rewrite Rmult_assoc, Rinv_l by lra.
        unfold c in *. lra. }
    assert (B1 : Rabs (rnd (X / 2) - c) <= Rabs X + 1).
    { apply Rabs_le_inv in E1. apply Rabs_le. unfold c. unfold Rabs in *. destruct (Rcase_abs X); lra. }
    assert (B2 : Rabs (val s + c - X / 2) <= 1 / 16777216 * (3 / 2 * Rabs X + 1) + 2 / 1000000000000).
    { apply Rabs_le_inv in E1, E2. apply Rabs_le. split; lra. }
    assert (B3 : g * 2 * (val s + c) - X = (2 * g) * (val s + c - X / 2) + (g - 1) * X) by field.
    rewrite B3. eapply Rle_trans; [apply Rabs_triang|]. rewrite !Rabs_mult.
    rewrite (Rabs_right 2), (Rabs_right g) by lra. rewrite (Rabs_left1 (g - 1)) by lra.
    pose proof (Rabs_pos X). pose proof (Rabs_pos (val s + c - X / 2)). rewrite H22. nra.
  - exists (PI / 2 * (Rabs (u / c - 2) - 1)). split; [now apply fold_angle|].
    assert (Hu2 : 0 <= u / c <= 4).
    { unfold c in *. lra. }
    assert (Hu3 : 0 <= Rabs (u / c - 2) <= 2) by (split; [apply Rabs_pos|apply Rabs_le; lra]).
    split.
    + apply Rabs_le. nra.
    + assert (E7 : Rabs (val r / c - u / c) <= 2 / 8388608).
      { apply Rabs_le_inv in E3. apply Rabs_le. unfold c in *. lra. }
      assert (E8 : Rabs (val (normalized_rads x) - (u / c - 2)) <= 4 / 8388608).
      { apply Rabs_le_inv in E4, E5, E7. apply Rabs_le. lra. }
      pose proof (Rabs_triang_inv2 (val (normalized_rads x)) (u / c - 2)) as E9.
      assert (E10 := Rle_trans _ _ _ E9 E8). apply Rabs_le_inv in E10, E6.
      rewrite <- Rmult_minus_distr_l. rewrite Rabs_mult, (Rabs_right (PI / 2)) by lra.
      assert (E11 : Rabs (val (fsub (fabs (normalized_rads x)) (of_int 1)) - (Rabs (u / c - 2) - 1)) <= 5 / 8388608).
      { apply Rabs_le. lra. }
      pose proof (Rabs_pos (val (fsub (fabs (normalized_rads x)) (of_int 1)) - (Rabs (u / c - 2) - 1))). nra.
Qed.

Lemma trunc_err y : Rabs (IZR (Ztrunc y) - y) < 1.
Proof.
  destruct (Rle_lt_dec 0 y) as [H|H].
  - pose proof (Ztrunc_bounds_pos y H). apply Rabs_lt. lra.
  - pose proof (Ztrunc_bounds_pos (- y) ltac:(lra)) as Hb. rewrite Ztrunc_opp, opp_IZR in Hb. apply Rabs_lt. lra.
Qed.

(** The phase handed to the polynomial, as a fraction of the quarter turn. *)
Lemma phase_close x p q : fin x = true ->
  q = val (fsub (fabs (normalized_rads x)) (of_int 1)) ->
  p = to_i16 (fmul (of_int 32767) (fsub (fabs (normalized_rads x)) (of_int 1))) ->
  Rabs (IZR p - 32767 * q) <= 1 + 1 / 1024 /\ (Rabs (32767 * q) < 999 / 1000 -> p = 0%Z).
Proof.
  intros Fx Eq Ep0. destruct (quadrant_range x Fx) as [Fq Bq]. rewrite <- Eq in Bq.
  destruct (isv_int 32767 ltac:(lia)) as [Fi Vi]. pose proof big_ge.
  destruct (mul_within (of_int 32767) (fsub (fabs (normalized_rads x)) (of_int 1)) (-32767) 32767) as [[Fm Bm] Vm]; auto; try lra.
  { apply (repr_int (-32767)). lia. }
  { apply (repr_int 32767). lia. }
  { rewrite Vi, <- Eq. lra. }
  rewrite Vi, <- Eq in Vm.
  assert (E1 : Rabs (rnd (32767 * q) - 32767 * q) <= pow2 (15 - 25)).
  { apply rnd_err_bpow; [lia|]. apply Rabs_le. change (pow2 15) with 32768. lra. }
  change (pow2 (15 - 25)) with (/ 1024) in E1.
  assert (Ep : p = Ztrunc (rnd (32767 * q))).
  { rewrite Ep0. unfold to_i16. rewrite to_int_fin by exact Fm. rewrite Vm in *.
    assert (T : (- 32767 <= Ztrunc (rnd (32767 * q)) <= 32767)%Z).
    { apply trunc_between; lra. }
    lia. }
  rewrite Ep. pose proof (trunc_err (rnd (32767 * q))) as E2. apply Rabs_lt_inv in E2. apply Rabs_le_inv in E1. split.
  - apply Rabs_le. lra.
  - intros Hs. apply Rabs_lt_inv in Hs.
    assert (S : Rabs (rnd (32767 * q)) < 1) by (apply Rabs_lt; lra).
    rewrite <- (Z.abs_0_iff). rewrite <- Ztrunc_abs. rewrite Ztrunc_floor by apply Rabs_pos.
    apply Zfloor_imp. pose proof (Rabs_pos (rnd (32767 * q))). change (IZR (0 + 1)) with 1. lra.
Qed.

Lemma fixed_point_sin_accuracy x : fin x = true -> exists v,
  fixed_point_sin x = Ret v /\ fin v = true /\
  Rabs (val v - sin (val x)) <= 15 / 100000 + pow2 (-22) * Rabs (val x).
Proof.
  intros Fx. destruct (fixed_point_sin_ok x) as (p & Hp & _ & Ep & E).
  pose proof (proj1 (phase_close x p _ Fx eq_refl Ep)) as P1.
  destruct (quadrant_close x Fx) as (y & Y1 & t & St & Bt & Y2).
  generalize dependent (val (fsub (fabs (normalized_rads x)) (of_int 1))). intros q P1 Y2.
  pose proof (sin_accuracy p ltac:(lia)) as A. unfold ideal in A.
  destruct (div32767 (sin_fixed p 4)) as (Fv & Vv & _).
  { unfold sin_fixed, clamp16. lia. }
  eexists. split; [exact E|]. split; [exact Fv|]. rewrite Vv.
  set (sv := IZR (sin_fixed p 4)) in *.
  assert (Bs : -32768 <= sv <= 32767).
  { unfold sv. split; apply IZR_le; unfold sin_fixed, clamp16; lia. }
  assert (R1 : Rabs (rnd (sv / 32767) - sv / 32767) <= pow2 (1 - 25)).
  { apply rnd_err_bpow; [lia|]. apply Rabs_le. change (pow2 1) with 2. lra. }
  change (pow2 (1 - 25)) with (/ 16777216) in R1. apply Rabs_le_inv in R1.
  pose proof (sin_lip (PI / 2 * (IZR p / 32767)) (PI / 2 * q)) as L1.
  pose proof (sin_lip (PI / 2 * q) t) as L2. rewrite St in L2.
  pose proof (sin_lip y (val x)) as L3.
  pose proof PI_tight as HP.
  assert (L1' : Rabs (PI / 2 * (IZR p / 32767) - PI / 2 * q) <= 49 / 1000000).
  { replace (PI / 2 * (IZR p / 32767) - PI / 2 * q) with (PI / 65534 * (IZR p - 32767 * q)) by field.
    rewrite Rabs_mult, (Rabs_right (PI / 65534)) by lra.
    pose proof (Rabs_pos (IZR p - 32767 * q)). nra. }
  assert (M1 := Rle_trans _ _ _ L1 L1'). assert (M2 := Rle_trans _ _ _ L2 Y2). assert (M3 := Rle_trans _ _ _ L3 Y1).
  apply Rabs_le_inv in M1, M2, M3. apply Rabs_le. lra.
Qed.

(** Close to zero the quantised phase is zero. *)
Lemma fixed_point_sin_small x : fin x = true -> Rabs (val x) <= 1 / 32768 ->
  fixed_point_sin x = Ret (of_int 0).
Proof.
  intros Fx Hx. destruct (fixed_point_sin_ok x) as (p & Hp & _ & Ep & E).
  pose proof (proj2 (phase_close x p _ Fx eq_refl Ep)) as P2.
  destruct (quadrant_close x Fx) as (y & Y1 & t & St & Bt & Y2).
  generalize dependent (val (fsub (fabs (normalized_rads x)) (of_int 1))). intros q P2 Y2.
  pose proof PI_tight as HP.
  assert (H22 : pow2 (-22) = 1 / 4194304) by (cbn; lra). rewrite H22 in Y1.
  assert (By : Rabs y <= 32 / 1000000).
  { replace y with (y - val x + val x) by ring. eapply Rle_trans; [apply Rabs_triang|]. lra. }
  (* |t| <= pi/2 and sin t = sin y, y small: t = y *)
  assert (Ty : t = y).
  { apply Rabs_le_inv in Bt, By. apply sin_inj; auto; lra. }
  rewrite Ty in Y2.
  assert (Hq : Rabs (PI / 2 * q) <= 33 / 1000000).
  { replace (PI / 2 * q) with (PI / 2 * q - y + y) by ring. eapply Rle_trans; [apply Rabs_triang|]. lra. }
  rewrite Rabs_mult, (Rabs_right (PI / 2)) in Hq by lra.
  assert (Hz : p = 0%Z).
  { apply P2. rewrite Rabs_mult, (Rabs_right 32767) by lra. pose proof (Rabs_pos q). nra. }
  rewrite E, Hz. reflexivity.
Qed.

(** ** The lookup table *)
Lemma table_nth N i : (1 <= N <= 65535)%Z -> (0 <= i < N)%Z -> forall t, sine_table N = Ret t ->
  table_index t i = Ret (sin_fixed (i * (65535 / N) - 32767) 4) /\ Z.of_nat (length t) = N.
Proof.
  intros HN Hi t Ht. rewrite sine_table_ok in Ht by exact HN. injection Ht as <-. split.
  - unfold table_index, nthz. destruct (Z.ltb_spec i 0); [lia|].
    rewrite nth_error_map. rewrite (nth_error_nth' _ 0%nat) by (rewrite seq_length; lia).
    rewrite seq_nth by lia. cbn [option_map]. rewrite Nat.add_0_l, Z2Nat.id by lia. reflexivity.
  - rewrite map_length, seq_length. lia.
Qed.

(** Entry [i] of the table. *)
Definition entry (i : Z) : Z := sin_fixed (i * 15 - 32767) 4.
Lemma entry_bounds i : (0 <= i <= 4095)%Z -> (- 32768 <= entry i <= 32136)%Z.
Proof.
  intros Hi. unfold entry. split; [unfold sin_fixed, clamp16; lia|].
  pose proof (sin_fixed_drop (i * 15 - 32767) 28658 ltac:(lia) ltac:(lia)) as H.
  change (sin_fixed 28658 4) with 32133%Z in H. lia.
Qed.

(** [lookup_sin] never leaves the table, and interpolates it. *)
Lemma lookup_finite x : fin x = true -> exists (i : Z) (t v : f32),
  lookup_sin x = Ret v /\ (0 <= i <= 4095)%Z /\ within t 0 1 /\
  v = fdiv (if (i =? 4095)%Z then of_int (entry i) else lerp_unchecked (of_int (entry i)) (of_int (entry (i + 1))) t) (of_int 32767).
Proof.
  intros Fx. destruct (sine_table_ok 4096 ltac:(lia)) as [].
  destruct (sine_table 4096) as [tb| |] eqn:Et; [|now rewrite sine_table_ok in Et by lia|now rewrite sine_table_ok in Et by lia].
  assert (T : forall i, (0 <= i < 4096)%Z -> table_index tb i = Ret (entry i) /\ Z.of_nat (length tb) = 4096%Z).
  { intros i Hi. exact (table_nth 4096 i ltac:(lia) Hi tb Et). }
  assert (Len : Z.of_nat (length tb) = 4096%Z) by (apply (T 0%Z); lia).
  unfold lookup_sin. rewrite Et. cbn [bind]. rewrite Len. change (4096 - 1)%Z with 4095%Z.
  destruct (normalized_range x Fx) as [Fn Bn].
  assert (Ha : 0 <= Rabs (val (normalized_rads x)) <= 2) by (split; [apply Rabs_pos|apply Rabs_le; lra]).
  destruct (isv_int 2 ltac:(lia)) as [F2 V2]. destruct (isv_int 4095 ltac:(lia)) as [F9 V9]. pose proof big_ge.
  destruct (div_within (fabs (normalized_rads x)) (of_int 2) 0 1) as [[Fq Bq] _]; auto; try lra.
  { now rewrite fin_fabs. }
  { apply repr_0. }
  { apply (repr_int 1). lia. }
  { rewrite val_fabs, V2. lra. }
  destruct (mul_within (of_int 4095) (fdiv (fabs (normalized_rads x)) (of_int 2)) 0 4095) as [[Fm Bm] _]; auto; try lra.
  { apply repr_0. }
  { apply (repr_int 4095). lia. }
  { rewrite V9. lra. }
  set (f := fmul (of_int 4095) (fdiv (fabs (normalized_rads x)) (of_int 2))) in *.
  assert (Tr : (0 <= Ztrunc (val f) <= 4095)%Z).
  { apply trunc_between; lra. }
  assert (Ti : to_usize f = Ztrunc (val f)).
  { unfold to_usize. rewrite to_int_fin by exact Fm.
    assert (4095 <= usize_max)%Z by (unfold usize_max, usize_mod, usize_bits; destruct ptr_w; cbn; lia). lia. }
  set (i := Ztrunc (val f)) in *. rewrite Ti.
  destruct (frac_exact f i Fm ltac:(lra) ltac:(lia) eq_refl) as (Fi & Vi & Ff & Vf & Rest).
  pose proof (Ztrunc_bounds_pos (val f) ltac:(lra)) as Hfr. fold i in Hfr.
  exists i, (fsub f (of_int i)).
  destruct (Z.eqb_spec i 4095) as [E|E]; cbn [negb].
  - destruct (T i ltac:(lia)) as [-> _]. cbn [bind]. eexists. split; [reflexivity|]. split; [lia|].
    split; [split; [exact Ff|]; rewrite Vf; lra|]. reflexivity.
  - destruct (T i ltac:(lia)) as [-> _]. destruct (T (i + 1)%Z ltac:(lia)) as [-> _]. cbn [bind].
    eexists. split; [reflexivity|]. split; [lia|].
    split; [split; [exact Ff|]; rewrite Vf; lra|]. reflexivity.
Qed.

Lemma lookup_range x : fin x = true -> exists v, lookup_sin x = Ret v /\ fin v = true /\
  - (10001 / 10000) <= val v <= 981 / 1000.
Proof.
  intros Fx. destruct (lookup_finite x Fx) as (i & t & v & E & Hi & [Ft Bt] & ->).
  eexists. split; [exact E|].
  set (w := if (i =? 4095)%Z then of_int (entry i) else lerp_unchecked (of_int (entry i)) (of_int (entry (i + 1))) t).
  assert (W : fin w = true /\ - 32768 - 1 / 100 <= val w <= 32136 + 1 / 100).
  { unfold w. pose proof (entry_bounds i Hi) as B1. destruct (isv_int (entry i) ltac:(lia)) as [F1 V1].
    destruct B1 as [B1 B1']. apply IZR_le in B1, B1'.
    destruct (Z.eqb_spec i 4095) as [->|N].
    - split; [exact F1|]. rewrite V1. lra.
    - pose proof (entry_bounds (i + 1) ltac:(lia)) as B2. destruct (isv_int (entry (i + 1)) ltac:(lia)) as [F2 V2].
      destruct B2 as [B2 B2']. apply IZR_le in B2, B2'.
      assert (U : unit_range t) by (split; [exact Ft|exact Bt]).
      split; [now apply lerp_exact_form|].
      pose proof (lerp_accuracy _ _ t F1 F2 U) as A. rewrite V1, V2 in A.
      assert (M : Rmax (Rabs (IZR (entry i))) (Rabs (IZR (entry (i + 1)))) <= 32768) by (apply Rmax_lub; apply Rabs_le; lra).
      assert (H24 : pow2 (-24) = 1 / 16777216) by (cbn; lra). rewrite H24 in A.
      assert (H148 : pow2 (-148) <= 1 / 1000000) by (apply Rle_trans with (pow2 (-40)); [apply bpow_le; lia|cbn; lra]).
      apply Rabs_le_inv in A. split; nra. }
  destruct W as [Fw Bw]. destruct (isv_int 32767 ltac:(lia)) as [Fm Vm]. pose proof big_ge.
  destruct (div_within w (of_int 32767) (-2) 2) as [[Fv _] Vv]; auto; try lra.
  { apply (repr_int (-2)). lia. }
  { apply (repr_int 2). lia. }
  { rewrite Vm. lra. }
  split; [exact Fv|]. rewrite Vv, Vm.
  assert (R1 : Rabs (rnd (val w / 32767) - val w / 32767) <= pow2 (1 - 25)).
  { apply rnd_err_bpow; [lia|]. apply Rabs_le. change (pow2 1) with 2. lra. }
  change (pow2 (1 - 25)) with (/ 16777216) in R1. apply Rabs_le_inv in R1. lra.
Qed.

Lemma lookup_nan x : fin x = false -> exists v, lookup_sin x = Ret v /\ isnan v = true.
Proof.
  intros Fx.
  destruct (sine_table 4096) as [tb| |] eqn:Et; [|now rewrite sine_table_ok in Et by lia|now rewrite sine_table_ok in Et by lia].
  assert (T : forall i, (0 <= i < 4096)%Z -> table_index tb i = Ret (entry i) /\ Z.of_nat (length tb) = 4096%Z).
  { intros i Hi. exact (table_nth 4096 i ltac:(lia) Hi tb Et). }
  assert (Len : Z.of_nat (length tb) = 4096%Z) by (apply (T 0%Z); lia).
  unfold lookup_sin. rewrite Et. cbn [bind]. rewrite Len. change (4096 - 1)%Z with 4095%Z.
  assert (N : isnan (fmul (of_int 4095) (fdiv (fabs (normalized_rads x)) (of_int 2))) = true).
  { apply fmul_nan. right. apply fdiv_nan. left. pose proof (nan_chain x Fx) as H.
    revert H. generalize (normalized_rads x). intros [| | |]; auto. }
  set (f := fmul (of_int 4095) (fdiv (fabs (normalized_rads x)) (of_int 2))) in *.
  assert (E0 : to_usize f = 0%Z).
  { unfold to_usize. revert N. generalize f. intros [s|s|s pl H|s m e H] N; try discriminate N; reflexivity. }
  rewrite E0. cbn [Z.eqb negb]. destruct (T 0%Z ltac:(lia)) as [-> _]. destruct (T (0 + 1)%Z ltac:(lia)) as [-> _].
  cbn [bind]. eexists. split; [reflexivity|]. apply fdiv_nan. left. apply lerp_nan_t. apply fsub_nan. now left.
Qed.
End Float.
