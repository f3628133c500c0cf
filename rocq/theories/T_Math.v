(** * Theorems: hyperbolic functions and sinc (C74, C75). *)

From Coq Require Import ZArith Bool Reals Lia Lra Psatz.
From Flocq Require Import Core IEEE754.BinarySingleNaN IEEE754.Binary.
From Verif Require Import Base F32 F32Lemmas F32Exact F32Ints F32Range F32Over Num M_FloatMath M_Sine S_Sine P_Sine P_Interp P_SineFloat P_Bits P_Levels P_Math Examples.
Local Open Scope R_scope.

Lemma nintR z : @nint R num_R z = IZR z.
Proof. unfold nint. cbn. ring. Qed.

(** ** tanh *)

(** C74: in exact arithmetic [tanh] computes x / (1 + x^2/2). *)
Theorem C74_tanh_exact : forall x : R, tanh_ x = x / (1 + x * x / 2).
Proof.
  intros x. unfold tanh_, exp_approx. rewrite !nintR. cbn [nadd nsub nmul ndiv nneg num_R].
  assert (0 < 1 + x * x / 2) by nra. field. split; nra.
Qed.
Print Assumptions C74_tanh_exact.

(** C74: it is odd, bounded by 1/sqrt 2, which it takes at sqrt 2, and at most 2/|x|: it tends
    to 0, where the hyperbolic tangent tends to 1. *)
Theorem C74_tanh_bounded : forall x : R,
  tanh_ (- x) = - tanh_ x /\ Rabs (tanh_ x) <= 1 / sqrt 2 /\ tanh_ (sqrt 2) = 1 / sqrt 2 /\ (x <> 0 -> Rabs (tanh_ x) <= 2 / Rabs x).
Proof.
  intros x. rewrite !C74_tanh_exact. assert (P : 0 < 1 + x * x / 2) by nra.
  assert (S2 : sqrt 2 * sqrt 2 = 2) by (apply sqrt_sqrt; lra). assert (P2 : 0 < sqrt 2) by (apply sqrt_lt_R0; lra).
  assert (A : Rabs (x / (1 + x * x / 2)) = Rabs x / (1 + Rabs x * Rabs x / 2)).
  { unfold Rdiv at 1. rewrite Rabs_mult, Rabs_inv, (Rabs_right (1 + x * x / 2)) by lra.
    rewrite <- Rabs_mult, (Rabs_right (x * x)) by nra. reflexivity. }
  split; [replace (- x * - x) with (x * x) by ring; unfold Rdiv; ring|]. split; [|split].
  - rewrite A. pose proof (Rabs_pos x) as PX. set (a := Rabs x) in *. clearbody a.
    apply Rmult_le_reg_r with (1 + a * a / 2); [nra|]. unfold Rdiv at 1. rewrite Rmult_assoc, Rinv_l by nra.
    apply Rmult_le_reg_r with (sqrt 2); [exact P2|]. rewrite (Rmult_comm (1 / sqrt 2)), (Rmult_assoc _ (1 / sqrt 2)).
    replace (1 / sqrt 2 * sqrt 2) with 1 by (field; lra).
    pose proof (Rle_0_sqr (a - sqrt 2)) as H. unfold Rsqr in H. nra.
  - rewrite S2. apply Rmult_eq_reg_r with (sqrt 2); [|lra]. replace (1 / sqrt 2 * sqrt 2) with 1 by (field; lra). lra.
  - intros N. rewrite A. apply Rabs_pos_lt in N. set (a := Rabs x) in *. clearbody a.
    apply Rmult_le_reg_r with (1 + a * a / 2); [nra|]. unfold Rdiv at 1. rewrite Rmult_assoc, Rinv_l by nra.
    apply Rmult_le_reg_r with a; [exact N|]. replace (2 / a * (1 + a * a / 2) * a) with (2 + a * a) by (field; lra). lra.
Qed.
Print Assumptions C74_tanh_bounded.

(** C74: it rises up to sqrt 2 and falls from there on; the hyperbolic tangent rises
    everywhere. *)
Theorem C74_tanh_monotone_refuted : forall x y : R, 0 <= x -> x < y ->
  (y <= sqrt 2 -> tanh_ x < tanh_ y) /\ (sqrt 2 <= x -> tanh_ y < tanh_ x).
Proof.
  intros x y Hx Hy. rewrite !C74_tanh_exact.
  assert (S2 : sqrt 2 * sqrt 2 = 2) by (apply sqrt_sqrt; lra). assert (P2 : 0 < sqrt 2) by (apply sqrt_lt_R0; lra).
  assert (Px : 0 < 1 + x * x / 2) by nra. assert (Py : 0 < 1 + y * y / 2) by nra.
  assert (D : x / (1 + x * x / 2) - y / (1 + y * y / 2) = (y - x) * (x * y / 2 - 1) / ((1 + x * x / 2) * (1 + y * y / 2))) by (field; nra).
  assert (PP : 0 < / ((1 + x * x / 2) * (1 + y * y / 2))) by (apply Rinv_0_lt_compat; nra).
  split; intros H.
  - assert (x * y < 2) by nra. assert (0 < (y - x) * (1 - x * y / 2)) by nra.
    assert (x / (1 + x * x / 2) - y / (1 + y * y / 2) < 0); [|lra]. rewrite D. unfold Rdiv at 1. nra.
  - assert (2 < x * y) by nra. assert (0 < (y - x) * (x * y / 2 - 1)) by nra.
    assert (0 < x / (1 + x * x / 2) - y / (1 + y * y / 2)); [|lra]. rewrite D. unfold Rdiv at 1. nra.
Qed.
Print Assumptions C74_tanh_monotone_refuted.

(** C74: in f32 every finite argument below 2^64 in magnitude gives a finite value within
    2^-20 of x / (1 + x^2/2). *)
Theorem C74_tanh_f32_accuracy : forall (NP : NanPolicy) (x : f32), fin x = true -> Rabs (val x) < pow2 64 ->
  fin (tanh_ x) = true /\ Rabs (val (tanh_ x) - val x / (1 + val x * val x / 2)) <= pow2 (-20).
Proof. intros NP x Fx H. exact (tanh_f32 x Fx H). Qed.
Print Assumptions C74_tanh_f32_accuracy.

(** C74: and all others (finite from 2^64 on, infinite, NaN) give NaN. *)
Theorem C74_tanh_f32_nan_refuted : forall (NP : NanPolicy) (x : f32),
  isnan (tanh_ x) = true <-> fin x = false \/ pow2 64 <= Rabs (val x).
Proof.
  intros NP x. split; [|apply tanh_f32_nan]. intros N. destruct (fin x) eqn:Fx; [|now left]. right.
  destruct (Rle_lt_dec (pow2 64) (Rabs (val x))) as [L|L]; [exact L|exfalso].
  destruct (tanh_f32 x Fx L) as [F _]. apply fin_notnan in F. congruence.
Qed.
Print Assumptions C74_tanh_f32_nan_refuted.

(** tanh(1) = 2/3 in f32, tanh(2^64) is NaN. *)
Example C74_ex (NP : NanPolicy) : to_bits (tanh_ (of_int 1)) = 1059760811%Z /\ isnan (tanh_ (lit 1 64)) = true.
Proof. split; [vm_compute; reflexivity|]. apply C74_tanh_f32_nan_refuted. right. destruct (lit_exact 1 64 ltac:(lia) ltac:(lia)) as [_ ->].
  rewrite Rmult_1_l, Rabs_right; [lra|]. pose proof (bpow_gt_0 radix2 64). lra. Qed.

(** ** sinh and cosh *)

(** C75: for every exponential routine cosh(-x) and cosh(x) are the same float (or both NaN). *)
Theorem C75_cosh_even : forall (NP : NanPolicy) (MO : MathOps f32) (x : f32),
  cosh_ (fneg x) = cosh_ x \/ (isnan (cosh_ (fneg x)) = true /\ isnan (cosh_ x) = true).
Proof.
  intros NP MO x. unfold cosh_. cbn [nadd nmul nneg num_f32]. rewrite fneg_neg.
  destruct (fadd_comm (m_exp (fneg x)) (m_exp x)) as [E|[N1 N2]].
  - left. now rewrite E.
  - right. split; apply fmul_nan; now left.
Qed.
Print Assumptions C75_cosh_even.

(** C75: for every exponential routine sinh(-x) is the negated sinh(x), or both are zero, or
    both NaN. *)
Theorem C75_sinh_odd : forall (NP : NanPolicy) (MO : MathOps f32) (x : f32),
  sinh_ (fneg x) = fneg (sinh_ x) \/
  (fin (sinh_ (fneg x)) = true /\ fin (sinh_ x) = true /\ val (sinh_ (fneg x)) = 0 /\ val (sinh_ x) = 0) \/
  (isnan (sinh_ (fneg x)) = true /\ isnan (sinh_ x) = true).
Proof.
  intros NP MO x. unfold sinh_. cbn [nsub nmul nneg num_f32 ndy]. rewrite fneg_neg.
  destruct (fsub_anti (m_exp (fneg x)) (m_exp x)) as [E|[(F1 & F2 & V1 & V2)|[N1 N2]]].
  - rewrite E. destruct (fmul_fneg (fsub (m_exp x) (m_exp (fneg x))) (lit 1 (-1))) as [S|[S1 S2]]; [now left|].
    right. right. rewrite isnan_fneg in S2. now split.
  - right. left. destruct (lit_exact 1 (-1) ltac:(lia) ltac:(lia)) as [Fh Vh].
    assert (Z : forall y, fin y = true -> val y = 0 -> fin (fmul y (lit 1 (-1))) = true /\ val (fmul y (lit 1 (-1))) = 0).
    { intros y Fy Vy. destruct (fmul_spec y (lit 1 (-1)) Fy Fh) as [F V].
      - rewrite Vy, Rmult_0_l, rnd_0, Rabs_R0. apply big_pos.
      - split; [exact F|]. rewrite V, Vy, Rmult_0_l. apply rnd_0. }
    destruct (Z _ F1 V1) as [A1 A2]. destruct (Z _ F2 V2) as [B1 B2]. tauto.
  - right. right. split; apply fmul_nan; now left.
Qed.
Print Assumptions C75_sinh_odd.

Example C75_ex (NP : NanPolicy) : to_bits (@cosh_ f32 num_f32 ref_math (of_int 3)) = to_bits (@cosh_ f32 num_f32 ref_math (of_int (-3))).
Proof. vm_compute. reflexivity. Qed.

(** ** sinc *)

(** C75: sinc(0) is 1 and for every other finite argument |sinc x| <= 1.0001/|x|. *)
Theorem C75_sinc_envelope : forall (NP : NanPolicy) (B : Build) (x : f32), fin x = true ->
  exists v, sinc x = Ret v /\ fin v = true /\ (val x = 0 -> val v = 1) /\
    (val x <> 0 -> Rabs (val v) <= 10001 / 10000 / Rabs (val x)).
Proof.
  intros NP B x Fx. unfold sinc. destruct (of_int_exact 0 ltac:(lia)) as [F0 V0].
  rewrite feq_fin by auto. rewrite V0. case Req_bool_spec; intros H.
  - exists (of_int 1). destruct (of_int_exact 1 ltac:(lia)) as [F1 V1].
    split; [reflexivity|]. split; [exact F1|]. split; [intros _; exact V1|]. intros N. contradiction.
  - assert (PX : 0 < Rabs (val x)) by now apply Rabs_pos_lt.
    destruct (Rle_lt_dec (Rabs (val x)) (1 / 32768)) as [L|L].
    + rewrite (fixed_point_sin_small x Fx L). cbn [bind]. eexists. split; [reflexivity|].
      destruct (fdiv_spec (of_int 0) x F0 H) as [F V].
      { rewrite V0. unfold Rdiv. rewrite Rmult_0_l, rnd_0, Rabs_R0. apply big_pos. }
      rewrite V0 in V. unfold Rdiv in V. rewrite Rmult_0_l, rnd_0 in V.
      split; [exact F|]. split; [contradiction|]. intros _. rewrite V, Rabs_R0.
      apply Rmult_le_pos; [lra|]. left. now apply Rinv_0_lt_compat.
    + destruct (fixed_point_sin_ok x) as (p & Hp & _ & _ & E). rewrite E. cbn [bind].
      eexists. split; [reflexivity|].
      set (z := sin_fixed p 4). assert (Hz : (-32768 <= z <= 32767)%Z) by (unfold z, sin_fixed, clamp16; lia).
      destruct (div32767 z Hz) as (Fs & Vs & _). set (s := fdiv (of_int z) (of_int 32767)) in *.
      assert (Bs : Rabs (val s) <= 100005 / 100000).
      { rewrite Vs. pose proof (rnd_err' (IZR z / 32767)) as D. unfold u24 in D.
        assert (Lz : -32768 <= IZR z <= 32767) by (split; apply IZR_le; lia).
        assert (Rabs (IZR z / 32767) <= 32768 / 32767) by (apply Rabs_le; lra).
        apply abs_le_dev in D. pose proof (Rabs_le_inv _ _ H0). apply Rabs_le. lra. }
      assert (PI : 0 < / Rabs (val x)) by now apply Rinv_0_lt_compat.
      assert (Q : Rabs (val s / val x) <= 100005 / 100000 * / Rabs (val x)).
      { unfold Rdiv at 1. rewrite Rabs_mult, Rabs_inv. apply Rmult_le_compat_r; lra. }
      assert (I5 : / Rabs (val x) <= 32768).
      { replace 32768 with (/ (1 / 32768)) by field. apply Rinv_le; lra. }
      pose proof big_ge as BG.
      destruct (fdiv_bnd s x 65536 Fs H) as (F & V & _); [apply (repr_int 65536); lia|lra|lra|].
      split; [exact F|]. split; [contradiction|]. intros _. rewrite V.
      pose proof (rnd_err (val s / val x)) as D.
      assert (E24 : pow2 (-24) = 1 / 16777216) by (cbn; lra). rewrite E24 in D.
      assert (SM : pow2 (-150) <= / Rabs (val x) * (1 / 1000000)).
      { assert (M : pow2 (-128) <= / Rabs (val x)).
        { change (-128)%Z with (- (128))%Z. rewrite bpow_opp. apply Rinv_le; [exact PX|]. pose proof (val_lt_big x). unfold big in *. lra. }
        replace (-150)%Z with (-128 + -22)%Z by lia. rewrite bpow_plus.
        assert (pow2 (-22) <= 1 / 1000000) by (cbn; lra). pose proof (bpow_gt_0 radix2 (-22)). pose proof (bpow_gt_0 radix2 (-128)).
        apply Rmult_le_compat; lra. }
      unfold Rdiv at 2 in |- *. replace (rnd (val s / val x)) with (rnd (val s / val x) - val s / val x + val s / val x) by ring.
      eapply Rle_trans; [apply Rabs_triang|]. lra.
Qed.
Print Assumptions C75_sinc_envelope.

Example C75_ex_sinc (NP : NanPolicy) : obits (@sinc NP dbg32 (of_int 2)) = Ret 1055442386%Z.
Proof. vm_compute. reflexivity. Qed.
