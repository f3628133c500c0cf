(** * Theorems: the hyperbolic functions against the real ones (C88). *)

From Coq Require Import ZArith List Bool Reals Lia Lra.
From Flocq Require Import Core.
From Verif Require Import Base F32 F32Lemmas F32Exact F32Ints F32Range F32Over Num M_FloatMath P_Interp T_Math Examples.
Import ListNotations.
Local Open Scope R_scope.

(** C88: with the exact exponential, [sinh] and [cosh] are the hyperbolic sine and cosine. *)
Theorem C88_hyperbolic_exact : forall (MO : MathOps R) (x : R), (forall y, m_exp y = exp y) ->
  sinh_ x = sinh x /\ cosh_ x = cosh x /\ cosh_ x * cosh_ x - sinh_ x * sinh_ x = 1.
Proof.
  intros MO x H. unfold sinh_, cosh_. rewrite !H. change (ndy 1 (-1)) with (1 * pow2 (-1)). replace (pow2 (-1)) with (/ 2) by (cbn; lra).
  cbn [nadd nsub nmul nneg num_R]. unfold sinh, cosh. split; [lra|]. split; [lra|].
  assert (E : exp x * exp (- x) = 1) by (rewrite <- exp_plus, Rplus_opp_r; apply exp_0).
  replace ((exp x + exp (- x)) * (1 * / 2) * ((exp x + exp (- x)) * (1 * / 2)) - (exp x - exp (- x)) * (1 * / 2) * ((exp x - exp (- x)) * (1 * / 2)))
    with (exp x * exp (- x)) by field. exact E.
Qed.
Print Assumptions C88_hyperbolic_exact.

(** What is asked of the exponential routine: relative error at most e for arguments up to 64. *)
Definition exp_within (e : R) (MO : MathOps f32) : Prop := forall x, fin x = true -> Rabs (val x) <= 64 ->
  fin (m_exp x) = true /\ Rabs (val (m_exp x) - exp (val x)) <= e * exp (val x).

Lemma exp_INR n : exp (INR n) = exp 1 ^ n.
Proof.
  induction n as [|n IH]; [apply exp_0|]. rewrite S_INR, exp_plus, IH. cbn [pow]. ring.
Qed.
Lemma exp_64 x : Rabs x <= 64 -> pow2 (-102) <= exp x <= pow2 102.
Proof.
  assert (E : exp 64 <= pow2 102).
  { replace 64 with (INR 64) by (rewrite INR_IZR_INZ; reflexivity). rewrite exp_INR. apply Rle_trans with (3 ^ 64).
    - apply pow_incr. split; [left; apply exp_pos|apply exp_le_3].
    - rewrite <- (Rpower_pow 64 3) by lra. rewrite Rpower_pow by lra. change (pow2 102) with (IZR (2 ^ 102)).
      change 3 with (IZR 3). rewrite pow_IZR. apply IZR_le. vm_compute. discriminate. }
  intros H. apply Rabs_le_inv in H. assert (U : forall y, y <= 64 -> exp y <= pow2 102).
  { intros y Hy. apply Rle_trans with (2 := E). destruct (Rle_lt_or_eq_dec _ _ Hy) as [L| ->]; [left; now apply exp_increasing|lra]. }
  split; [|apply U; lra]. change (-102)%Z with (- (102))%Z. rewrite bpow_opp. rewrite <- (Ropp_involutive x), exp_Ropp.
  apply Rinv_le; [apply exp_pos|]. apply U. lra.
Qed.

Lemma half_sum c e P s : 1 <= c -> 0 <= e <= 1 / 2 -> fin P = true -> Rabs (val P - 2 * s) <= e * (2 * c) + pow2 (-24) * (3 * c) + pow2 (-150) -> Rabs s <= c -> c <= pow2 110 ->
  forall (NP : NanPolicy), fin (fmul P (lit 1 (-1))) = true /\ Rabs (val (fmul P (lit 1 (-1))) - s) <= (e + pow2 (-22)) * c.
Proof.
  intros Hc He FP HP Hs C NP. destruct (lit_exact 1 (-1) ltac:(lia) ltac:(lia)) as [Fh Vh].
  assert (Vh' : val (lit 1 (-1)) = 1 / 2) by (rewrite Vh; cbn; lra).
  assert (P24 : 0 < pow2 (-24) <= / 16) by (cbn; lra).
  assert (P150 : 0 < pow2 (-150) <= pow2 (-24) * / 16).
  { split; [apply bpow_gt_0|]. replace (pow2 (-24) * / 16) with (pow2 (-28)) by (cbn; lra). apply bpow_le. lia. }
  assert (BP : Rabs (val P) <= 4 * c).
  { replace (val P) with ((val P - 2 * s) + 2 * s) by ring. apply Rle_trans with (1 := Rabs_triang _ _). rewrite (Rabs_mult 2 s), (Rabs_pos_eq 2) by lra. nra. }
  assert (B2 : Rabs (val P * val (lit 1 (-1))) <= pow2 112).
  { rewrite Vh', Rabs_mult, (Rabs_pos_eq (1 / 2)) by lra. change 112%Z with (2 + 110)%Z. rewrite bpow_plus. change (pow2 2) with 4. lra. }
  destruct (fmul_bnd P (lit 1 (-1)) (pow2 112) FP Fh) as (F & V & _); [apply repr_bpow; lia|apply bpow_lt; lia|exact B2|].
  split; [exact F|]. rewrite V, Vh'. pose proof (rnd_err (val P * (1 / 2))) as R. rewrite (Rabs_mult (val P) (1 / 2)), (Rabs_pos_eq (1 / 2)) in R by lra.
  replace (pow2 (-22)) with (4 * pow2 (-24)) by (cbn; lra).
  apply Rabs_le_inv in R. apply Rabs_le_inv in HP. apply Rabs_le.
  assert (pow2 (-24) * (Rabs (val P) * (1 / 2)) <= pow2 (-24) * (2 * c)) by (apply Rmult_le_compat_l; lra).
  assert (pow2 (-24) <= pow2 (-24) * c) by (rewrite <- (Rmult_1_r (pow2 (-24))) at 1; apply Rmult_le_compat_l; lra).
  split; lra.
Qed.

(** C88: in single precision, with an exponential of relative error e, [cosh] has relative error
    e + 2^-22, and [sinh] the same error relative to the hyperbolic cosine (so near 0, where the two
    exponentials cancel, only an absolute error). *)
Theorem C88_hyperbolic_f32 : forall (NP : NanPolicy) (MO : MathOps f32) (e : R) (x : f32), exp_within e MO -> 0 <= e <= 1 / 2 ->
  fin x = true -> Rabs (val x) <= 64 ->
  fin (cosh_ x) = true /\ Rabs (val (cosh_ x) - cosh (val x)) <= (e + pow2 (-22)) * cosh (val x) /\
  fin (sinh_ x) = true /\ Rabs (val (sinh_ x) - sinh (val x)) <= (e + pow2 (-22)) * cosh (val x).
Proof.
  intros NP MO e x HE He Fx Hx.
  destruct (HE x Fx Hx) as [FP EP]. destruct (HE (fneg x)) as [FQ EQ]; [now rewrite fin_fneg|now rewrite val_fneg, Rabs_Ropp|]. rewrite val_fneg in EQ.
  destruct (exp_64 (val x) Hx) as [_ UP]. destruct (exp_64 (- val x) ltac:(now rewrite Rabs_Ropp)) as [_ UQ].
  pose proof (exp_pos (val x)) as PP. pose proof (exp_pos (- val x)) as PQ.
  assert (PQ1 : exp (val x) * exp (- val x) = 1) by (rewrite <- exp_plus, Rplus_opp_r; apply exp_0).
  set (p := exp (val x)) in *. set (q := exp (- val x)) in *. set (P := m_exp x) in *. set (Q := m_exp (fneg x)) in *.
  assert (C1 : 1 <= (p + q) / 2) by (assert (0 <= (p - q) * (p - q)) by apply Rle_0_sqr; nra).
  unfold sinh, cosh. fold p q. set (c := (p + q) / 2) in *.
  assert (C2 : c <= pow2 110). { unfold c. apply Rle_trans with (pow2 102); [lra|apply bpow_le; lia]. }
  apply Rabs_le_inv in EP. apply Rabs_le_inv in EQ.
  assert (BP : 0 <= val P <= 3 / 2 * p) by nra. assert (BQ : 0 <= val Q <= 3 / 2 * q) by nra.
  assert (P112 : 4 * c <= pow2 112) by (change 112%Z with (2 + 110)%Z; rewrite bpow_plus; change (pow2 2) with 4; lra).
  assert (G : forall v s, Rabs v <= 3 * c -> Rabs (v - 2 * s) <= e * (2 * c) -> Rabs (rnd v - 2 * s) <= e * (2 * c) + pow2 (-24) * (3 * c) + pow2 (-150)).
  { intros v s Bv Hv. pose proof (rnd_err v) as R. assert (pow2 (-24) * Rabs v <= pow2 (-24) * (3 * c)) by (apply Rmult_le_compat_l; [apply bpow_ge_0|exact Bv]).
    apply Rabs_le_inv in R. apply Rabs_le_inv in Hv. apply Rabs_le. lra. }
  split; [|split].
  - destruct (fadd_bnd P Q (pow2 112) FP FQ) as (F & V & _); [apply repr_bpow; lia|apply bpow_lt; lia|apply Rabs_le; unfold c in *; lra|].
    refine (proj1 (half_sum c e (fadd P Q) c C1 He F _ _ C2 NP)); [rewrite V; apply G; apply Rabs_le; unfold c in *; lra|rewrite Rabs_pos_eq; lra].
  - destruct (fadd_bnd P Q (pow2 112) FP FQ) as (F & V & _); [apply repr_bpow; lia|apply bpow_lt; lia|apply Rabs_le; unfold c in *; lra|].
    refine (proj2 (half_sum c e (fadd P Q) c C1 He F _ _ C2 NP)); [rewrite V; apply G; apply Rabs_le; unfold c in *; lra|rewrite Rabs_pos_eq; lra].
  - destruct (fsub_bnd P Q (pow2 112) FP FQ) as (F & V & _); [apply repr_bpow; lia|apply bpow_lt; lia|apply Rabs_le; unfold c in *; lra|].
    apply (half_sum c e (fsub P Q) ((p - q) / 2) C1 He F); [rewrite V; apply G; apply Rabs_le; unfold c in *; lra|apply Rabs_le; unfold c; lra|exact C2].
Qed.
Print Assumptions C88_hyperbolic_f32.

(** The exponential truncated to an f32 meets the contract. *)
Definition exp_math : MathOps f32 := {|
  m_floor := ref_floor (NP := default_policy); m_sqrt := fun x => x;
  m_exp := fun x => let r := exp (val x) in lit (Zfloor (scaled_mantissa radix2 fexp32 r)) (cexp radix2 fexp32 r);
  m_log10 := fun x => x; m_powf := fun x _ => x; m_powi := fun x _ => x |}.
Example C88_met : exp_within (pow2 (-23)) exp_math /\ (forall (MO : MathOps R), (forall y, m_exp y = exp y) -> cosh_ 0 = 1).
Proof.
  split.
  - intros x Fx Hx. cbn [m_exp exp_math]. set (r := exp (val x)). destruct (exp_64 (val x) Hx) as [L U]. fold r in L, U.
    assert (P : 0 < r) by apply exp_pos.
    assert (D : IZR (Zfloor (scaled_mantissa radix2 fexp32 r)) * pow2 (cexp radix2 fexp32 r) = round radix2 fexp32 Zfloor r) by reflexivity.
    destruct (mag radix2 r) as [m Hm] eqn:M. assert (Hm' := Hm ltac:(lra)). rewrite Rabs_pos_eq in Hm' by lra.
    assert (M1 : (-102 < m)%Z). { apply (lt_bpow radix2). apply Rle_lt_trans with (1 := L). tauto. }
    assert (M2 : (m - 1 <= 102)%Z). { apply (le_bpow radix2). apply Rle_trans with (2 := U). tauto. }
    assert (CE : cexp radix2 fexp32 r = (m - 24)%Z). { unfold cexp. rewrite M. cbn [mag_val]. unfold fexp32, FLT_exp. lia. }
    assert (SM : scaled_mantissa radix2 fexp32 r = r * pow2 (24 - m)). { unfold scaled_mantissa. rewrite CE. do 2 f_equal. lia. }
    assert (B : 0 < scaled_mantissa radix2 fexp32 r < pow2 24).
    { rewrite SM. pose proof (bpow_gt_0 radix2 (24 - m)) as PB. split; [nra|]. replace 24%Z with (m + (24 - m))%Z at 2 by lia. rewrite bpow_plus. nra. }
    assert (Z1 : (0 <= Zfloor (scaled_mantissa radix2 fexp32 r) < 2 ^ 24)%Z).
    { split; [apply Zfloor_lub; lra|]. apply lt_IZR. apply Rle_lt_trans with (1 := Zfloor_lb _). exact (proj2 B). }
    destruct (lit_exact (Zfloor (scaled_mantissa radix2 fexp32 r)) (cexp radix2 fexp32 r)) as [F V]; [lia|rewrite CE; lia|].
    split; [exact F|]. rewrite V, CE.
    pose proof (Zfloor_lb (scaled_mantissa radix2 fexp32 r)) as A1. pose proof (Zfloor_ub (scaled_mantissa radix2 fexp32 r)) as A2.
    set (k := IZR (Zfloor (scaled_mantissa radix2 fexp32 r))) in *. rewrite SM in A1, A2.
    assert (Q : r = r * pow2 (24 - m) * pow2 (m - 24)). { rewrite Rmult_assoc, <- bpow_plus. replace (24 - m + (m - 24))%Z with 0%Z by lia. cbn. ring. }
    assert (PB : 0 < pow2 (m - 24)) by apply bpow_gt_0.
    assert (T : pow2 (m - 24) <= pow2 (-23) * r). { replace (m - 24)%Z with (-23 + (m - 1))%Z by lia. rewrite bpow_plus. apply Rmult_le_compat_l; [apply bpow_ge_0|tauto]. }
    apply Rabs_le. nra.
  - intros MO H. destruct (C88_hyperbolic_exact MO 0 H) as (_ & -> & _). unfold cosh. rewrite Ropp_0, exp_0. lra.
Qed.

(** ** tanh *)

From Coquelicot Require Import Coquelicot.

Lemma mono_from_0 (f df : R -> R) x : (forall t, is_derive f t (df t)) -> (forall t, 0 <= t -> 0 <= df t) -> f 0 = 0 -> 0 <= x -> 0 <= f x.
Proof.
  intros D P F0 [Hx| <-]; [|lra]. destruct (MVT_cor2 f df 0 x Hx) as (c & E & Hc); [intros; now apply is_derive_Reals|].
  rewrite F0 in E. specialize (P c ltac:(lra)). nra.
Qed.
Lemma tanh_bounds x : 0 <= x -> x - x * x * x / 3 <= tanh x <= x.
Proof.
  intros Hx. assert (C : 0 < cosh x) by (unfold cosh; pose proof (exp_pos x); pose proof (exp_pos (- x)); lra).
  assert (S0 : forall t, 0 <= t -> 0 <= exp t - exp (- t)).
  { intros t Ht. assert (- t <= t) by lra. destruct (Rle_lt_or_eq_dec (- t) t ltac:(lra)) as [L|L]; [apply exp_increasing in L; lra|rewrite L; lra]. }
  assert (G : forall t, 0 <= t -> 0 <= t * (exp t + exp (- t)) - (exp t - exp (- t))).
  { intros t Ht. apply (mono_from_0 (fun t => t * (exp t + exp (- t)) - (exp t - exp (- t))) (fun t => t * (exp t - exp (- t)))); [|intros u Hu; apply Rmult_le_pos; auto| |exact Ht].
    - intros u. auto_derive; [trivial|ring].
    - rewrite Ropp_0. ring. }
  assert (H : 0 <= (exp x - exp (- x)) - (x - x * x * x / 3) * (exp x + exp (- x))).
  { apply (mono_from_0 (fun x => (exp x - exp (- x)) - (x - x * x * x / 3) * (exp x + exp (- x)))
      (fun t => t * (t * (exp t + exp (- t)) - (exp t - exp (- t))) + t * t * t / 3 * (exp t - exp (- t)))); [| | |exact Hx].
    - intros u. auto_derive; [trivial|field].
    - intros t Ht. specialize (G t Ht). specialize (S0 t Ht). assert (0 <= t * t * t) by (repeat apply Rmult_le_pos; assumption). nra.
    - rewrite Ropp_0. field. }
  specialize (G x Hx). unfold tanh. split.
  - apply Rmult_le_reg_r with (cosh x); [exact C|]. replace (sinh x / cosh x * cosh x) with (sinh x) by (field; lra). unfold sinh, cosh. lra.
  - apply Rmult_le_reg_r with (cosh x); [exact C|]. replace (sinh x / cosh x * cosh x) with (sinh x) by (field; lra). unfold sinh, cosh. lra.
Qed.
Lemma tanh_neg x : tanh (- x) = - tanh x.
Proof. unfold tanh, sinh, cosh. rewrite Ropp_involutive. pose proof (exp_pos x). pose proof (exp_pos (- x)). field; repeat split; lra. Qed.

(** C88: near 0 [tanh] is the hyperbolic tangent up to |x|^3/2 (exact arithmetic; the f32 error of
    the formula is C74). *)
Theorem C88_tanh_near_zero : forall x : R, Rabs x <= 1 -> Rabs (tanh_ x - tanh x) <= Rabs x * (x * x) / 2.
Proof.
  assert (G : forall x, 0 <= x <= 1 -> Rabs (tanh_ x - tanh x) <= x * (x * x) / 2).
  { intros x H. destruct (tanh_bounds x ltac:(lra)) as [L U]. rewrite C74_tanh_exact. assert (P : 0 < 1 + x * x / 2) by nra.
    assert (A : x - x * (x * x) / 2 <= x / (1 + x * x / 2)).
    { apply Rmult_le_reg_r with (1 + x * x / 2); [exact P|]. replace (x / (1 + x * x / 2) * (1 + x * x / 2)) with x by (field; lra).
      assert (0 <= x * (x * x) * (x * x)) by (apply Rmult_le_pos; [apply Rmult_le_pos; nra|nra]). nra. }
    assert (B : x / (1 + x * x / 2) <= x).
    { apply Rmult_le_reg_r with (1 + x * x / 2); [exact P|]. replace (x / (1 + x * x / 2) * (1 + x * x / 2)) with x by (field; lra).
      assert (0 <= x * (x * x)) by (apply Rmult_le_pos; nra). nra. }
    assert (0 <= x * (x * x)) by (apply Rmult_le_pos; nra). apply Rabs_le. lra. }
  intros x H. apply Rabs_le_inv in H. destruct (Rle_lt_dec 0 x) as [P|N].
  - rewrite (Rabs_pos_eq x) by exact P. apply G. lra.
  - rewrite (Rabs_left x) by exact N. specialize (G (- x) ltac:(lra)). rewrite tanh_neg in G.
    destruct (C74_tanh_bounded x) as (O & _). rewrite O in G. replace (tanh_ x - tanh x) with (- (- tanh_ x - - tanh x)) by ring.
    rewrite Rabs_Ropp. apply Rle_trans with (1 := G). lra.
Qed.
Print Assumptions C88_tanh_near_zero.

Example C88_tanh_example : tanh_ (1 / 2 : R) = 4 / 9 /\ Rabs (1 / 2) <= 1.
Proof. rewrite C74_tanh_exact. split; [lra|rewrite Rabs_pos_eq; lra]. Qed.
