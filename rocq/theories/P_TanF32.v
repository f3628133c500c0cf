(** * Proofs: the tangent in f32 (C97). *)

From Coq Require Import ZArith List Bool Reals Lia Lra Psatz.
From Flocq Require Import Core.
From Verif Require Import Base F32 F32Lemmas F32Range Num M_FloatMath M_Biquad S_Biquad S_BiquadF32 S_DesignF32 S_TanF32 P_DelayNum P_Interp P_Biquad P_DesignF32.
Local Open Scope R_scope.

Definition fl : R := pow2 (-130).
Lemma fl_range : 0 < fl <= u / 1099511627776 /\ t <= fl / 1000.
Proof.
  split; [split; [apply bpow_gt_0|]|].
  - unfold fl. apply Rle_trans with (pow2 (-24) * pow2 (-40)); [rewrite <- bpow_plus; apply bpow_le; lia|].
    rewrite u_eq. right. cbn. unfold u. field.
  - unfold t, fl. replace (-150)%Z with (-130 + -20)%Z by lia. rewrite bpow_plus. pose proof (bpow_gt_0 radix2 (-130)).
    replace (pow2 (-20)) with (/ 1048576) by (cbn; lra). lra.
Qed.

Lemma ratio_R (A B a b : R) : 1 <= a -> 1 <= b -> Rabs (A - a) <= u * a -> Rabs (B - b) <= u * b ->
  B <> 0 /\ Rabs (A / B - a / b) <= 2001 / 1000 * u * (a / b) /\ 0 < A / B.
Proof.
  intros Ha Hb EA EB. apply Rabs_le_inv in EA, EB. assert (U : u = / 16777216) by reflexivity.
  assert (PA : 0 < A) by nra. assert (PB : 0 < B) by nra.
  assert (Pr : 0 < a / b) by (apply Rdiv_lt_0_compat; lra).
  split; [lra|]. split; [|now apply Rdiv_lt_0_compat].
  assert (X : A / B * B = A) by (field; lra). assert (Y : a / b * b = a) by (field; lra).
  set (z := A / B) in *. set (r := a / b) in *. clearbody z r.
  assert (Pz : 0 < z). { apply Rmult_lt_reg_r with B; [lra|]. lra. }
  apply Rabs_le. split.
  - apply Rmult_le_reg_r with B; [lra|]. nra.
  - apply Rmult_le_reg_r with B; [lra|]. nra.
Qed.

Lemma tiny : t <= u / 1267650600228229401496703205376 /\ fl <= u / 1267650600228229401496703205376.
Proof.
  assert (H : u / 1267650600228229401496703205376 = pow2 (-124)).
  { replace (-124)%Z with (-24 + -100)%Z by lia. rewrite bpow_plus, u_eq. reflexivity. }
  rewrite H. unfold t, fl. split; apply bpow_le; lia.
Qed.

Section Tan.
Context {NP : NanPolicy}.

Lemma lit_close (a : Z) : (1 <= a <= 1073741824)%Z -> fin (of_int a) = true /\ Rabs (val (of_int a) - IZR a) <= u * IZR a.
Proof.
  intros H. assert (H1 : 1 <= IZR a <= 1073741824) by (split; apply IZR_le; lia).
  destruct (of_int_spec a) as [F V]; [lia|]. split; [exact F|]. rewrite V.
  rewrite <- u_eq. rewrite <- (Rabs_pos_eq (IZR a)) at 3 by lra. apply rnd_err_rel.
  rewrite Rabs_pos_eq by lra. apply Rle_trans with (pow2 0); [apply bpow_le; lia|cbn; lra].
Qed.

(** A quotient of two integer literals. *)
Lemma ratio_ok (a b : Z) : (1 <= a <= 1073741824)%Z -> (1 <= b <= 1073741824)%Z -> (a <= b)%Z ->
  fin (fdiv (of_int a) (of_int b)) = true /\
  Rabs (val (fdiv (of_int a) (of_int b)) - IZR a / IZR b) <= 31 / 10 * u * (IZR a / IZR b).
Proof.
  intros Ha Hb Hab. destruct (lit_close a Ha) as [Fa Ea]. destruct (lit_close b Hb) as [Fb Eb].
  assert (Ra : 1 <= IZR a <= IZR b) by (split; apply IZR_le; lia). assert (Rb : IZR b <= 1073741824) by (apply IZR_le; lia).
  destruct (ratio_R _ _ _ _ (proj1 Ra) (Rle_trans _ _ _ (proj1 Ra) (proj2 Ra)) Ea Eb) as (N & E & P).
  assert (L : / 1073741824 <= IZR a / IZR b <= 1).
  { split.
    - apply Rle_trans with (/ IZR b); [apply Rinv_le_contravar; lra|]. unfold Rdiv. rewrite <- (Rmult_1_l (/ IZR b)) at 1.
      apply Rmult_le_compat_r; [left; apply Rinv_0_lt_compat; lra|lra].
    - apply Rmult_le_reg_r with (IZR b); [lra|]. unfold Rdiv. rewrite Rmult_assoc, Rinv_l by lra. lra. }
  pose proof t_range as T. apply Rabs_le_inv in E.
  destruct (div_u (of_int a) (of_int b) Fa N) as [F D].
  { apply small100. rewrite Rabs_pos_eq by lra. unfold u in *. lra. }
  split; [exact F|]. rewrite (Rabs_pos_eq (val (of_int a) / val (of_int b))) in D by lra.
  set (z := val (of_int a) / val (of_int b)) in *. set (r := IZR a / IZR b) in *. apply Rabs_le_inv in D.
  apply Rabs_le. unfold u in *. lra.
Qed.

Lemma term_R (c p r T Ta : R) : 0 < r <= 1 -> Rabs (c - r) <= 31 / 10 * u * r -> Rabs T <= Ta -> Rabs (p - T) <= 16 * u * Ta + fl ->
  Rabs (c * p - r * T) <= 1911 / 100 * u * (r * Ta) + 1001 / 1000 * r * fl.
Proof.
  intros Hr Ec ET Ep. pose proof fl_range as [F _].
  replace (c * p - r * T) with (c * (p - T) + T * (c - r)) by ring. eapply Rle_trans; [apply Rabs_triang|]. rewrite !Rabs_mult.
  assert (Bc : Rabs c <= (1 + 31 / 10 * u) * r).
  { apply Rabs_le_inv in Ec. apply Rabs_le. unfold u in *. lra. }
  pose proof (Rabs_pos c). pose proof (Rabs_pos T). pose proof (Rabs_pos (p - T)). pose proof (Rabs_pos (c - r)).
  assert (A1 : Rabs c * Rabs (p - T) <= (1 + 31 / 10 * u) * r * (16 * u * Ta + fl)) by (apply Rmult_le_compat; assumption).
  assert (A2 : Rabs T * Rabs (c - r) <= Ta * (31 / 10 * u * r)) by (apply Rmult_le_compat; assumption).
  assert (Z : 0 <= r * Ta) by nra. assert (Z' : 0 <= r * fl) by nra.
  assert (A3 : (1 + 31 / 10 * u) * r * (16 * u * Ta + fl) + Ta * (31 / 10 * u * r) =
    ((1 + 31 / 10 * u) * 16 + 31 / 10) * u * (r * Ta) + (1 + 31 / 10 * u) * (r * fl)) by ring.
  unfold u in *. lra.
Qed.

Definition acc_ok (a : f32) (P Pa e f : R) : Prop := fin a = true /\ Rabs (val a - P) <= e * u * Pa + f * fl /\ Rabs P <= Pa.

Lemma tan_step (MO : MathOps f32) (x acc : f32) (P Pa e f : R) (a b n : Z) :
  close_powi MO -> fin x = true -> Rabs (val x) <= 2 -> (1 <= n <= 15)%Z ->
  (1 <= a <= 1073741824)%Z -> (1 <= b <= 1073741824)%Z -> (a <= b)%Z ->
  acc_ok acc P Pa e f -> 0 <= Pa <= 1000 -> 203 / 10 <= e <= 40 -> 0 <= f <= 1 ->
  acc_ok (fadd acc (fmul (fdiv (of_int a) (of_int b)) (m_powi x n))) (P + IZR a / IZR b * val x ^ Z.to_nat n)
    (Pa + IZR a / IZR b * Rabs (val x) ^ Z.to_nat n) (e + 101 / 100) (f + 102 / 100 * (IZR a / IZR b) + 1 / 100).
Proof.
  intros HM Fx Hx Hn Ha Hb Hab (Facc & Eacc & BP) HPa He Hf.
  destruct (HM x n Hn Fx Hx) as [Fp Ep]. destruct (ratio_ok a b Ha Hb Hab) as [Fc Ec].
  assert (Hr : 0 < IZR a / IZR b <= 1).
  { assert (1 <= IZR a <= IZR b) by (split; apply IZR_le; lia). split; [apply Rdiv_lt_0_compat; lra|].
    apply Rmult_le_reg_r with (IZR b); [lra|]. unfold Rdiv. rewrite Rmult_assoc, Rinv_l by lra. lra. }
  set (r := IZR a / IZR b) in *. set (c := fdiv (of_int a) (of_int b)) in *. set (p := m_powi x n) in *.
  assert (ET : Rabs (val x ^ Z.to_nat n) <= Rabs (val x) ^ Z.to_nat n) by (rewrite RPow_abs; lra).
  assert (BT : 0 <= Rabs (val x) ^ Z.to_nat n <= 32768).
  { split; [apply pow_le, Rabs_pos|]. replace 32768 with (2 ^ 15) by lra.
    apply Rle_trans with (2 ^ Z.to_nat n); [apply pow_incr; split; [apply Rabs_pos|exact Hx]|apply Rle_pow; [lra|lia]]. }
  set (T := val x ^ Z.to_nat n) in *. set (Ta := Rabs (val x) ^ Z.to_nat n) in *.
  replace (pow2 (-20)) with (16 * u) in Ep by (unfold u; cbn; lra). fold fl in Ep. clearbody r c p T Ta. clear Ha Hb Hab Hn Hx HM Fx.
  pose proof (term_R (val c) (val p) r T Ta Hr Ec ET Ep) as Et.
  pose proof fl_range as [Fl Ft]. pose proof t_range as Tt.
  assert (Z0 : 0 <= r * Ta <= 32768) by nra.
  assert (Z1 : Rabs (r * T) <= r * Ta) by (rewrite Rabs_mult, (Rabs_pos_eq r) by lra; apply Rmult_le_compat_l; lra).
  assert (Z2 : 0 <= r * fl <= fl) by nra.
  destruct (mul_u c p Fc Fp) as [Fm Em].
  { apply small100. apply Rabs_le_inv in Et, Z1. apply Rabs_le. unfold u in *. lra. }
  assert (Em' : Rabs (val (fmul c p) - r * T) <= 2012 / 100 * u * (r * Ta) + 1002 / 1000 * (r * fl) + fl / 1000).
  { assert (Q : Rabs (val c * val p) <= (1 + 1911 / 100 * u) * (r * Ta) + 1001 / 1000 * (r * fl)).
    { replace (val c * val p) with ((val c * val p - r * T) + r * T) by ring. eapply Rle_trans; [apply Rabs_triang|]. lra. }
    replace (val (fmul c p) - r * T) with ((val (fmul c p) - val c * val p) + (val c * val p - r * T)) by ring.
    eapply Rle_trans; [apply Rabs_triang|]. unfold u in *. lra. }
  clear Et Em Ep Ec. set (m := fmul c p) in *. clearbody m. clear Fc Fp.
  assert (Eu : 0 <= e * u * Pa <= 40 * u * 1000).
  { split; [apply Rmult_le_pos; [unfold u; nra|lra]|]. apply Rmult_le_compat; unfold u in *; nra. }
  assert (Ef : 0 <= f * fl <= fl) by nra.
  apply Rabs_le_inv in Eacc, Em', BP. pose proof Z1 as Z1'. apply Rabs_le_inv in Z1.
  assert (Eq : e * u * (r * Ta) >= 203 / 10 * u * (r * Ta)).
  { apply Rle_ge. apply Rmult_le_compat_r; [lra|]. unfold u. lra. }
  destruct (add_u acc m Facc Fm) as [Fs Es].
  { apply small100. apply Rabs_le. unfold u in *. lra. }
  assert (Q : Rabs (val acc + val m) <= 1001 / 1000 * (Pa + r * Ta) + 3 * fl).
  { assert (e * u * Pa <= 40 * u * Pa) by (apply Rmult_le_compat_r; [lra|unfold u; lra]). apply Rabs_le. split; unfold u in *; lra. }
  split; [exact Fs|]. split.
  - apply Rabs_le_inv in Es. rewrite !Rmult_plus_distr_l, !Rmult_plus_distr_r. rewrite !Rmult_plus_distr_l in Q.
    assert (U : u * Rabs (val acc + val m) <= u * (1001 / 1000 * Pa + 1001 / 1000 * (r * Ta) + 3 * fl)) by (apply Rmult_le_compat_l; [unfold u; lra|exact Q]).
    apply Rabs_le. split; unfold u in *; lra.
  - apply Rabs_le. lra.
Qed.
Lemma fast_tan_shape (MO : MathOps f32) (x : f32) : fast_tan x =
  fadd (fadd (fadd (fadd (fadd (fadd (fadd (fadd (of_int 0) x)
    (fmul (fdiv (of_int 1) (of_int 3)) (m_powi x 3))) (fmul (fdiv (of_int 2) (of_int 15)) (m_powi x 5)))
    (fmul (fdiv (of_int 17) (of_int 315)) (m_powi x 7))) (fmul (fdiv (of_int 62) (of_int 2835)) (m_powi x 9)))
    (fmul (fdiv (of_int 1382) (of_int 155925)) (m_powi x 11))) (fmul (fdiv (of_int 21844) (of_int 6081075)) (m_powi x 13)))
    (fmul (fdiv (of_int 929569) (of_int 638512875)) (m_powi x 15)).
Proof. unfold fast_tan. reflexivity. Qed.

Lemma fast_tan_f32 (MO : MathOps f32) (x : f32) : close_powi MO -> fin x = true -> Rabs (val x) <= 2 ->
  fin (fast_tan x) = true /\ Rabs (val (fast_tan x) - tan_poly (val x)) <= 28 * u * tan_poly (Rabs (val x)) + fl.
Proof.
  intros HM Fx Hx. rewrite fast_tan_shape. pose proof fl_range as [Fl _].
  destruct (of_int_exact 0 ltac:(lia)) as [F0 V0].
  assert (A0 : acc_ok (fadd (of_int 0) x) (val x) (Rabs (val x)) (203 / 10) 0).
  { assert (R : rnd (val (of_int 0) + val x) = val x) by (rewrite V0, Rplus_0_l; apply rnd_repr, repr_val).
    destruct (fadd_spec (of_int 0) x F0 Fx) as [F V]; [rewrite R; apply Rle_lt_trans with (pow2 1); [exact Hx|apply bpow_lt; lia]|].
    split; [exact F|]. rewrite V, R. split; [|lra]. rewrite Rminus_eq_0, Rabs_R0. pose proof (Rabs_pos (val x)). unfold u. lra. }
  pose proof (Rabs_pos (val x)) as X0. set (y := Rabs (val x)) in *.
  assert (B3 : 0 <= y ^ 3 <= 8) by (split; [apply pow_le; lra|replace 8 with (2 ^ 3) by lra; apply pow_incr; lra]).
  assert (B5 : 0 <= y ^ 5 <= 32) by (split; [apply pow_le; lra|replace 32 with (2 ^ 5) by lra; apply pow_incr; lra]).
  assert (B7 : 0 <= y ^ 7 <= 128) by (split; [apply pow_le; lra|replace 128 with (2 ^ 7) by lra; apply pow_incr; lra]).
  assert (B9 : 0 <= y ^ 9 <= 512) by (split; [apply pow_le; lra|replace 512 with (2 ^ 9) by lra; apply pow_incr; lra]).
  assert (B11 : 0 <= y ^ 11 <= 2048) by (split; [apply pow_le; lra|replace 2048 with (2 ^ 11) by lra; apply pow_incr; lra]).
  assert (B13 : 0 <= y ^ 13 <= 8192) by (split; [apply pow_le; lra|replace 8192 with (2 ^ 13) by lra; apply pow_incr; lra]).
  assert (B15 : 0 <= y ^ 15 <= 32768) by (split; [apply pow_le; lra|replace 32768 with (2 ^ 15) by lra; apply pow_incr; lra]).
  pose proof (tan_step MO x _ _ _ _ _ 1 3 3 HM Fx Hx ltac:(lia) ltac:(lia) ltac:(lia) ltac:(lia) A0 ltac:(lra) ltac:(lra) ltac:(lra)) as A1. clear A0.
  change (Z.to_nat 3) with 3%nat in A1. fold y in A1.
  pose proof (tan_step MO x _ _ _ _ _ 2 15 5 HM Fx Hx ltac:(lia) ltac:(lia) ltac:(lia) ltac:(lia) A1 ltac:(lra) ltac:(lra) ltac:(lra)) as A2. clear A1.
  change (Z.to_nat 5) with 5%nat in A2. fold y in A2.
  pose proof (tan_step MO x _ _ _ _ _ 17 315 7 HM Fx Hx ltac:(lia) ltac:(lia) ltac:(lia) ltac:(lia) A2 ltac:(lra) ltac:(lra) ltac:(lra)) as A3. clear A2.
  change (Z.to_nat 7) with 7%nat in A3. fold y in A3.
  pose proof (tan_step MO x _ _ _ _ _ 62 2835 9 HM Fx Hx ltac:(lia) ltac:(lia) ltac:(lia) ltac:(lia) A3 ltac:(lra) ltac:(lra) ltac:(lra)) as A4. clear A3.
  change (Z.to_nat 9) with 9%nat in A4. fold y in A4.
  pose proof (tan_step MO x _ _ _ _ _ 1382 155925 11 HM Fx Hx ltac:(lia) ltac:(lia) ltac:(lia) ltac:(lia) A4 ltac:(lra) ltac:(lra) ltac:(lra)) as A5. clear A4.
  change (Z.to_nat 11) with 11%nat in A5. fold y in A5.
  pose proof (tan_step MO x _ _ _ _ _ 21844 6081075 13 HM Fx Hx ltac:(lia) ltac:(lia) ltac:(lia) ltac:(lia) A5 ltac:(lra) ltac:(lra) ltac:(lra)) as A6. clear A5.
  change (Z.to_nat 13) with 13%nat in A6. fold y in A6.
  pose proof (tan_step MO x _ _ _ _ _ 929569 638512875 15 HM Fx Hx ltac:(lia) ltac:(lia) ltac:(lia) ltac:(lia) A6 ltac:(lra) ltac:(lra) ltac:(lra)) as A7. clear A6.
  change (Z.to_nat 15) with 15%nat in A7. fold y in A7.
  destruct A7 as (F7 & E7 & _). split; [exact F7|]. set (z := val (fadd _ _)) in *. clearbody z. clear F7 HM.
  replace (tan_poly (val x)) with (val x + 1 / 3 * val x ^ 3 + 2 / 15 * val x ^ 5 + 17 / 315 * val x ^ 7 + 62 / 2835 * val x ^ 9
    + 1382 / 155925 * val x ^ 11 + 21844 / 6081075 * val x ^ 13 + 929569 / 638512875 * val x ^ 15) by (unfold tan_poly; field).
  eapply Rle_trans; [exact E7|].
  replace (tan_poly y) with (y + 1 / 3 * y ^ 3 + 2 / 15 * y ^ 5 + 17 / 315 * y ^ 7 + 62 / 2835 * y ^ 9
    + 1382 / 155925 * y ^ 11 + 21844 / 6081075 * y ^ 13 + 929569 / 638512875 * y ^ 15) by (unfold tan_poly; field).
  set (S := y + _ + _ + _ + _ + _ + _ + _). assert (PS : 0 <= S) by (unfold S; lra). clearbody S. unfold u. lra.
Qed.
End Tan.

(** The polynomial stretches relative errors by at most its degree. *)
Lemma tan_poly_scale r x y : 1 <= r -> 0 <= x <= r * y -> 0 <= y -> tan_poly x <= r ^ 15 * tan_poly y.
Proof.
  intros Hr Hx Hy.
  assert (P : forall n, (n <= 15)%nat -> x ^ n <= r ^ 15 * y ^ n).
  { intros n Hn. apply Rle_trans with ((r * y) ^ n); [apply pow_incr; lra|]. rewrite Rpow_mult_distr.
    apply Rmult_le_compat_r; [now apply pow_le|]. now apply Rle_pow. }
  pose proof (P 1%nat ltac:(lia)) as P1. rewrite !pow_1 in P1.
  pose proof (P 3%nat ltac:(lia)) as P3. pose proof (P 5%nat ltac:(lia)) as P5.
  pose proof (P 7%nat ltac:(lia)) as P7. pose proof (P 9%nat ltac:(lia)) as P9. pose proof (P 11%nat ltac:(lia)) as P11.
  pose proof (P 13%nat ltac:(lia)) as P13. pose proof (P 15%nat ltac:(lia)) as P15. clear P.
  unfold tan_poly. set (R15 := r ^ 15) in *. clearbody R15.
  replace (R15 * _) with (R15 * y + R15 * y ^ 3 / 3 + 2 / 15 * (R15 * y ^ 5) + 17 / 315 * (R15 * y ^ 7) + 62 / 2835 * (R15 * y ^ 9)
    + 1382 / 155925 * (R15 * y ^ 11) + 21844 / 6081075 * (R15 * y ^ 13) + 929569 / 638512875 * (R15 * y ^ 15)) by field.
  lra.
Qed.

Lemma tan_poly_ge x : 0 <= x -> x <= tan_poly x.
Proof.
  intros H. unfold tan_poly. pose proof (pow_le x 3 H). pose proof (pow_le x 5 H). pose proof (pow_le x 7 H). pose proof (pow_le x 9 H).
  pose proof (pow_le x 11 H). pose proof (pow_le x 13 H). pose proof (pow_le x 15 H). lra.
Qed.

Lemma tan_poly_top x : 0 <= x <= 3 / 2 -> tan_poly x <= 15.
Proof.
  intros H. apply Rle_trans with (tan_poly (3 / 2)); [|unfold tan_poly; lra].
  rewrite <- (Rmult_1_l (tan_poly (3 / 2))), <- (pow1 15). apply tan_poly_scale; lra.
Qed.

Lemma r15 : (1 + 202 / 100 * u) ^ 15 <= 1 + 31 * u.
Proof.
  assert (H : forall n e, 0 <= e <= / 100000 -> (n <= 15)%nat -> (1 + e) ^ n <= 1 + (INR n + / 100 * INR n) * e).
  { intros n e He Hn. induction n; [cbn; lra|]. rewrite S_INR. cbn [pow].
    assert (I : 0 <= INR n <= 15) by (split; [apply pos_INR|replace 15 with (INR 15) by (cbn; lra); apply le_INR; lia]).
    specialize (IHn ltac:(lia)). eapply Rle_trans; [apply Rmult_le_compat_l; [lra|exact IHn]|]. set (k := INR n) in *. clearbody k.
    assert (0 <= k * e) by nra. assert (k * e * e <= 15 * / 100000 * e) by (apply Rmult_le_compat_r; [lra|apply Rmult_le_compat; lra]). lra. }
  eapply Rle_trans; [apply (H 15%nat (202 / 100 * u)); [unfold u; lra|lia]|]. cbn [INR]. unfold u. lra.
Qed.

(** A relative error of the argument and one of the evaluation. *)
Lemma tan_rel x y k : 0 < y <= 3 / 2 -> pow2 (-30) <= y -> Rabs (x - y) <= 201 / 100 * u * y ->
  Rabs (k - tan_poly x) <= 28 * u * tan_poly x + fl -> Rabs (k - tan_poly y) <= 60 * u * tan_poly y.
Proof.
  intros Hy Hy' Ex Ek. replace (pow2 (-30)) with (/ 1073741824) in Hy' by (cbn; lra). apply Rabs_le_inv in Ex, Ek.
  pose proof (tan_poly_ge y ltac:(lra)) as G. pose proof (proj1 fl_range) as [Fl _]. pose proof (proj2 tiny) as Fl'.
  assert (r1 : 1 <= 1 + 202 / 100 * u) by (unfold u; lra).
  assert (r2 : 0 <= x <= (1 + 202 / 100 * u) * y) by (unfold u in *; lra).
  assert (r3 : 0 <= y <= (1 + 202 / 100 * u) * x) by (unfold u in *; lra).
  assert (x0 : 0 <= x) by lra. assert (y0 : 0 <= y) by lra.
  assert (PX : 0 <= tan_poly x) by (apply Rle_trans with x; [lra|now apply tan_poly_ge]).
  pose proof (tan_poly_scale _ x y r1 r2 y0) as A. pose proof (tan_poly_scale _ y x r1 r3 x0) as B.
  pose proof r15 as R15. set (r := (1 + 202 / 100 * u) ^ 15) in *. set (Tx := tan_poly x) in *. set (Ty := tan_poly y) in *. clearbody r Tx Ty.
  assert (A' : Tx <= (1 + 31 * u) * Ty) by (eapply Rle_trans; [exact A|apply Rmult_le_compat_r; lra]).
  assert (B' : Ty <= (1 + 31 * u) * Tx) by (eapply Rle_trans; [exact B|apply Rmult_le_compat_r; lra]).
  apply Rabs_le. unfold u in *. lra.
Qed.

Section Setup.
Context {NP : NanPolicy}.

Lemma pi_val : fin (n_pi (F := f32)) = true /\ val (n_pi (F := f32)) = pi32.
Proof.
  destruct (lit_exact 13176795 (-22) ltac:(lia) ltac:(lia)) as [F V]. split; [exact F|].
  change (n_pi (F := f32)) with (lit 13176795 (-22)). rewrite V. unfold pi32. change (pow2 (-22)) with (/ IZR (2 ^ 22)). reflexivity.
Qed.

Lemma pi32_range : 3 < pi32 < 4.
Proof. unfold pi32. change (IZR (2 ^ 22)) with 4194304. lra. Qed.

Lemma arg_ok (fc sr : f32) : fin fc = true -> 1 <= val sr <= 1073741824 ->
  pow2 (-30) <= pi32 * val fc / val sr <= 3 / 2 ->
  let x := fdiv (fmul n_pi fc) sr in fin x = true /\ Rabs (val x - pi32 * val fc / val sr) <= 201 / 100 * u * (pi32 * val fc / val sr).
Proof.
  intros Ff Hs Hx x. replace (pow2 (-30)) with (/ 1073741824) in Hx by (cbn; lra). pose proof pi32_range as HP. destruct pi_val as [Fp Vp].
  assert (E : pi32 * val fc = pi32 * val fc / val sr * val sr) by (field; lra).
  pose proof t_range as T0. pose proof (conj (proj1 T0) (proj1 tiny)) as T. clear T0. set (y := pi32 * val fc / val sr) in *.
  assert (B : / 1073741824 <= pi32 * val fc <= 2147483648) by (rewrite E; split; nra).
  destruct (mul_u n_pi fc Fp Ff) as [Fm Em]; [rewrite Vp; apply small100; rewrite Rabs_pos_eq; lra|].
  rewrite Vp in Em. rewrite (Rabs_pos_eq (pi32 * val fc)) in Em by lra. apply Rabs_le_inv in Em.
  set (m := fmul n_pi fc) in *. unfold x. clearbody m. clear x.
  assert (I : val m / val sr * val sr = val m) by (field; lra).
  assert (Bm : Rabs (val m / val sr - y) <= 1001 / 1000 * u * y).
  { assert (Pr : pi32 * val fc / val sr * val sr = y * val sr) by reflexivity.
    set (z := val m / val sr) in *. clearbody z y. apply Rabs_le. split; apply Rmult_le_reg_r with (val sr); try lra; unfold u in *; nra. }
  apply Rabs_le_inv in Bm.
  destruct (div_u m sr Fm ltac:(lra)) as [Fd Ed]; [apply small100; apply Rabs_le; unfold u in *; lra|].
  split; [exact Fd|]. set (z := val m / val sr) in *. rewrite (Rabs_pos_eq z) in Ed by (unfold u in *; lra).
  apply Rabs_le_inv in Ed. apply Rabs_le. clearbody y z. unfold u in *. lra.
Qed.

(** k^2 and k/q. *)
Lemma setup_ok (MO : MathOps f32) (fc q sr : f32) : close_powi MO -> fin fc = true -> 1 <= val sr <= 1073741824 ->
  pow2 (-30) <= pi32 * val fc / val sr <= 3 / 2 -> / 8 <= val q <= 1024 ->
  let s := snd (setup_coeffs fc q sr) in let k2 := fst (setup_coeffs fc q sr) in let k := design_k (val fc) (val sr) in
  pow2 (-30) <= k <= 15 /\
  fin s = true /\ fin k2 = true /\ Rabs (val s - k / val q) <= 62 * u * (k / val q) /\ Rabs (val k2 - k * k) <= 122 * u * (k * k).
Proof.
  intros HM Ff Hs Hx Hq s k2 k. destruct (arg_ok fc sr Ff Hs Hx) as [Fx Ex].
  assert (Hx' : / 1073741824 <= pi32 * val fc / val sr <= 3 / 2) by (replace (/ 1073741824) with (pow2 (-30)) by (cbn; lra); exact Hx).
  unfold k, design_k. set (y := pi32 * val fc / val sr) in *. set (x := fdiv (fmul n_pi fc) sr) in *.
  pose proof Ex as Ex'. apply Rabs_le_inv in Ex'.
  assert (X2 : 0 <= val x <= 2) by (unfold u in *; lra).
  destruct (fast_tan_f32 MO x HM Fx) as [Fk Ek]; [rewrite Rabs_pos_eq; lra|]. rewrite (Rabs_pos_eq (val x)) in Ek by lra.
  pose proof (tan_rel (val x) y _ ltac:(lra) (proj1 Hx) Ex Ek) as Rk. clear Ek.
  assert (Es : s = fdiv (fast_tan x) q) by reflexivity. assert (E2 : k2 = fmul (fast_tan x) (fast_tan x)) by reflexivity.
  clearbody s k2. subst s k2. set (f := fast_tan x) in *. clearbody f.
  pose proof (tan_poly_ge y ltac:(lra)) as G1. pose proof (tan_poly_top y ltac:(lra)) as G2. set (K := tan_poly y) in *. clearbody K.
  split; [lra|]. apply Rabs_le_inv in Rk. pose proof t_range as T0. pose proof (conj (proj1 T0) (proj1 tiny)) as T. clear T0.
  assert (K0 : / 1073741824 <= K <= 15) by lra. clearbody y. clear Ex Ex' X2 Hx Hx' G1 G2.
  assert (Qb : / 1024 <= / val q <= 8).
  { split; [apply Rinv_le_contravar; lra|]. apply Rle_trans with (/ (/ 8)); [apply Rinv_le_contravar; lra|lra]. }
  destruct (div_u f q Fk ltac:(lra)) as [Fs Es].
  { apply small100. unfold Rdiv. rewrite Rabs_mult, (Rabs_pos_eq (val f)), (Rabs_pos_eq (/ val q)) by (unfold u in *; lra).
    apply Rle_trans with (16 * 8); [apply Rmult_le_compat; unfold u in *; lra|lra]. }
  destruct (mul_u f f Fk Fk) as [Fm Em].
  { apply small100. rewrite Rabs_mult, (Rabs_pos_eq (val f)) by (unfold u in *; lra).
    apply Rle_trans with (16 * 16); [apply Rmult_le_compat; unfold u in *; lra|lra]. }
  split; [exact Fs|]. split; [exact Fm|]. unfold Rdiv in *. set (i := / val q) in *. clearbody i.
  assert (Z : / 1073741824 * / 1024 <= K * i) by (apply Rmult_le_compat; lra). assert (Z2 : / 1073741824 * / 1073741824 <= K * K) by (apply Rmult_le_compat; lra).
  split.
  - assert (F1 : val f * i <= (1 + 60 * u) * (K * i)) by (rewrite <- Rmult_assoc; apply Rmult_le_compat_r; lra).
    assert (F2 : (1 - 60 * u) * (K * i) <= val f * i) by (rewrite <- Rmult_assoc; apply Rmult_le_compat_r; lra).
    set (W := K * i) in *. set (V := val f * i) in *. rewrite (Rabs_pos_eq V) in Es by (unfold u in *; lra). apply Rabs_le_inv in Es.
    apply Rabs_le. clearbody V W. unfold u in *. lra.
  - assert (F1 : val f * val f <= ((1 + 60 * u) * K) * ((1 + 60 * u) * K)) by (apply Rmult_le_compat; unfold u in *; lra).
    assert (F2 : ((1 - 60 * u) * K) * ((1 - 60 * u) * K) <= val f * val f) by (apply Rmult_le_compat; unfold u in *; lra).
    replace (((1 + 60 * u) * K) * ((1 + 60 * u) * K)) with ((1 + 60 * u) * (1 + 60 * u) * (K * K)) in F1 by ring.
    replace (((1 - 60 * u) * K) * ((1 - 60 * u) * K)) with ((1 - 60 * u) * (1 - 60 * u) * (K * K)) in F2 by ring.
    set (W := K * K) in *. set (V := val f * val f) in *. rewrite (Rabs_pos_eq V) in Em by (unfold u in *; lra). apply Rabs_le_inv in Em.
    apply Rabs_le. clearbody V W. unfold u in *. lra.
Qed.
End Setup.

(** ** Sensitivity of the textbook coefficients *)
Lemma sens (S' K' S K N' N m : R) : 0 < S -> 0 < K -> Rabs (S' - S) <= 122 * u * S -> Rabs (K' - K) <= 122 * u * K ->
  Rabs (N' - N) <= m * u * (1 + S + K) -> 0 <= m <= 244 -> Rabs N <= 2 * (1 + S + K) ->
  Rabs (N' / (1 + S' + K') - N / (1 + S + K)) <= 489 * u.
Proof.
  intros PS PK ES EK EN Hm BN. apply Rabs_le_inv in ES, EK.
  set (D := 1 + S + K) in *. assert (HD : Rabs (1 + S' + K' - D) <= 122 * u * D) by (apply Rabs_le; unfold D, u in *; lra).
  assert (D1 : 1 <= D) by (unfold D; lra). set (D' := 1 + S' + K') in *. clearbody D D'. clear ES EK.
  apply Rabs_le_inv in HD. assert (D1' : 999 / 1000 * D <= D') by (unfold u in *; lra).
  assert (X : N' / D' - N / D = ((N' - N) + N / D * (D - D')) / D') by (field; lra).
  rewrite X. unfold Rdiv at 1. rewrite Rabs_mult. rewrite (Rabs_pos_eq (/ D')) by (left; apply Rinv_0_lt_compat; lra).
  apply Rmult_le_reg_r with D'; [lra|]. rewrite Rmult_assoc, Rinv_l, Rmult_1_r by lra.
  assert (Y : Rabs (N / D) <= 2).
  { unfold Rdiv. rewrite Rabs_mult, (Rabs_pos_eq (/ D)) by (left; apply Rinv_0_lt_compat; lra).
    apply Rmult_le_reg_r with D; [lra|]. rewrite Rmult_assoc, Rinv_l, Rmult_1_r by lra. lra. }
  eapply Rle_trans; [apply Rabs_triang|]. rewrite Rabs_mult.
  assert (Z : Rabs (D - D') <= 122 * u * D) by (apply Rabs_le; lra).
  assert (W : Rabs (N / D) * Rabs (D - D') <= 2 * (122 * u * D)) by (apply Rmult_le_compat; try apply Rabs_pos; assumption).
  assert (m * u * D <= 244 * u * D) by (apply Rmult_le_compat_r; [lra|unfold u; lra]). unfold u in *. lra.
Qed.
