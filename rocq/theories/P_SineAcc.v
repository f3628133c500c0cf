(** * Accuracy of the fixed-point sine against the real sine. *)

From Coq Require Import ZArith List Bool Lia Reals Lra Psatz Machin.
From Flocq Require Import Core.
From Verif Require Import S_Sine.
Import ListNotations.

(** ** Tools: sweeping a finite range *)
Open Scope Z_scope.
Fixpoint sweep (f : Z -> bool) (k : Z) (n : nat) : bool :=
  match n with O => true | S n' => if f k then sweep f (k + 1) n' else false end.
Lemma sweep_ok f n : forall k, sweep f k n = true -> forall z, k <= z < k + Z.of_nat n -> f z = true.
Proof.
  induction n as [|n I]; intros k H z Hz; [lia|]. cbn [sweep] in H.
  destruct (f k) eqn:E; [|discriminate].
  destruct (Z.eq_dec z k) as [->|N]; [exact E|]. apply (I (k + 1) H). lia.
Qed.

(** The same polynomial with shifts, which compute faster. *)
Fixpoint horner_fast (p : Z) (d : nat) (acc : Z) : Z :=
  match d with
  | O => acc
  | S d' => horner_fast p d' (Z.shiftr (Z.shiftr ((acc + sin_coeff d) * p) 15 * p) 15)
  end.
Definition sin_fast (p : Z) (d : nat) : Z :=
  clamp16 (Z.shiftr ((horner_fast p d 0 + sin_coeff 0) * p) 16).
Lemma horner_fast_ok p d : forall acc, horner_fast p d acc = sin_horner p d acc.
Proof.
  induction d as [|d I]; intros acc; [reflexivity|]. cbn [horner_fast sin_horner].
  now rewrite I, !Z.shiftr_div_pow2 by lia.
Qed.
Lemma sin_fast_ok p d : sin_fast p d = sin_fixed p d.
Proof. unfold sin_fast, sin_fixed. now rewrite horner_fast_ok, Z.shiftr_div_pow2 by lia. Qed.

(** ** Integer facts, one per phase *)

(** The angle in units of 2^-24 and the numerators of its Taylor polynomials. *)
Definition angle24 (n : Z) : Z := (3141592654 * 2 ^ 24 * n) / (65534 * 1000000000).
Definition taylor11 (q : Z) : Z :=
  let t := q * q in
  q * (39916800 * 2 ^ 240 - t * (6652800 * 2 ^ 192 - t * (332640 * 2 ^ 144 - t * (7920 * 2 ^ 96 - t * (110 * 2 ^ 48 - t))))).
Definition unit11 : Z := 39916800 * 2 ^ 264.
Definition taylor10 (q : Z) : Z :=
  let t := q * q in
  3628800 * 2 ^ 240 - t * (1814400 * 2 ^ 192 - t * (151200 * 2 ^ 144 - t * (5040 * 2 ^ 96 - t * (90 * 2 ^ 48 - t)))).
Definition unit10 : Z := 3628800 * 2 ^ 240.

(** Value and slope of the ideal curve at phase [n], in units of 2^-20. *)
Definition knot (n : Z) : Z := (32767 * 2 ^ 20 * taylor11 (angle24 n)) / unit11.
Definition slope (n : Z) : Z := (3141592654 * 2 ^ 20 * taylor10 (angle24 n)) / (2000000000 * unit10).

(** The values at [n] and [- n] against a reference [r] in units of 2^-20:
    at most 3.06 below and 0.29 above, and below full scale. *)
Definition near_ok (n r : Z) : bool :=
  let v := sin_fast n 4 in
  let a := Z.shiftl v 20 - r in
  let b := Z.shiftl (sin_fast (- n) 4) 20 + r in
  (- 3208642 <=? a) && (a <=? 304087) && (- 3208642 <=? b) && (b <=? 304087) &&
  ((32768 <=? n) || (v <=? 32766)).
(** 64 phases around a knot follow its tangent. *)
Fixpoint line_ok (n r d : Z) (m : nat) : bool :=
  match m with O => true | S m' => if near_ok n r then line_ok (n + 1) (r + d) d m' else false end.
Definition block_ok (j : Z) : bool :=
  let n := 64 * j in let s := knot n in let d := slope n in line_ok (n - 32) (s - 32 * d) d 64.
Lemma block_sweep : sweep block_ok 0 (Z.to_nat 513) = true.
Proof. vm_cast_no_check (eq_refl true). Qed.

Lemma line_ok_spec m : forall n r d, line_ok n r d m = true -> forall i, 0 <= i < Z.of_nat m -> near_ok (n + i) (r + i * d) = true.
Proof.
  induction m as [|m I]; intros n r d H i Hi; [lia|]. cbn [line_ok] in H.
  destruct (near_ok n r) eqn:E; [|discriminate].
  destruct (Z.eq_dec i 0) as [->|N].
  - replace (n + 0) with n by lia. replace (r + 0 * d) with r by lia. exact E.
  - replace (n + i) with (n + 1 + (i - 1)) by lia. replace (r + i * d) with (r + d + (i - 1) * d) by lia.
    apply I; [exact H|lia].
Qed.

(** Every phase is within 32 of a knot, and was checked against that tangent. *)
Lemma phase_checked n : 0 <= n <= 32768 -> exists j i, 0 <= j <= 512 /\ -32 <= i <= 31 /\ n = 64 * j + i /\
  near_ok n (knot (64 * j) + i * slope (64 * j)) = true.
Proof.
  intros Hn. set (j := (n + 32) / 64).
  assert (H1 : 64 * j <= n + 32) by (apply Z.mul_div_le; lia).
  assert (H2 : n + 32 < 64 * Z.succ j) by (apply Z.mul_succ_div_gt; lia).
  clearbody j. exists j, (n - 64 * j).
  assert (Hj : 0 <= j <= 512) by lia. split; [exact Hj|]. split; [lia|]. split; [lia|].
  assert (S : block_ok j = true) by (apply (sweep_ok _ _ _ block_sweep); lia).
  unfold block_ok in S. cbv zeta in S.
  pose proof (line_ok_spec _ _ _ _ S (n - 64 * j + 32) ltac:(lia)) as L.
  replace (64 * j - 32 + (n - 64 * j + 32)) with n in L by lia.
  revert L. generalize (knot (64 * j)) (slope (64 * j)). intros k d L.
  replace (k - 32 * d + (n - 64 * j + 32) * d) with (k + (n - 64 * j) * d) in L by ring. exact L.
Qed.

Lemma near_ok_spec n r : near_ok n r = true ->
  (- 3208642 <= 2 ^ 20 * sin_fixed n 4 - r <= 304087) /\
  (- 3208642 <= 2 ^ 20 * sin_fixed (- n) 4 + r <= 304087) /\
  (n <= 32767 -> sin_fixed n 4 <= 32766).
Proof.
  unfold near_ok. rewrite !sin_fast_ok. generalize (sin_fixed n 4) (sin_fixed (- n) 4). intros a b. cbv zeta.
  rewrite !Z.shiftl_mul_pow2 by lia. rewrite !andb_true_iff, orb_true_iff, !Z.leb_le. lia.
Qed.

(** ** Real analysis *)
Open Scope R_scope.

Lemma abs_sin_le x : Rabs (sin x) <= Rabs x.
Proof.
  assert (P : forall x, 0 <= x -> Rabs (sin x) <= x).
  { intros y [Hy|<-]; [|rewrite sin_0, Rabs_R0; lra].
    apply Rabs_le. split.
    - destruct (Rle_lt_dec y 1) as [L|L].
      + pose proof (sin_ge_0 y). assert (0 <= sin y) by (apply H; generalize PI2_3_2, PI_RGT_0; unfold PI2; lra). lra.
      + pose proof (SIN_bound y). lra.
    - left. now apply sin_lt_x. }
  destruct (Rle_lt_dec 0 x) as [L|L].
  - rewrite (Rabs_right x) by lra. auto.
  - rewrite (Rabs_left x) by lra. rewrite <- Rabs_Ropp, <- sin_neg. apply P. lra.
Qed.

Lemma sin_lip a b : Rabs (sin a - sin b) <= Rabs (a - b).
Proof.
  rewrite form4. rewrite !Rabs_mult.
  pose proof (abs_sin_le ((a - b) / 2)) as H1.
  assert (H2 : Rabs (cos ((a + b) / 2)) <= 1) by (apply Rabs_le; pose proof (COS_bound ((a + b) / 2)); lra).
  assert (E : Rabs (a - b) = 2 * Rabs ((a - b) / 2)).
  { unfold Rdiv. rewrite Rabs_mult, (Rabs_right (/ 2)) by lra. field. }
  rewrite E, (Rabs_right 2) by lra.
  pose proof (Rabs_pos (sin ((a - b) / 2))). pose proof (Rabs_pos (cos ((a + b) / 2))). nra.
Qed.

Lemma PI_tight : 3141592653 / 1000000000 <= PI <= 3141592654 / 1000000000.
Proof.
  pose proof (PI_2_3_7_ineq 4) as [H1 H2]. revert H1 H2.
  cbn [sum_f_R0 Nat.mul Nat.add]. unfold tg_alt, PI_2_3_7_tg, Ratan_seq.
  cbn [pow Nat.mul Nat.add INR]. intros. split; lra.
Qed.

Definition sin11 (x : R) : R :=
  x - x ^ 3 / 6 + x ^ 5 / 120 - x ^ 7 / 5040 + x ^ 9 / 362880 - x ^ 11 / 39916800.

Lemma sin_taylor x : 0 <= x <= 8 / 5 -> sin11 x <= sin x <= sin11 x + 8 / 100000000.
Proof.
  intros Hx. pose proof PI_tight as HP. pose proof (sin_bound x 2 ltac:(lra) ltac:(lra)) as [H1 H2].
  revert H1 H2. unfold sin_approx, sin_term. cbn [sum_f_R0 Nat.mul Nat.add].
  rewrite <- !INR_IZR_INZ || idtac.
  assert (F : forall n m, INR (fact n) = m -> INR (fact n) = m) by auto.
  replace (INR (fact 1)) with 1 by (cbn; lra).
  replace (INR (fact 3)) with 6 by (cbn; lra).
  replace (INR (fact 5)) with 120 by (rewrite INR_IZR_INZ; reflexivity).
  replace (INR (fact 7)) with 5040 by (rewrite INR_IZR_INZ; reflexivity).
  replace (INR (fact 9)) with 362880.
  2:{ rewrite fact_simpl, mult_INR. replace (fact 8) with (8 * fact 7)%nat by reflexivity.
      rewrite mult_INR. replace (INR (fact 7)) with 5040 by (rewrite INR_IZR_INZ; reflexivity). cbn; lra. }
  replace (INR (fact 11)) with 39916800.
  2:{ rewrite fact_simpl, mult_INR, (fact_simpl 9), mult_INR, (fact_simpl 8), mult_INR, (fact_simpl 7), mult_INR.
      replace (INR (fact 7)) with 5040 by (rewrite INR_IZR_INZ; reflexivity). cbn; lra. }
  replace (INR (fact 13)) with 6227020800.
  2:{ rewrite fact_simpl, mult_INR, (fact_simpl 11), mult_INR, (fact_simpl 10), mult_INR, (fact_simpl 9), mult_INR, (fact_simpl 8), mult_INR, (fact_simpl 7), mult_INR.
      replace (INR (fact 7)) with 5040 by (rewrite INR_IZR_INZ; reflexivity). cbn; lra. }
  intros H1 H2.
  assert (E : x ^ 13 <= (8 / 5) ^ 13) by (apply pow_incr; lra).
  unfold sin11. split.
  - eapply Rle_trans; [|exact H1]. right. cbn [pow]. field.
  - eapply Rle_trans; [exact H2|]. 
    apply Rle_trans with (x - x ^ 3 / 6 + x ^ 5 / 120 - x ^ 7 / 5040 + x ^ 9 / 362880 - x ^ 11 / 39916800 + x ^ 13 / 6227020800).
    + right. cbn [pow]. field.
    + assert (x ^ 13 / 6227020800 <= 8 / 100000000); [|lra].
      apply Rle_trans with ((8 / 5) ^ 13 / 6227020800); [unfold Rdiv; apply Rmult_le_compat_r; lra|]. cbn [pow]; lra.
Qed.

Lemma taylor11_val q : IZR (taylor11 q) / IZR unit11 = sin11 (IZR q / 2 ^ 24).
Proof.
  unfold taylor11, unit11, sin11. cbv zeta.
  repeat (rewrite mult_IZR || rewrite minus_IZR).
  rewrite !(IZR_Zpower_pos 2) || idtac.
  change (IZR (2 ^ 264)) with (IZR (Z.pow 2 264)).
  assert (P : forall k, (0 <= k)%Z -> IZR (2 ^ k) = 2 ^ Z.to_nat k).
  { intros k Hk. rewrite <- (Z2Nat.id k Hk) at 1. now rewrite <- pow_IZR. }
  rewrite !P by lia.
  change (Z.to_nat 264) with (24 * 11)%nat. change (Z.to_nat 240) with (24 * 10)%nat.
  change (Z.to_nat 192) with (24 * 8)%nat. change (Z.to_nat 144) with (24 * 6)%nat.
  change (Z.to_nat 96) with (24 * 4)%nat. change (Z.to_nat 48) with (24 * 2)%nat.
  rewrite !pow_mult. assert (N : 2 ^ 24 <> 0) by (apply pow_nonzero; lra).
  generalize dependent (2 ^ 24). intros U N. field. exact N.
Qed.

(** The ideal angle of a phase. *)
Definition ideal (n : Z) : R := 32767 * sin (PI / 2 * (IZR n / 32767)).

Lemma angle_close n : (0 <= n <= 32768)%Z ->
  Rabs (PI / 2 * (IZR n / 32767) - IZR (angle24 n) / 2 ^ 24) <= 61 / 1000000000 /\
  0 <= IZR (angle24 n) / 2 ^ 24 <= 8 / 5.
Proof.
  intros Hn. unfold angle24.
  set (A := (3141592654 * 2 ^ 24 * n)%Z). set (D := (65534 * 1000000000)%Z).
  assert (HD : (0 < D)%Z) by reflexivity.
  pose proof (Z.mul_div_le A D HD) as H1. pose proof (Z.mul_succ_div_gt A D HD) as H2.
  apply IZR_le in H1. apply IZR_lt in H2. rewrite mult_IZR in H1, H2. rewrite succ_IZR in H2.
  set (q := IZR (A / D)) in *.
  assert (EA : IZR A = 3141592654 * 16777216 * IZR n) by (unfold A; rewrite !mult_IZR; reflexivity).
  assert (ED : IZR D = 65534000000000) by reflexivity.
  rewrite EA, ED in H1, H2.
  assert (P : (2 ^ 24 : R) = 16777216) by (cbn [pow]; lra). rewrite P.
  assert (Hn1 : 0 <= IZR n) by (apply (IZR_le 0); lia).
  assert (Hn2 : IZR n <= 32768) by (apply IZR_le; lia).
  pose proof PI_tight as HP.
  assert (HB1 : 3141592653 / 1000000000 * IZR n <= PI * IZR n) by (apply Rmult_le_compat_r; lra).
  assert (HB2 : PI * IZR n <= 3141592654 / 1000000000 * IZR n) by (apply Rmult_le_compat_r; lra).
  assert (E : PI / 2 * (IZR n / 32767) = PI * IZR n / 65534) by field. rewrite E.
  split; [apply Rabs_le; split; lra|].
  assert (Q : (0 <= A / D)%Z) by (apply Z.div_pos; unfold A; lia).
  apply IZR_le in Q. fold q in Q. split; lra.
Qed.

Lemma ideal_taylor n : (0 <= n <= 32768)%Z ->
  Rabs (ideal n - 32767 * (IZR (taylor11 (angle24 n)) / IZR unit11)) <= 5 / 1000.
Proof.
  intros Hn. destruct (angle_close n Hn) as [H1 H2]. rewrite taylor11_val.
  pose proof (sin_taylor _ H2) as H3. pose proof (sin_lip (PI / 2 * (IZR n / 32767)) (IZR (angle24 n) / 2 ^ 24)) as H4.
  unfold ideal. apply Rabs_le. assert (H5 := Rle_trans _ _ _ H4 H1). apply Rabs_le_inv in H5. split; lra.
Qed.

Lemma ideal_opp n : ideal (- n) = - ideal n.
Proof.
  unfold ideal. rewrite opp_IZR. replace (PI / 2 * (- IZR n / 32767)) with (- (PI / 2 * (IZR n / 32767))) by field.
  rewrite sin_neg. ring.
Qed.


Definition cos10 (x : R) : R :=
  1 - x ^ 2 / 2 + x ^ 4 / 24 - x ^ 6 / 720 + x ^ 8 / 40320 - x ^ 10 / 3628800.

Lemma cos_taylor x : 0 <= x <= 8 / 5 -> Rabs (cos x - cos10 x) <= 1 / 1000000.
Proof.
  intros Hx. pose proof (pre_cos_bound x 2 ltac:(lra) ltac:(lra)) as [H1 H2].
  revert H1 H2. unfold cos_approx, cos_term. cbn [sum_f_R0 Nat.mul Nat.add].
  replace (INR (fact 0)) with 1 by (cbn; lra).
  replace (INR (fact 2)) with 2 by (cbn; lra).
  replace (INR (fact 4)) with 24 by (rewrite INR_IZR_INZ; reflexivity).
  replace (INR (fact 6)) with 720 by (rewrite INR_IZR_INZ; reflexivity).
  replace (INR (fact 8)) with 40320.
  2:{ rewrite fact_simpl, mult_INR. replace (INR (fact 7)) with 5040 by (rewrite INR_IZR_INZ; reflexivity). cbn; lra. }
  replace (INR (fact 10)) with 3628800.
  2:{ rewrite fact_simpl, mult_INR, (fact_simpl 8), mult_INR, (fact_simpl 7), mult_INR.
      replace (INR (fact 7)) with 5040 by (rewrite INR_IZR_INZ; reflexivity). cbn; lra. }
  replace (INR (fact 12)) with 479001600.
  2:{ rewrite fact_simpl, mult_INR, (fact_simpl 10), mult_INR, (fact_simpl 9), mult_INR, (fact_simpl 8), mult_INR, (fact_simpl 7), mult_INR.
      replace (INR (fact 7)) with 5040 by (rewrite INR_IZR_INZ; reflexivity). cbn; lra. }
  intros H1 H2. assert (E : x ^ 12 <= (8 / 5) ^ 12) by (apply pow_incr; lra).
  assert (L : cos10 x <= cos x).
  { eapply Rle_trans; [|exact H1]. unfold cos10. right. cbn [pow]. field. }
  assert (U : cos x <= cos10 x + x ^ 12 / 479001600).
  { eapply Rle_trans; [exact H2|]. unfold cos10. right. cbn [pow]. field. }
  assert (x ^ 12 / 479001600 <= 1 / 1000000).
  { apply Rle_trans with ((8 / 5) ^ 12 / 479001600); [unfold Rdiv; apply Rmult_le_compat_r; lra|]. cbn [pow]; lra. }
  apply Rabs_le. lra.
Qed.

Lemma taylor10_val q : IZR (taylor10 q) / IZR unit10 = cos10 (IZR q / 2 ^ 24).
Proof.
  unfold taylor10, unit10, cos10. cbv zeta.
  repeat (rewrite mult_IZR || rewrite minus_IZR).
  assert (P : forall k, (0 <= k)%Z -> IZR (2 ^ k) = 2 ^ Z.to_nat k).
  { intros k Hk. rewrite <- (Z2Nat.id k Hk) at 1. now rewrite <- pow_IZR. }
  rewrite !P by lia.
  change (Z.to_nat 240) with (24 * 10)%nat.
  change (Z.to_nat 192) with (24 * 8)%nat. change (Z.to_nat 144) with (24 * 6)%nat.
  change (Z.to_nat 96) with (24 * 4)%nat. change (Z.to_nat 48) with (24 * 2)%nat.
  rewrite !pow_mult. assert (N : 2 ^ 24 <> 0) by (apply pow_nonzero; lra).
  generalize dependent (2 ^ 24). intros U N. field. exact N.
Qed.

Lemma cos_lip a b : Rabs (cos a - cos b) <= Rabs (a - b).
Proof.
  rewrite !cos_sin. eapply Rle_trans; [apply sin_lip|]. right. f_equal. ring.
Qed.

(** Following the tangent. *)
Lemma sin_tangent a t : Rabs t <= 1 -> Rabs (sin (a + t) - sin a - t * cos a) <= t * t / 2 + Rabs t * (t * t) / 6.
Proof.
  intros Ht.
  assert (C : Rabs (cos t - 1) <= t * t / 2).
  { assert (E : cos t = 1 - 2 * (sin (t / 2) * sin (t / 2))).
    { replace t with (2 * (t / 2)) at 1 by field. rewrite cos_2a_sin. ring. }
    pose proof (abs_sin_le (t / 2)) as H. apply Rsqr_le_abs_1 in H. unfold Rsqr in H.
    pose proof (Rle_0_sqr (sin (t / 2))) as H0. unfold Rsqr in H0. apply Rabs_le. rewrite E. split; lra. }
  assert (P : forall y, 0 <= y <= 1 -> Rabs (sin y - y) <= y * (y * y) / 6).
  { intros y Hy. pose proof (pre_sin_bound y 0 ltac:(lra) ltac:(lra)) as [H _].
    unfold sin_approx, sin_term in H. cbn [sum_f_R0 Nat.mul Nat.add] in H.
    replace (INR (fact 1)) with 1 in H by (cbn; lra). replace (INR (fact 3)) with 6 in H by (cbn; lra).
    cbn [pow] in H. assert (U : sin y <= y).
    { destruct Hy as [[H0| <-] _]; [left; now apply sin_lt_x|rewrite sin_0; lra]. }
    apply Rabs_le. split; [|nra]. lra. }
  assert (S : Rabs (sin t - t) <= Rabs t * (t * t) / 6).
  { destruct (Rle_lt_dec 0 t) as [L|L].
    - rewrite (Rabs_right t) in * by lra. apply P. lra.
    - rewrite (Rabs_left t) in * by lra. rewrite <- Rabs_Ropp.
      replace (- (sin t - t)) with (sin (- t) - - t) by (rewrite sin_neg; ring).
      eapply Rle_trans; [apply P; lra|]. right. field. }
  replace (sin (a + t) - sin a - t * cos a) with (sin a * (cos t - 1) + cos a * (sin t - t)) by (rewrite sin_plus; ring).
  eapply Rle_trans; [apply Rabs_triang|]. rewrite !Rabs_mult.
  assert (A1 : Rabs (sin a) <= 1) by (apply Rabs_le; pose proof (SIN_bound a); lra).
  assert (A2 : Rabs (cos a) <= 1) by (apply Rabs_le; pose proof (COS_bound a); lra).
  pose proof (Rabs_pos (sin a)). pose proof (Rabs_pos (cos a)).
  pose proof (Rabs_pos (cos t - 1)). pose proof (Rabs_pos (sin t - t)). nra.
Qed.

Lemma div_close (A D : Z) : (0 < D)%Z -> IZR A / IZR D - 1 <= IZR (A / D) <= IZR A / IZR D.
Proof.
  intros HD. pose proof (Z.mul_div_le A D HD) as H1. pose proof (Z.mul_succ_div_gt A D HD) as H2.
  apply IZR_le in H1. apply IZR_lt in H2. rewrite mult_IZR in H1, H2. rewrite succ_IZR in H2. apply IZR_lt in HD.
  assert (E : IZR A = IZR A / IZR D * IZR D) by (field; lra). rewrite E in H1, H2.
  split; apply Rmult_le_reg_l with (IZR D); lra.
Qed.

Lemma knot_close n : (0 <= n <= 32768)%Z -> Rabs (ideal n - IZR (knot n) / 1048576) <= 51 / 10000.
Proof.
  intros Hn. pose proof (ideal_taylor n Hn) as H. unfold knot.
  assert (HU : (0 < unit11)%Z) by reflexivity.
  revert H HU. generalize unit11 (taylor11 (angle24 n)). intros U T H HU.
  pose proof (div_close (32767 * 2 ^ 20 * T) U HU) as D. rewrite mult_IZR in D.
  change (IZR (32767 * 2 ^ 20)) with (32767 * 1048576) in D || (rewrite mult_IZR in D; change (IZR (2 ^ 20)) with 1048576 in D).
  replace (32767 * 1048576 * IZR T / IZR U) with (32767 * 1048576 * (IZR T / IZR U)) in D by (unfold Rdiv; ring).
  apply Rabs_le_inv in H. apply Rabs_le. lra.
Qed.

Lemma slope_close n : (0 <= n <= 32768)%Z ->
  Rabs (PI / 2 * cos (PI / 2 * (IZR n / 32767)) - IZR (slope n) / 1048576) <= 1 / 100000.
Proof.
  intros Hn. destruct (angle_close n Hn) as [H1 H2]. unfold slope.
  pose proof (cos_taylor _ H2) as H3. pose proof (cos_lip (PI / 2 * (IZR n / 32767)) (IZR (angle24 n) / 2 ^ 24)) as H4.
  rewrite <- taylor10_val in H3.
  assert (HU : (0 < unit10)%Z) by reflexivity. assert (H5 := Rle_trans _ _ _ H4 H1). clear H4.
  revert H3 H5 HU. generalize unit10 (taylor10 (angle24 n)) (cos (IZR (angle24 n) / 2 ^ 24)).
  intros U T c H3 H5 HU. set (k := cos (PI / 2 * (IZR n / 32767))) in *.
  pose proof (div_close (3141592654 * 2 ^ 20 * T) (2000000000 * U) ltac:(lia)) as D.
  rewrite !mult_IZR in D. change (IZR (2 ^ 20)) with 1048576 in D.
  assert (HU' : 0 < IZR U) by (apply (IZR_lt 0); exact HU).
  replace (3141592654 * 1048576 * IZR T / (2000000000 * IZR U)) with (3141592654 / 2000000000 * 1048576 * (IZR T / IZR U)) in D
    by (field; lra).
  pose proof PI_tight as HP. pose proof (COS_bound (PI / 2 * (IZR n / 32767))) as HC. fold k in HC.
  apply Rabs_le_inv in H3, H5. apply Rabs_le.
  assert (B : -11 / 10 <= IZR T / IZR U <= 11 / 10) by lra.
  assert (K : -2 / 1000000 <= IZR T / IZR U - k <= 2 / 1000000) by lra.
  revert D B K. generalize (IZR T / IZR U). intros w D B K.
  assert (Q : PI / 2 * k - 3141592654 / 2000000000 * w = PI / 2 * (k - w) + (PI / 2 - 3141592654 / 2000000000) * w) by ring.
  assert (Q1 : - (4 / 1000000) <= PI / 2 * (k - w) <= 4 / 1000000) by nra.
  assert (Q2 : - (1 / 1000000) <= (PI / 2 - 3141592654 / 2000000000) * w <= 1 / 1000000) by nra.
  lra.
Qed.

(** The ideal curve near a knot. *)
Lemma tangent_close n i : (0 <= n <= 32768)%Z -> (-32 <= i <= 31)%Z ->
  Rabs (ideal (n + i) - IZR (knot n + i * slope n) / 1048576) <= 45 / 1000.
Proof.
  intros Hn Hi. pose proof (knot_close n Hn) as K. pose proof (slope_close n Hn) as S.
  rewrite plus_IZR, mult_IZR.
  set (a := PI / 2 * (IZR n / 32767)) in *. set (t := PI / 2 * (IZR i / 32767)).
  assert (E1 : ideal n = 32767 * sin a) by reflexivity.
  assert (E2 : ideal (n + i) = 32767 * sin (a + t)).
  { unfold ideal, a, t. rewrite plus_IZR. f_equal. f_equal. field. }
  assert (Hi1 : -32 <= IZR i <= 31) by (split; apply IZR_le; lia).
  pose proof PI_tight as HP.
  assert (Ht : - (1535 / 1000000) <= t <= 1535 / 1000000) by (unfold t; nra).
  pose proof (sin_tangent a t ltac:(apply Rabs_le; lra)) as T.
  assert (At : Rabs t <= 1535 / 1000000) by (apply Rabs_le; lra).
  assert (Tt : 0 <= t * t <= 236 / 100000000) by nra.
  assert (E3 : 32767 * (t * cos a) = IZR i * (PI / 2 * cos a)) by (unfold t; field).
  pose proof (Rabs_pos t) as Pt.
  assert (T2 : Rabs (sin (a + t) - sin a - t * cos a) <= 1181 / 1000000000) by nra.
  clearbody a t. rewrite E1 in K. rewrite E2.
  apply Rabs_le_inv in T2, K, S.
  assert (M : - (1 / 1000) <= IZR i * (PI / 2 * cos a - IZR (slope n) / 1048576) <= 1 / 1000) by nra.
  apply Rabs_le. lra.
Qed.

(** Error of the degree-4 value: between -3.11 and 0.34 units. *)
Lemma sin_accuracy p : (- 32768 <= p <= 32767)%Z ->
  - (311 / 100) <= IZR (sin_fixed p 4) - ideal p <= 34 / 100.
Proof.
  intros Hp. destruct (phase_checked (Z.abs p) ltac:(lia)) as (j & i & Hj & Hi & En & N).
  apply near_ok_spec in N. destruct N as (N1 & N2 & _).
  pose proof (tangent_close (64 * j) i ltac:(lia) Hi) as T. rewrite <- En in T.
  revert N1 N2 T. generalize (knot (64 * j) + i * slope (64 * j))%Z. intros r N1 N2 T.
  apply Rabs_le_inv in T.
  destruct (Z.le_gt_cases 0 p) as [L|L].
  - rewrite Z.abs_eq in * by exact L. destruct N1 as [A1 A2]. apply IZR_le in A1, A2.
    rewrite minus_IZR, mult_IZR in A1, A2. change (IZR (2 ^ 20)) with 1048576 in *. lra.
  - rewrite Z.abs_neq in * by lia. rewrite Z.opp_involutive in N2. rewrite ideal_opp in T.
    destruct N2 as [A1 A2]. apply IZR_le in A1, A2.
    rewrite plus_IZR, mult_IZR in A1, A2. change (IZR (2 ^ 20)) with 1048576 in *. lra.
Qed.

Lemma sin_fixed_top p : (- 32768 <= p <= 32767)%Z -> (- 32768 <= sin_fixed p 4 <= 32766)%Z.
Proof.
  intros Hp. split; [unfold sin_fixed, clamp16; lia|].
  destruct (Z.le_gt_cases 0 p) as [L|L].
  - destruct (phase_checked p ltac:(lia)) as (j & i & _ & _ & _ & N). apply near_ok_spec in N. apply N. lia.
  - pose proof (sin_accuracy p Hp) as A.
    assert (I : ideal p <= 0).
    { pose proof PI_tight. assert (Q : IZR p < 0) by (apply (IZR_lt _ 0); exact L).
      assert (Q2 : -32768 <= IZR p) by (apply IZR_le; lia).
      replace p with (- - p)%Z by lia. rewrite ideal_opp. unfold ideal. rewrite opp_IZR.
      assert (0 <= sin (PI / 2 * (- IZR p / 32767))); [|lra].
      apply sin_ge_0; nra. }
    apply le_IZR. apply Rle_trans with 1; [lra|]. apply IZR_le. lia.
Qed.

(** Later phases are never more than 3 units below earlier ones. *)
Lemma ideal_mono p q : (- 32768 <= p <= q)%Z -> (q <= 32767)%Z -> ideal p <= ideal q + 1 / 1000.
Proof.
  intros Hp Hq. pose proof PI_tight as HP.
  assert (Main : forall a b, (- 32767 <= a <= b)%Z -> (b <= 32767)%Z -> ideal a <= ideal b).
  { intros a b Ha Hb. unfold ideal. apply Rmult_le_compat_l; [lra|].
    assert (A1 : -32767 <= IZR a) by (apply IZR_le; lia). assert (A2 : IZR b <= 32767) by (apply IZR_le; lia).
    assert (A3 : IZR a <= IZR b) by (apply IZR_le; lia).
    apply sin_incr_1; nra. }
  destruct (Z.eq_dec p (-32768)) as [->|N]; [|pose proof (Main p q ltac:(lia) Hq); lra].
  assert (E : ideal (-32768) <= ideal (-32767) + 1 / 1000).
  { unfold ideal. assert (S : sin (PI / 2 * (-32767 / 32767)) = -1).
    { replace (PI / 2 * (-32767 / 32767)) with (- (PI / 2)) by field. rewrite sin_neg, sin_PI2. reflexivity. }
    rewrite S.
    pose proof (sin_tangent (- (PI / 2)) (- (PI / 2 / 32767))) as T.
    replace (- (PI / 2) + - (PI / 2 / 32767)) with (PI / 2 * (-32768 / 32767)) in T by field.
    rewrite sin_neg, sin_PI2, cos_neg, cos_PI2 in T.
    assert (B : 0 <= PI / 2 / 32767 <= 5 / 100000) by lra.
    assert (R : Rabs (- (PI / 2 / 32767)) <= 5 / 100000) by (rewrite Rabs_Ropp, Rabs_right; lra).
    specialize (T ltac:(lra)). pose proof (Rabs_pos (- (PI / 2 / 32767))) as R0.
    assert (T2 : Rabs (sin (PI / 2 * (-32768 / 32767)) - -1 - - (PI / 2 / 32767) * 0) <= 1 / 100000000).
    { eapply Rle_trans; [exact T|]. nra. }
    apply Rabs_le_inv in T2. lra. }
  destruct (Z.eq_dec q (-32768)) as [->|N2]; [lra|]. pose proof (Main (-32767)%Z q ltac:(lia) Hq). lra.
Qed.
Lemma sin_fixed_drop p q : (- 32768 <= p <= q)%Z -> (q <= 32767)%Z -> (sin_fixed p 4 - 3 <= sin_fixed q 4)%Z.
Proof.
  intros Hp Hq. pose proof (sin_accuracy p ltac:(lia)) as A. pose proof (sin_accuracy q ltac:(lia)) as B.
  pose proof (ideal_mono p q Hp Hq) as M.
  assert (L : IZR (sin_fixed p 4) < IZR (sin_fixed q 4) + 4) by lra.
  rewrite <- plus_IZR in L. apply lt_IZR in L. lia.
Qed.
