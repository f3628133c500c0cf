(** * Floats and integers: integrality, truncation, exact fractional parts. *)

From Coq Require Import ZArith Reals Bool Lia Lra Psatz.
From Flocq Require Import Core.
From Verif Require Import Base F32 F32Lemmas Num.
Open Scope R_scope.

(** A representable number is an integer multiple of 2^e for some e >= -149; above
    2^23 it is an integer. *)
Lemma repr_form x : repr x -> exists m e, x = IZR m * pow2 e /\ (Z.abs m < 2 ^ 24)%Z /\ (-149 <= e)%Z.
Proof.
  intros H. apply FLT_format_generic in H; [|reflexivity].
  destruct H as [[m e] H1 H2 H3]. exists m, e. repeat split; auto.
Qed.

Lemma repr_large_int x : repr x -> pow2 23 <= Rabs x -> exists n : Z, x = IZR n.
Proof.
  intros H Hb. destruct (repr_form x H) as (m & e & -> & Hm & He).
  destruct (Z.le_gt_cases 0 e) as [P|N].
  - exists (m * 2 ^ e)%Z. rewrite mult_IZR. f_equal. rewrite <- IZR_Zpower by lia. reflexivity.
  - exfalso. rewrite Rabs_mult, (Rabs_pos_eq (pow2 e)) in Hb by apply bpow_ge_0.
    rewrite <- abs_IZR in Hb.
    assert (pow2 e <= pow2 (-1)) by (apply bpow_le; lia).
    assert (IZR (Z.abs m) <= IZR (2 ^ 24 - 1)) by (apply IZR_le; lia).
    assert (0 <= IZR (Z.abs m)) by (apply IZR_le; lia).
    pose proof (bpow_gt_0 radix2 e).
    assert (IZR (Z.abs m) * pow2 e <= IZR (2 ^ 24 - 1) * pow2 (-1)).
    { apply Rmult_le_compat; lra. }
    change (pow2 (-1)) with (/ 2) in *. change (pow2 23) with (IZR (2 ^ 23)) in Hb.
    simpl (2 ^ 23)%Z in Hb. simpl (2 ^ 24 - 1)%Z in *. lra.
Qed.

Lemma rnd_int n : exists k : Z, rnd (IZR n) = IZR k.
Proof.
  destruct (Z.le_gt_cases (Z.abs n) (2 ^ 24)) as [H|H].
  - exists n. apply rnd_repr. now apply repr_int.
  - apply repr_large_int; [apply repr_rnd|].
    assert (A : IZR (2 ^ 24) <= Rabs (IZR n)) by (rewrite <- abs_IZR; apply IZR_le; lia).
    apply Rle_trans with (pow2 24); [apply bpow_le; lia|].
    change (pow2 24) with (IZR (2 ^ 24)).
    destruct (Rle_or_lt 0 (IZR n)) as [P|N].
    + rewrite Rabs_pos_eq in A by lra.
      assert (IZR (2 ^ 24) <= rnd (IZR n)) by (apply rnd_ge_repr; [apply repr_int; lia | lra]).
      rewrite Rabs_pos_eq; auto. eapply Rle_trans; [|exact H0]. apply IZR_le. lia.
    + rewrite Rabs_left in A by lra.
      assert (rnd (IZR n) <= IZR (- 2 ^ 24)).
      { apply rnd_le_repr; [apply repr_int; lia|]. rewrite opp_IZR. lra. }
      rewrite opp_IZR in H0. assert (0 < IZR (2 ^ 24)) by (apply IZR_lt; lia).
      rewrite Rabs_left; lra.
Qed.

(** The integer part of a representable number is representable, and so is the
    fractional part (truncation towards zero). *)
Lemma Ztrunc_dy m e : (e < 0)%Z -> Ztrunc (IZR m * pow2 e) = Z.quot m (2 ^ (- e)).
Proof.
  intros He.
  assert (E : IZR m * pow2 e = IZR m / IZR (2 ^ (- e))).
  { unfold Rdiv. f_equal. replace e with (- (- e))%Z at 1 by lia.
    rewrite bpow_opp. f_equal. rewrite <- IZR_Zpower by lia. reflexivity. }
  rewrite E. apply Ztrunc_div. apply Z.pow_nonzero; lia.
Qed.

Lemma repr_trunc x : repr x -> repr (IZR (Ztrunc x)) /\ repr (x - IZR (Ztrunc x)).
Proof.
  intros H. destruct (repr_form x H) as (m & e & -> & Hm & He).
  destruct (Z.le_gt_cases 0 e) as [P|N].
  - assert (E : IZR m * pow2 e = IZR (m * 2 ^ e)).
    { rewrite mult_IZR. f_equal. rewrite <- IZR_Zpower by lia. reflexivity. }
    rewrite E at 1 2 3. rewrite Ztrunc_IZR. rewrite <- E. unfold Rminus. rewrite Rplus_opp_r.
    split; [exact H | apply repr_0].
  - rewrite Ztrunc_dy by lia.
    assert (P2 : (0 < 2 ^ (- e))%Z) by (apply Z.pow_pos_nonneg; lia).
    pose proof (Z.quot_rem' m (2 ^ (- e))) as Q.
    assert (R1 : (Z.abs (Z.quot m (2 ^ (- e))) <= Z.abs m)%Z).
    { rewrite <- Z.quot_abs by lia. rewrite (Z.abs_eq (2 ^ _)) by lia.
      rewrite Z.quot_div_nonneg by lia. apply Z.div_le_upper_bound; [lia|]. nia. }
    assert (R2 : (Z.abs (Z.rem m (2 ^ (- e))) <= Z.abs m)%Z).
    { rewrite <- Z.rem_abs by lia. rewrite (Z.abs_eq (2 ^ _)) by lia.
      apply Z.rem_le; lia. }
    split.
    + apply repr_int. lia.
    + replace (IZR m * pow2 e - IZR (Z.quot m (2 ^ (- e)))) with (IZR (Z.rem m (2 ^ (- e))) * pow2 e).
      * apply repr_dy; lia.
      * assert (E : IZR (2 ^ (- e)) * pow2 e = 1).
        { rewrite <- (bpow_opp radix2 (- e)) || idtac.
          replace (IZR (2 ^ (- e))) with (pow2 (- e)) by (rewrite <- IZR_Zpower by lia; reflexivity).
          rewrite <- bpow_plus. replace (- e + e)%Z with 0%Z by lia. reflexivity. }
        rewrite Q at 2. rewrite plus_IZR, mult_IZR.
        transitivity (IZR (Z.rem m (2 ^ (- e))) * pow2 e + IZR (Z.quot m (2 ^ (- e))) * (IZR (2 ^ (- e)) * pow2 e)
          - IZR (Z.quot m (2 ^ (- e)))); [rewrite E; ring | ring].
Qed.

Lemma Ztrunc_bounds_pos x : 0 <= x -> IZR (Ztrunc x) <= x < IZR (Ztrunc x) + 1.
Proof.
  intros H. rewrite Ztrunc_floor by assumption. split; [apply Zfloor_lb | apply Zfloor_ub].
Qed.

Section Ops.
Context {NP : NanPolicy}.

(** [x - (x as int) as f32] is exact for [0 <= x] below the cast's upper bound. *)
Lemma frac_exact x k : fin x = true -> 0 <= val x -> (Z.abs k < 2 ^ 127)%Z -> Ztrunc (val x) = k ->
  fin (of_int k) = true /\ val (of_int k) = IZR k /\
  fin (fsub x (of_int k)) = true /\ val (fsub x (of_int k)) = val x - IZR k /\
  0 <= val (fsub x (of_int k)) < 1.
Proof.
  intros Fx Hx Hk E.
  destruct (repr_trunc (val x) (repr_val x)) as [R1 R2]. rewrite E in R1, R2.
  destruct (of_int_spec k Hk) as [Fk Vk]. rewrite rnd_repr in Vk by exact R1.
  pose proof (Ztrunc_bounds_pos _ Hx) as Hb. rewrite E in Hb.
  destruct (fsub_spec x (of_int k) Fx Fk) as [Fs Vs].
  { rewrite Vk, rnd_repr by exact R2. rewrite Rabs_pos_eq by lra.
    apply Rlt_trans with 1; [lra|]. apply (bpow_lt radix2 0 128). lia. }
  rewrite Vk, rnd_repr in Vs by exact R2.
  repeat split; auto; rewrite Vs; lra.
Qed.
End Ops.

(** What is asked of the [floor] routine: exactness on the range where micromath's
    and std's floor agree with the mathematical floor. *)
Definition floor_ok (M : MathOps f32) : Prop :=
  forall x, fin x = true -> Rabs (val x) < pow2 31 ->
    fin (m_floor x) = true /\ val (m_floor x) = IZR (Zfloor (val x)).
