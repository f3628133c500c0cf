(** * Proofs about the oscillators over any phase accumulator: the shapes as functions of any
    f32 phase in [0, 1]. *)

From Coq Require Import ZArith List Bool Reals Lia Lra.
From Flocq Require Import Core.
From Verif Require Import Base F32 F32Lemmas F32Exact F32Ints F32Range F32Over Num M_Memory S_Memory P_Memory P_Lerp P_Interp P_Bits
  M_Sine S_Sine P_Sine P_SineAcc P_SineFloat M_Oscillator S_Oscillator P_Oscillator M_OscGeneric S_OscHistory S_OscGeneric
  T_Interp T_Oscillator T_OscHistory.
Import ListNotations.
Local Open Scope R_scope.

(** The f32 just below a power of two. *)
Lemma below_bpow x e : repr x -> (-125 <= e)%Z -> x < pow2 e -> x <= pow2 e - pow2 (e - 24).
Proof.
  intros R He H. assert (F : generic_format radix2 fexp32 (pow2 e)) by (apply repr_bpow; lia).
  pose proof (pred_ge_gt radix2 fexp32 x (pow2 e) R F H) as P. rewrite pred_bpow in P.
  replace (fexp32 e) with (e - 24)%Z in P by (unfold fexp32, FLT_exp; lia). exact P.
Qed.

Section Shapes.
Context {NP : NanPolicy}.
Definition saw_of (v : f32) : f32 := fsub (fmul v (of_int 2)) (of_int 1).
Definition tri_of (v : f32) : f32 :=
  fsub (fmul (fsub (of_int 1) (if is_sign_positive (saw_of v) then saw_of v else fneg (saw_of v))) (of_int 2)) (of_int 1).

Lemma saw_of_spec v : within v 0 1 -> within (saw_of v) (-1) 1 /\ val (saw_of v) = rnd (2 * val v - 1).
Proof.
  intros W. pose proof W as [Fv Bv].
  destruct (twice_exact _ _ _ W ltac:(lra) ltac:(lra)) as [Fd Vd].
  destruct (isv_int 1 ltac:(lia)) as [F1 V1]. pose proof big_ge.
  destruct (sub_within (fmul v (of_int 2)) (of_int 1) (-1) 1) as [W2 V2]; auto; try lra.
  - apply (repr_int (-1)). lia.
  - apply (repr_int 1). lia.
  - split; [exact W2|]. unfold saw_of. now rewrite V2, V1, Vd.
Qed.

Lemma tri_of_spec v : within v 0 1 -> within (tri_of v) (-1) 1 /\
  Rabs (val (tri_of v) - ideal_triangle (val v)) <= pow2 (-22).
Proof.
  intros W0. destruct (saw_of_spec v W0) as [[Fs Bs] Vs]. pose proof W0 as [_ Bv]. unfold tri_of.
  set (w := if is_sign_positive (saw_of v) then saw_of v else fneg (saw_of v)).
  assert (W : fin w = true /\ val w = Rabs (val (saw_of v))).
  { unfold w, is_sign_positive. destruct (sgn (saw_of v)) eqn:S; cbn [negb].
    - rewrite fin_fneg, val_fneg. apply sgn_val_le in S. rewrite Rabs_left1 by exact S. auto.
    - apply sgn_val_ge in S. rewrite Rabs_right by lra. auto. }
  destruct W as [Fw Vw]. destruct (isv_int 1 ltac:(lia)) as [F1 V1]. pose proof big_ge.
  assert (BA : 0 <= Rabs (val (saw_of v)) <= 1) by (split; [apply Rabs_pos|apply Rabs_le; lra]).
  destruct (sub_within (of_int 1) w 0 1) as [W1 E1]; auto; try lra.
  { apply repr_0. } { apply (repr_int 1). lia. }
  destruct (twice_exact _ _ _ W1 ltac:(lra) ltac:(lra)) as [Fd Vd]. pose proof W1 as [_ B1].
  destruct (sub_within (fmul (fsub (of_int 1) w) (of_int 2)) (of_int 1) (-1) 1) as [W2 V2]; auto; try lra.
  { apply (repr_int (-1)). lia. } { apply (repr_int 1). lia. }
  split; [exact W2|]. rewrite V2, V1, Vd, E1, V1, Vw.
  assert (C : Rabs (val (saw_of v) - (2 * val v - 1)) <= pow2 (0 - 25)).
  { rewrite Vs. apply rnd_err_bpow; [lia|]. apply Rabs_le. cbn. lra. }
  unfold ideal_triangle.
  replace (4 * val v - 2) with (2 * (2 * val v - 1)) by ring. rewrite Rabs_mult, (Rabs_right 2) by lra.
  assert (C2 : Rabs (Rabs (val (saw_of v)) - Rabs (2 * val v - 1)) <= pow2 (0 - 25)).
  { eapply Rle_trans; [apply Rabs_triang_inv2|exact C]. }
  clear - BA C2.
  generalize dependent (Rabs (val (saw_of v))). intros s BA C2.
  generalize dependent (Rabs (2 * val v - 1)). intros u C2.
  assert (B1 : 0 <= rnd (1 - s) <= 1).
  { apply repr_between; [apply repr_0|apply (repr_int 1); lia|lra]. }
  assert (E1 : Rabs (rnd (1 - s) - (1 - s)) <= pow2 (0 - 25)).
  { apply rnd_err_bpow; [lia|]. apply Rabs_le. cbn. lra. }
  assert (E2 : Rabs (rnd (2 * rnd (1 - s) - 1) - (2 * rnd (1 - s) - 1)) <= pow2 (0 - 25)).
  { apply rnd_err_bpow; [lia|]. apply Rabs_le. cbn. lra. }
  replace (pow2 (0 - 25)) with (1 / 33554432) in E1, E2, C2 by (cbn; lra). replace (pow2 (-22)) with (1 / 4194304) by (cbn; lra).
  apply Rabs_le_inv in E1, E2, C2. apply Rabs_le. lra.
Qed.

Section Rect.
Context {MO : MathOps f32}.
Definition rect_of (v : f32) : f32 := fsub (fmul (m_floor (fadd (saw_of v) (of_int 1))) (of_int 2)) (of_int 1).

Lemma rect_of_spec v : floor_ok MO -> within v 0 1 ->
  (val v < 1 / 2 -> rect_of v = of_int (-1)) /\ (1 / 2 <= val v < 1 -> rect_of v = of_int 1) /\ (val v = 1 -> rect_of v = of_int 3).
Proof.
  intros FO W. destruct (saw_of_spec v W) as [[Fs Bs] Vs]. destruct (isv_int 1 ltac:(lia)) as [F1 V1].
  pose proof big_ge. pose proof W as [_ Bv]. unfold rect_of.
  assert (G : forall lo hi : R, repr lo -> repr hi -> -1 <= lo -> hi <= 1 ->
     lo <= 2 * val v - 1 <= hi -> repr (lo + 1) -> repr (hi + 1) ->
     within (fadd (saw_of v) (of_int 1)) (lo + 1) (hi + 1)).
  { intros lo hi R1 R2 L1 L2 Hb R3 R4. 
    assert (lo <= val (saw_of v) <= hi) by (rewrite Vs; apply repr_between; tauto).
    apply add_within; auto; try lra. }
  assert (K : forall k, (0 <= k <= 2)%Z -> within (fadd (saw_of v) (of_int 1)) (IZR k) (IZR k + 1) ->
     val (fadd (saw_of v) (of_int 1)) < IZR k + 1 ->
     fsub (fmul (m_floor (fadd (saw_of v) (of_int 1))) (of_int 2)) (of_int 1) = of_int (2 * k - 1)).
  { intros k Hk [Fw Bw] Hlt. assert (0 <= IZR k <= 2) by (split; apply (IZR_le _ _); lia).
    destruct (FO (fadd (saw_of v) (of_int 1)) Fw) as [Ff Vf].
    - change (pow2 31) with 2147483648. apply Rabs_lt. lra.
    - apply rect_of_floor; auto. rewrite Vf. f_equal. apply Zfloor_imp. rewrite plus_IZR. split; [tauto|exact Hlt]. }
  assert (P24 : pow2 (-24) = 1 / 16777216) by (cbn; lra). assert (P25 : pow2 (-25) = 1 / 33554432) by (cbn; lra).
  assert (P23 : pow2 (-23) = 1 / 8388608) by (cbn; lra).
  split; [|split].
  - intros L. pose proof (below_bpow (val v) (-1) (repr_val v) ltac:(lia)) as H2. change (pow2 (-1)) with (/ 2) in H2.
    change (-1 - 24)%Z with (-25)%Z in H2. specialize (H2 ltac:(lra)). destruct (G (-1) (- pow2 (-24))) as [Fg Bg].
    + apply (repr_int (-1)). lia.
    + apply repr_opp, repr_bpow. lia.
    + lra.
    + rewrite P24. lra.
    + rewrite P24, P25 in *. lra.
    + replace (-1 + 1) with 0 by ring. apply repr_0.
    + replace (- pow2 (-24) + 1) with (IZR (2 ^ 24 - 1) * pow2 (-24)) by (rewrite minus_IZR; cbn; lra). apply repr_dy; lia.
    + apply (K 0%Z); [lia| |]; [split; [exact Fg|]|]; rewrite P24 in *; lra.
  - intros [L1 L2]. pose proof (below_bpow (val v) 0 (repr_val v) ltac:(lia)) as T2. change (pow2 0) with 1 in T2.
    change (0 - 24)%Z with (-24)%Z in T2. specialize (T2 ltac:(lra)). destruct (G 0 (1 - pow2 (-23))) as [Fg Bg].
    + apply repr_0.
    + replace (1 - pow2 (-23)) with (IZR (2 ^ 23 - 1) * pow2 (-23)) by (rewrite minus_IZR; cbn; lra). apply repr_dy; lia.
    + lra.
    + rewrite P23. lra.
    + rewrite P23, P24 in *. lra.
    + rewrite Rplus_0_l. apply (repr_int 1). lia.
    + replace (1 - pow2 (-23) + 1) with (IZR (2 ^ 24 - 1) * pow2 (-23)) by (rewrite minus_IZR; cbn; lra). apply repr_dy; lia.
    + apply (K 1%Z); [lia| |]; [split; [exact Fg|]|]; rewrite P23 in *; lra.
  - intros T1. destruct (G 1 1) as [Fg Bg]; try lra.
    + apply (repr_int 1). lia.
    + apply (repr_int 1). lia.
    + replace (1 + 1) with 2 by ring. apply (repr_int 2). lia.
    + replace (1 + 1) with 2 by ring. apply (repr_int 2). lia.
    + apply (K 2%Z); [lia| |]; [split; [exact Fg|]|]; lra.
Qed.
End Rect.

Lemma sine_of_close v : within v 0 1 ->
  fin (lerp_unchecked (of_int 0) f_tau v) = true /\
  Rabs (val (lerp_unchecked (of_int 0) f_tau v) - 2 * PI * val v) <= 1 / 1000000 /\
  0 <= val (lerp_unchecked (of_int 0) f_tau v) <= 7.
Proof.
  intros W. destruct (tau_lerp _ W) as (y & -> & Fy & Vy).
  split; [exact Fy|]. destruct W as [_ Bv]. pose proof PI_tight as HP.
  assert (E : Rabs (rnd (13176795 / 2097152 * val v) - 13176795 / 2097152 * val v) <= pow2 (3 - 25)).
  { apply rnd_err_bpow; [lia|]. apply Rabs_le. cbn. lra. }
  rewrite Vy. replace (pow2 (3 - 25)) with (1 / 4194304) in E by (cbn; lra).
  split.
  - apply Rabs_le_inv in E. apply Rabs_le.
    assert (- (1 / 10000000) <= 13176795 / 2097152 * val v - 2 * PI * val v <= 2 / 10000000).
    { replace (13176795 / 2097152 * val v - 2 * PI * val v) with ((13176795 / 2097152 - 2 * PI) * val v) by ring.
      split; nra. }
    lra.
  - apply repr_between; [apply repr_0|apply (repr_int 7); lia|lra].
Qed.
End Shapes.

Section Next.
Context {NP : NanPolicy} {B : Build} {MO : MathOps f32} {S : Type} (I : accumulator S).

(** One sample: the accumulator's own outcome, shaped. *)
Lemma gf_next_shape (o : gfosc S) : floor_ok MO ->
  match ac_next_norm I (gf_acc o) with
  | Ret (v, a) => exists y, gf_next I o = Ret (y, GF a (gf_wave o)) /\ shape (gf_wave o) v y
  | Panic => gf_next I o = Panic
  | UB => gf_next I o = UB
  end.
Proof.
  intros Hf. unfold gf_next, gf_next_sine, gf_next_rect, gf_next_tri, gf_next_saw.
  destruct (ac_next_norm I (gf_acc o)) as [[v a]| |] eqn:E; cbn [bind fst snd].
  2, 3: destruct (gf_wave o); reflexivity.
  destruct (gf_wave o) eqn:W; cbn [shape].
  - destruct (C46_fixed_point_sin_range NP B (lerp_unchecked (of_int 0) f_tau v)) as (y & Ey & Fy & By).
    rewrite Ey. cbn [bind]. exists y. split; [reflexivity|]. split; [exact Fy|]. split; [exact By|].
    intros Fv Bv. destruct (sine_of_close v (conj Fv Bv)) as (Fx & C & Bx).
    generalize dependent (lerp_unchecked (of_int 0) f_tau v). intros x Ey Fx C Bx.
    destruct (fixed_point_sin_accuracy x Fx) as (y' & E' & _ & A). rewrite Ey in E'. injection E' as <-.
    pose proof (sin_lip (val x) (2 * PI * val v)) as L.
    replace (pow2 (-22)) with (1 / 4194304)%R in A by (cbn; lra). rewrite (Rabs_right (val x)) in A by lra.
    assert (M := Rle_trans _ _ _ L C). apply Rabs_le_inv in M, A. apply Rabs_le. lra.
  - exists (rect_of v). split; [reflexivity|]. intros Fv Bv. exact (rect_of_spec v Hf (conj Fv Bv)).
  - exists (saw_of v). split; [reflexivity|]. intros Fv Bv. destruct (saw_of_spec v (conj Fv Bv)) as [[F Bs] V]. auto.
  - exists (tri_of v). split; [unfold tri_of, saw_of; destruct (is_sign_positive _); reflexivity|].
    intros Fv Bv. destruct (tri_of_spec v (conj Fv Bv)) as [[F Bs] V]. auto.
Qed.

(** One sample of a table. *)
Lemma gw_next_table (h : heap f32) (o : gwosc S) l v a : covers h (gw_table o) l -> (1 <= ms_len (gw_table o) <= 2 ^ 24)%Z ->
  Forall (fun x => fin x = true) l -> ac_next_norm I (gw_acc o) = Ret (v, a) -> fin v = true -> 0 <= val v <= 1 ->
  let k := Zfloor (table_pos_of (ms_len (gw_table o)) v) in
  ((k + 1 < ms_len (gw_table o))%Z -> exists y, gw_next I h o = Ret (y, GW (gw_table o) a) /\ table_value l (ms_len (gw_table o)) v y) /\
  ((ms_len (gw_table o) <= k + 1)%Z -> ends_allocation h (gw_table o) -> gw_next I h o = UB).
Proof.
  intros C Hn Fl E Fv Bv. cbv zeta. unfold gw_next. rewrite E. cbn [bind fst snd]. set (s := gw_table o) in *.
  pose proof (covers_len _ _ _ C) as [H0 Hm].
  destruct (table_pos (ms_len s) v H0 Hm (conj Fv Bv)) as (Fx & Px & Vx & Hk & Eu).
  rewrite (rnd_repr (IZR (ms_len s))) in Vx by (apply repr_int; lia). fold (table_pos_of (ms_len s) v) in Vx.
  unfold table_value. cbv zeta. rewrite <- Vx.
  generalize dependent (fmul (of_int (ms_len s)) v). intros x Fx Px Vx Hk Eu. clear Vx.
  destruct (lerp_unchecked_at h s l x _ C Eu Hk) as [I1 O]. rewrite <- (Ztrunc_floor (val x)) by exact Px. split.
  - intros L. destruct (I1 L) as (p & q & Hp & Hq & Ey). rewrite Ey. cbn [bind].
    assert (IN : forall i z, nthz l i = Some z -> fin z = true).
    { intros i z H. unfold nthz in H. destruct (i <? 0)%Z; [discriminate|]. apply nth_error_In in H. exact (proj1 (Forall_forall _ _) Fl z H). }
    destruct (frac_exact x (Ztrunc (val x)) Fx Px) as (_ & _ & Q1 & Vf & _); auto; [pose proof usize_max_le; lia|].
    assert (U : unit_range (fsub x (of_int (Ztrunc (val x))))).
    { split; [exact Q1|]. rewrite Vf.
      rewrite (Ztrunc_floor (val x)) by exact Px. pose proof (Zfloor_lb (val x)). pose proof (Zfloor_ub (val x)). lra. }
    eexists. split; [reflexivity|]. exists p, q. split; [exact Hp|]. split; [exact Hq|]. split; [apply lerp_exact_form; eauto|].
    pose proof (lerp_accuracy p q _ (IN _ _ Hp) (IN _ _ Hq) U) as LA. rewrite Vf in LA.
    apply Rle_trans with (1 := LA). apply Rplus_le_compat_r. apply Rmult_le_compat_r; [|replace (pow2 (-22)) with (4 * pow2 (-24)) by (cbn; lra); assert (0 < pow2 (-24)) by apply bpow_gt_0; lra].
    apply Rle_trans with (2 := Rmax_l _ _). apply Rabs_pos.
  - intros L He. rewrite (O L He). reflexivity.
Qed.
End Next.
