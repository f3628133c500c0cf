(** * Theorems: the band-limited rectangle lookup (C77). *)

From Coq Require Import ZArith List Bool Reals Lia Lra Psatz.
From Flocq Require Import Core IEEE754.BinarySingleNaN IEEE754.Binary.
From Verif Require Import Base F32 F32Lemmas F32Exact F32Ints F32Range F32Over Num M_Memory S_Memory P_Interp P_SineFloat P_Levels P_Math M_BlRect P_BlRect Examples.
Import ListNotations.
Local Open Scope R_scope.

(** The position inside the stored quarter wave, and whether the half wave is negated. *)
Definition quarter (v : R) : R :=
  if Rle_dec v (1 / 4) then 4 * v else if Rle_dec v (1 / 2) then 2 - 4 * v
  else if Rle_dec v (3 / 4) then 4 * v - 2 else 4 - 4 * v.
Definition negated (v : R) : bool := if Rle_dec v (1 / 2) then false else true.

Section Proofs.
Context {NP : NanPolicy} {B : Build}.

Lemma lookup_shape T x : Z.of_nat (length T) = bl_rect_len -> fin x = true -> 0 < val x < 1 ->
  exists f, isv f (quarter (val x)) /\ 0 <= quarter (val x) <= 1 /\
    lookup_bl_rect T x =
      (do v <- ms_lerp_unchecked [T] (from_slice 0 0 (Z.of_nat (length T))) (fmul f (of_int 5074));
       Ret (if negated (val x) then fmul (of_int (-1)) v else v)).
Proof.
  intros L Fx Hx. destruct quarters as ([G1 V1] & [G2 V2] & [G3 V3]).
  destruct (of_int_exact 0 ltac:(lia)) as [F0 V0]. destruct (of_int_exact 1 ltac:(lia)) as [F1 W1].
  unfold lookup_bl_rect, from_slice. cbn [ms_length ms_len].
  replace (usize_sub (Z.of_nat (length T)) 1) with (@Ret Z 5074%Z).
  2:{ rewrite L. reflexivity. }
  cbn [bind]. rewrite !fle_fin, !flt_fin by assumption. rewrite V0, V1, V2, V3, W1.
  rewrite (Rle_bool_false (val x) 0) by lra. unfold quarter, negated.
  assert (RB : forall o : outcome f32, o = (do v <- o ; Ret v)) by now intros [| |].
  destruct (Rle_dec (val x) (1 / 4)) as [L1|L1]; [rewrite Rle_bool_true by exact L1|rewrite Rle_bool_false by lra].
  { exists (fmul x (of_int 4)). split; [apply pos1; [exact Fx|lra]|]. split; [lra|]. destruct (Rle_dec (val x) (1 / 2)) as [L2|L2]; [apply RB|lra]. }
  destruct (Rle_dec (val x) (1 / 2)) as [L2|L2]; [rewrite Rle_bool_true by exact L2|rewrite Rle_bool_false by lra].
  { eexists. split; [apply pos2; [exact Fx|lra]|]. split; [lra|]. apply RB. }
  destruct (Rle_dec (val x) (3 / 4)) as [L3|L3]; [rewrite Rle_bool_true by exact L3|rewrite Rle_bool_false by lra].
  { eexists. split; [apply pos3; [exact Fx|lra]|]. split; [lra|]. reflexivity. }
  rewrite Rlt_bool_true by lra.
  eexists. split; [apply pos4; [exact Fx|lra]|]. split; [lra|]. reflexivity.
Qed.

Lemma quarter_one v : 0 < v < 1 -> quarter v = 1 <-> v = 1 / 4 \/ v = 3 / 4.
Proof.
  intros H. unfold quarter. destruct (Rle_dec v (1 / 4)); [lra|]. destruct (Rle_dec v (1 / 2)); [lra|]. destruct (Rle_dec v (3 / 4)); lra.
Qed.
End Proofs.

(** C77: outside (0, 1) and for NaN the result is 0, whatever the table. *)
Theorem C77_zero_outside : forall (NP : NanPolicy) (B : Build) (T : list f32) (x : f32), (1 <= length T)%nat ->
  isnan x = true \/ ext x <= 0 \/ 1 <= ext x -> lookup_bl_rect T x = Ret (of_int 0).
Proof.
  intros NP B T x L H. destruct quarters as ([G1 V1] & [G2 V2] & [G3 V3]).
  destruct (of_int_exact 0 ltac:(lia)) as [F0 V0]. destruct (of_int_exact 1 ltac:(lia)) as [F1 W1].
  unfold lookup_bl_rect, from_slice, usize_sub. cbn [ms_length ms_len].
  rewrite (proj2 (Z.leb_le 1 (Z.of_nat (length T)))) by lia. cbn [bind].
  destruct (isnan x) eqn:N.
  - rewrite !fle_nan, flt_nan by tauto. reflexivity.
  - destruct H as [H|H]; [discriminate|]. rewrite !fle_ext, flt_ext by (auto using fin_notnan).
    rewrite (ext_fin _ F0), (ext_fin _ F1), (ext_fin _ G1), (ext_fin _ G2), (ext_fin _ G3), V0, V1, V2, V3, W1.
    destruct (Rle_lt_dec (ext x) 0) as [L0|L0]; [rewrite Rle_bool_true by exact L0; reflexivity|].
    rewrite !Rle_bool_false by lra. rewrite Rlt_bool_false by lra. reflexivity.
Qed.
Print Assumptions C77_zero_outside.

(** C77: with the table of 5075 entries the lookup reads outside the table exactly for the
    arguments 1/4 and 3/4; it never panics. *)
Theorem C77_over_read_refuted : forall (NP : NanPolicy) (B : Build) (T : list f32) (x : f32), Z.of_nat (length T) = bl_rect_len ->
  (lookup_bl_rect T x = UB <-> fin x = true /\ (val x = 1 / 4 \/ val x = 3 / 4)) /\ lookup_bl_rect T x <> Panic.
Proof.
  intros NP B T x L. assert (L1 : (1 <= length T)%nat) by (unfold bl_rect_len in L; lia).
  pose proof (C77_zero_outside NP B T x L1) as Z.
  assert (In : (isnan x = true \/ ext x <= 0 \/ 1 <= ext x) \/ (fin x = true /\ 0 < val x < 1)).
  { destruct (isnan x) eqn:N; [tauto|]. destruct (Rle_lt_dec (ext x) 0); [tauto|]. destruct (Rle_lt_dec 1 (ext x)); [tauto|].
    right. pose proof big_ge. assert (F : fin x = true) by (apply ext_fin_of_bounds; [exact N|lra]). rewrite ext_fin in * by exact F. split; [exact F|lra]. }
  destruct In as [O|[F I]].
  - rewrite (Z O). split; [|discriminate]. split; [discriminate|]. intros [F V]. exfalso. pose proof (fin_notnan x F).
    rewrite (ext_fin x F) in O. intuition (congruence || lra).
  - destruct (lookup_shape T x L F I) as (f & If & Hq & ->). pose proof (quarter_one (val x) I) as Q1.
    destruct (read_at T f _ L If Hq) as [R1 R2].
    destruct (Req_dec (quarter (val x)) 1) as [E|E].
    + rewrite (R1 E). split; [|discriminate]. split; [|reflexivity]. intros _. split; [exact F|]. now apply Q1.
    + destruct (R2 ltac:(lra)) as (_ & t & p & r & _ & _ & _ & _ & ->). cbn [bind]. split; [|discriminate].
      split; [discriminate|]. intros [_ V]. exfalso. apply E. now apply Q1.
Qed.
Print Assumptions C77_over_read_refuted.

(** C77: everywhere else in (0, 1) the result interpolates two neighbouring entries at
    5074 times the position in the quarter wave (rounded once), negated in the second half
    of the period; it is finite if the entries are. *)
Theorem C77_interpolates : forall (NP : NanPolicy) (B : Build) (T : list f32) (x : f32), Z.of_nat (length T) = bl_rect_len ->
  fin x = true -> 0 < val x < 1 -> val x <> 1 / 4 -> val x <> 3 / 4 ->
  let g := rnd (quarter (val x) * 5074) in let k := Ztrunc g in (0 <= k < 5074)%Z /\
  exists t p r, nthz T k = Some p /\ nthz T (k + 1) = Some r /\ fin t = true /\ 0 <= val t <= 1 /\ val t = rnd (g - IZR k) /\
    lookup_bl_rect T x = Ret (if negated (val x) then fmul (of_int (-1)) (interpolation p r t) else interpolation p r t) /\
    (fin p = true -> fin r = true -> exists v, lookup_bl_rect T x = Ret v /\ fin v = true /\
       Rabs (val v - (if negated (val x) then -1 else 1) * (val p * (1 - val t) + val r * val t))
         <= 3 * pow2 (-24) * Rmax (Rabs (val p)) (Rabs (val r)) + pow2 (-148)).
Proof.
  intros NP B T x L F I N1 N2 g k. destruct (lookup_shape T x L F I) as (f & If & Hq & E). pose proof (quarter_one (val x) I) as Q1.
  destruct (read_at T f _ L If Hq) as [_ R2].
  assert (Q : quarter (val x) < 1). { destruct (Req_dec (quarter (val x)) 1) as [E1|E1]; [apply Q1 in E1; tauto|lra]. }
  destruct (R2 Q) as (Hk & t & p & r & Hp & Hr & [Ft Vt] & Ut & Er). split; [exact Hk|].
  exists t, p, r. split; [exact Hp|]. split; [exact Hr|]. split; [exact Ft|]. split; [apply Ut|]. split; [exact Vt|].
  rewrite Er in E. cbn [bind] in E. split; [exact E|]. intros Fp Fr. destruct (lerp_exact_form p r t Fp Fr Ut) as [Fv _].
  pose proof (lerp_accuracy p r t Fp Fr Ut) as A. rewrite E. destruct (negated (val x)).
  - destruct (isv_int (-1) ltac:(lia)) as [Fm Vm].
    destruct (mul_exact (of_int (-1)) (lerp_unchecked p r t) (-1) (val (lerp_unchecked p r t))) as [Fw Vw].
    + split; [exact Fm|exact Vm].
    + now apply isv_self.
    + replace (-1 * val (lerp_unchecked p r t)) with (- val (lerp_unchecked p r t)) by ring. apply repr_opp, repr_val.
    + replace (-1 * val (lerp_unchecked p r t)) with (- val (lerp_unchecked p r t)) by ring. rewrite Rabs_Ropp. apply val_lt_big.
    + eexists. split; [reflexivity|]. split; [exact Fw|]. rewrite Vw. rewrite <- Rmult_minus_distr_l, Rabs_mult.
      replace (Rabs (-1)) with 1 by (rewrite Rabs_left; lra). rewrite Rmult_1_l. exact A.
  - eexists. split; [reflexivity|]. split; [exact Fv|]. rewrite Rmult_1_l. exact A.
Qed.
Print Assumptions C77_interpolates.

(** C77: the curve is symmetric about 1/4 and changes its sign (exactly) half a period on. *)
Theorem C77_symmetry : forall (NP : NanPolicy) (B : Build) (T : list f32) (x y : f32), Z.of_nat (length T) = bl_rect_len ->
  fin x = true -> fin y = true -> 0 < val x < 1 / 2 ->
  (val y = 1 / 2 - val x -> lookup_bl_rect T y = lookup_bl_rect T x) /\
  (val y = val x + 1 / 2 -> lookup_bl_rect T y = (do v <- lookup_bl_rect T x; Ret (fmul (of_int (-1)) v))).
Proof.
  intros NP B T x y L Fx Fy Hx. destruct (lookup_shape T x L Fx ltac:(lra)) as (f & [Ff Vf] & Hq & ->).
  assert (Qp : 0 < quarter (val x)). { unfold quarter. destruct (Rle_dec (val x) (1 / 4)); [lra|]. destruct (Rle_dec (val x) (1 / 2)); lra. }
  assert (Nx : negated (val x) = false). { unfold negated. destruct (Rle_dec (val x) (1 / 2)); [reflexivity|lra]. }
  rewrite Nx. split; intros Vy; destruct (lookup_shape T y L Fy ltac:(lra)) as (f' & [Ff' Vf'] & Hq' & ->).
  - assert (E : quarter (val y) = quarter (val x)).
    { rewrite Vy. unfold quarter. repeat match goal with |- context [Rle_dec ?a ?b] => destruct (Rle_dec a b) end; lra. }
    assert (Ny : negated (val y) = false). { unfold negated. destruct (Rle_dec (val y) (1 / 2)); [reflexivity|lra]. }
    rewrite Ny. replace f' with f; [reflexivity|]. apply val_inj; [exact Ff|exact Ff'|lra|lra].
  - assert (E : quarter (val y) = quarter (val x)).
    { rewrite Vy. unfold quarter. repeat match goal with |- context [Rle_dec ?a ?b] => destruct (Rle_dec a b) end; lra. }
    assert (Ny : negated (val y) = true). { unfold negated. destruct (Rle_dec (val y) (1 / 2)); [lra|reflexivity]. }
    rewrite Ny. replace f' with f; [|apply val_inj; [exact Ff|exact Ff'|lra|lra]].
    destruct (ms_lerp_unchecked _ _ _); reflexivity.
Qed.
Print Assumptions C77_symmetry.

(** A table of ones: 1 in the first half, -1 in the second, past the end at 1/4. *)
Definition ones : list f32 := repeat (of_int 1) (Z.to_nat 5075).
Example C77_ex (NP : NanPolicy) : Z.of_nat (length ones) = bl_rect_len /\
  obits (@lookup_bl_rect NP dbg32 ones (lit 1 (-3))) = Ret (to_bits (of_int 1)) /\
  obits (@lookup_bl_rect NP dbg32 ones (lit 5 (-3))) = Ret (to_bits (of_int (-1))) /\
  @lookup_bl_rect NP dbg32 ones (lit 1 (-2)) = UB.
Proof.
  split; [vm_compute; reflexivity|]. split; [vm_compute; reflexivity|]. split; [vm_compute; reflexivity|].
  apply C77_over_read_refuted; [vm_compute; reflexivity|]. split; [reflexivity|]. left. exact (proj2 (proj1 quarters)).
Qed.
