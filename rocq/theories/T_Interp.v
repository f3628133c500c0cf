(** * Theorems: interpolation (C13-C15, C60-C64). *)

From Coq Require Import ZArith List Bool Reals Lia Lra.
From Flocq Require Import Core.
From Verif Require Import Base F32 F32Lemmas F32Ints Num M_Memory M_Delay S_Memory S_Poly
  P_Memory P_Lerp P_DelayNum P_Interp P_Lagrange Examples.
Import ListNotations.
Open Scope Z_scope.

(** ** lerp *)

(** C60: at t = 0 and t = 1 (either zero) the checked lerp returns its endpoint. *)
Theorem C60_lerp_endpoints : forall (NP : NanPolicy) (a b t : f32),
  fin a = true -> fin b = true -> fin t = true ->
  (val t = 0%R -> exists v, lerp_checked a b t = Ok v /\ feq v a = true) /\
  (val t = 1%R -> exists v, lerp_checked a b t = Ok v /\ feq v b = true).
Proof.
  intros NP a b t Fa Fb Ft. split; intros Vt; exists (lerp_unchecked a b t); split;
    try (apply lerp_ok; auto; split; [exact Ft|lra]).
  - apply feq_true_fin; auto; [|now apply lerp_at_0].
    apply lerp_exact_form; auto. split; [exact Ft|lra].
  - apply feq_true_fin; auto; [|now apply lerp_at_1].
    apply lerp_exact_form; auto. split; [exact Ft|lra].
Qed.
Print Assumptions C60_lerp_endpoints.

Example C60_example (NP : NanPolicy) : fin (of_int 3) = true /\ fin (lit (-5) 90) = true /\
  val (of_int 0) = 0%R /\ rbits (lerp_checked (of_int 3) (lit (-5) 90) (of_int 0)) = Ok (to_bits (of_int 3)).
Proof.
  split; [reflexivity|]. split; [reflexivity|]. split; [exact (proj2 (of_int_exact 0 ltac:(lia)))|].
  vm_compute. reflexivity.
Qed.

(** C61: for finite ends and t in [0,1] the result is finite - no overflow up to
    f32::MAX - and close to the exact interpolation. *)
Theorem C61_lerp_accuracy : forall (NP : NanPolicy) (a b t : f32),
  fin a = true -> fin b = true -> fin t = true -> (0 <= val t <= 1)%R ->
  exists v, lerp_checked a b t = Ok v /\ fin v = true /\
    (Rabs (val v - (val a * (1 - val t) + val b * val t))
      <= pow2 (-22) * Rmax (Rabs (val a)) (Rabs (val b)) + pow2 (-148))%R.
Proof.
  intros NP a b t Fa Fb Ft Ht. exists (lerp_unchecked a b t).
  assert (Hu : unit_range t) by (split; assumption).
  split; [now apply lerp_ok|]. split; [now apply lerp_exact_form|].
  eapply Rle_trans; [now apply lerp_accuracy|].
  apply Rplus_le_compat_r. apply Rmult_le_compat_r.
  - eapply Rle_trans; [apply Rabs_pos|apply Rmax_l].
  - change (pow2 (-24)) with (/ 16777216)%R. change (pow2 (-22)) with (/ 4194304)%R. lra.
Qed.
Print Assumptions C61_lerp_accuracy.

(** It can nevertheless leave the interval between its ends: interpolating between a
    value and itself may return a larger one. *)
Theorem C61_lerp_overshoot_refuted : forall (NP : NanPolicy),
  exists a t v, fin a = true /\ fin t = true /\ (0 <= val t <= 1)%R /\
    lerp_checked a a t = Ok v /\ (val a < val v)%R.
Proof.
  intros NP. exists (lit 0xf8fb9d (-23)), (lit 0x94d732 (-25)).
  destruct (lit_exact 0xf8fb9d (-23)) as [F1 V1]; try lia.
  destruct (lit_exact 0x94d732 (-25)) as [F2 V2]; try lia.
  destruct (lit_exact 0xf8fb9e (-23)) as [F3 V3]; try lia.
  exists (lit 0xf8fb9e (-23)). split; [exact F1|]. split; [exact F2|].
  assert (E23 : pow2 (-23) = (/ 8388608)%R) by reflexivity.
  assert (E25 : pow2 (-25) = (/ 33554432)%R) by reflexivity.
  split; [rewrite V2, E25; lra|]. split.
  - rewrite lerp_ok; auto; [|split; [exact F2|rewrite V2, E25; lra]].
    f_equal. apply bits_inj. vm_compute. reflexivity.
  - rewrite V1, V3, E23. lra.
Qed.
Print Assumptions C61_lerp_overshoot_refuted.

Example C61_example (NP : NanPolicy) : fin f_max = true /\
  rbits (lerp_checked f_max f_max (lit 1 (-25))) = Ok (to_bits f_max).
Proof. split; vm_compute; reflexivity. Qed.

(** C62: the validation of the inputs, case by case; a NaN position is not refused. *)
Theorem C62_lerp_validation : forall (NP : NanPolicy) (a b t : f32),
  (isnan a = true \/ isnan b = true <-> lerp_checked a b t = Err InputNaN) /\
  ((isnan a = false /\ isnan b = false) /\ (isinf a = true \/ isinf b = true)
     <-> lerp_checked a b t = Err InputInfinite) /\
  (fin a = true /\ fin b = true /\ isnan t = false /\ (ext t < 0 \/ 1 < ext t)%R
     <-> lerp_checked a b t = Err InterpolationRange) /\
  (fin a = true /\ fin b = true /\ (isnan t = true \/ 0 <= ext t <= 1)%R
     <-> exists v, lerp_checked a b t = Ok v) /\
  (fin a = true -> fin b = true -> isnan t = true ->
     exists v, lerp_checked a b t = Ok v /\ isnan v = true).
Proof. exact @lerp_validation. Qed.
Print Assumptions C62_lerp_validation.

Example C62_example (NP : NanPolicy) :
  rbits (lerp_checked f_inf (of_int 1) (of_int 2)) = Err InputInfinite /\
  rbits (lerp_checked (of_int 1) (of_int 1) (of_int 2)) = Err InterpolationRange.
Proof. split; vm_compute; reflexivity. Qed.

(** ** Lagrange *)

(** C63: in exact arithmetic the interpolant passes through its nodes, reproduces every
    polynomial of degree below n, is itself such a polynomial (so it is the unique one),
    and the hand-unrolled four point version is the same function. *)
Theorem C63_lagrange_nodes : forall (B : Build) (ys : list R) (j : nat),
  (j < length ys)%nat -> lagrange ys (INR j) = Ret (nth j ys 0%R).
Proof.
  intros B ys j Hj. rewrite lagrange_ret.
  - f_equal. rewrite INR_IZR_INZ. now apply lagrange_sum_node.
  - destruct ys; [cbn in Hj; lia|discriminate].
  - rewrite INR_IZR_INZ, minus_INR, INR_IZR_INZ by lia. change (INR 1) with 1%R.
    rewrite <- minus_IZR. apply IZR_le. lia.
Qed.
Print Assumptions C63_lagrange_nodes.

Theorem C63_lagrange_reproduces : forall (B : Build) (c ys : list R) (x : R),
  ys <> [] -> (length c <= length ys)%nat ->
  (forall j, (j < length ys)%nat -> nth j ys 0%R = peval c (INR j)) ->
  (x <= INR (length ys - 1))%R ->
  lagrange ys x = Ret (peval c x).
Proof.
  intros B c ys x Hne Hc Hn Hx. rewrite lagrange_ret by assumption. f_equal.
  apply lagrange_reproduces; [exact Hc|]. intros k Hk. rewrite Hn by exact Hk. now rewrite INR_IZR_INZ.
Qed.
Print Assumptions C63_lagrange_reproduces.

Theorem C63_lagrange_is_polynomial : forall (B : Build) (ys : list R), ys <> [] ->
  exists c, (length c <= length ys)%nat /\
    forall x, (x <= INR (length ys - 1))%R -> lagrange ys x = Ret (peval c x).
Proof.
  intros B ys Hne. destruct (lagrange_sum_poly ys) as (c & L & P). exists c. split; [exact L|].
  intros x Hx. rewrite lagrange_ret by assumption. now rewrite P.
Qed.
Print Assumptions C63_lagrange_is_polynomial.

Theorem C63_four_points_same : forall (B : Build) (a b c d x : R), (x <= 3)%R ->
  lagrange [a; b; c; d] x = Ret (lagrange_only_4_elements a b c d x).
Proof.
  intros B a b c d x Hx. rewrite lagrange_ret; [now rewrite lagrange4_eq|discriminate|].
  cbn [length Nat.sub]. cbn. lra.
Qed.
Print Assumptions C63_four_points_same.

Example C63_example : forall B : Build, lagrange [0; 1; 4; 9]%R (/ 2) = Ret (/ 4)%R.
Proof.
  intros B. rewrite (C63_lagrange_reproduces B [0; 0; 1]%R).
  - f_equal. cbn. lra.
  - discriminate.
  - cbn; lia.
  - intros j Hj. cbn [length] in Hj.
    do 4 (destruct j as [|j]; [cbn; lra|]). lia.
  - cbn. lra.
Qed.

(** C64: when [lagrange] panics (f32). *)
Theorem C64_lagrange_precondition : forall (NP : NanPolicy) (B : Build) (ys : list f32) (x : f32),
  (isnan x = true -> lagrange ys x = Panic) /\
  (x = f_inf -> Z.of_nat (length ys) <= usize_max -> lagrange ys x = Panic) /\
  (ys = [] -> ovf_checks = true -> lagrange ys x = Panic) /\
  (ys <> [] -> Z.of_nat (length ys) <= 2 ^ 24 -> fin x = true ->
     ((val x <= INR (length ys - 1))%R <-> exists v, lagrange ys x = Ret v) /\
     ((INR (length ys - 1) < val x)%R <-> lagrange ys x = Panic)).
Proof. exact @lagrange_precondition. Qed.
Print Assumptions C64_lagrange_precondition.

(** For every list that fits in memory and every f32: len-1 is rounded to f32 for the
    comparison, and an empty list is bounded by the largest usize when overflow wraps. *)
Theorem C64_lagrange_outcome : forall (NP : NanPolicy) (B : Build) (ys : list f32) (x : f32),
  Z.of_nat (length ys) <= usize_max ->
  let top := if (length ys =? 0)%nat then usize_max else Z.of_nat (length ys) - 1 in
  (lagrange ys x = Panic <-> isnan x = true \/ (ys = [] /\ ovf_checks = true) \/ (rnd (IZR top) < ext x)%R) /\
  (lagrange ys x <> Panic -> exists v, lagrange ys x = Ret v).
Proof. exact @lagrange_outcome. Qed.
Print Assumptions C64_lagrange_outcome.

Example C64_example (NP : NanPolicy) : obits (lagrange (B := dbg32) [of_int 1; of_int 2] (lit 1 (-1)))
   = Ret (to_bits (lit 3 (-1))) /\
  obits (lagrange (B := dbg32) [of_int 1; of_int 2] (lit 3 (-1))) = Panic /\
  obits (lagrange (B := rel32) [] (of_int 0)) = Ret 0.
Proof. repeat split; vm_compute; reflexivity. Qed.

(** ** Wrapped Lagrange *)

(** C13: at an integer position i the wrapped Lagrange read returns the sample
    w/2 - 1 places before i (w capped at 100): the wrong sample for every w >= 4. *)
Theorem C13_lagrange_wrapped_shifted_refuted : forall (MO : MathOps R) (B : Build) (h : heap R) s l w i,
  (forall x, m_floor x = IZR (Zfloor x)) -> covers h s l -> 0 < ms_len s -> 2 <= w ->
  isize_min + 50 <= i <= isize_max - 50 ->
  exists v, nthz l ((i - (Z.min w 100 / 2 - 1)) mod ms_len s) = Some v /\
    lagrange_wrapped h s (IZR i) w = Ret v.
Proof. exact @lagrange_wrapped_at_int. Qed.
Print Assumptions C13_lagrange_wrapped_shifted_refuted.

(** For an even window and any position x the result is the value, at x - floor x, of
    the polynomial through the samples floor x - (w/2-1) + k, k < w: that is the value
    at position x - (w/2 - 1), not at x. *)
Theorem C13_even_window_refuted : forall (MO : MathOps R) (B : Build) (h : heap R) s l w x (c : list R),
  (forall x, m_floor x = IZR (Zfloor x)) -> covers h s l -> 0 < ms_len s ->
  2 <= w <= 100 -> w mod 2 = 0 ->
  isize_min + 50 <= Zfloor x <= isize_max - 50 ->
  (length c <= Z.to_nat w)%nat ->
  (forall j, Zfloor x - (w / 2 - 1) <= j <= Zfloor x + w / 2 ->
     nthz l (j mod ms_len s) = Some (peval c (IZR j))) ->
  lagrange_wrapped h s x w = Ret (peval c (x - IZR (w / 2 - 1))).
Proof. exact @lagrange_wrapped_even. Qed.
Print Assumptions C13_even_window_refuted.

(** The delay line's Lagrange tap (w = 5) at an integer offset is one sample early. *)
Theorem C13_delay_tap_refuted : forall (MO : MathOps R) (B : Build) (h : heap R) d l j,
  (forall x, m_floor x = IZR (Zfloor x)) -> covers h (dl_buf d) l -> 0 < ms_len (dl_buf d) ->
  isize_min + 50 <= dl_idx d + j <= isize_max - 50 ->
  exists v, nthz l ((dl_idx d + j - 1) mod ms_len (dl_buf d)) = Some v /\
    dl_read_lagrange_wrapped_at h d (IZR j) = Ret v.
Proof.
  intros MO B h d l j Hf C Hn Hj. unfold dl_read_lagrange_wrapped_at.
  destruct (lagrange_wrapped_at_int MO B h (dl_buf d) l 5 (dl_idx d + j) Hf C Hn ltac:(lia) Hj) as (v & V & E).
  exists v. split; [exact V|]. rewrite nint_R. cbn [nadd num_R]. rewrite <- plus_IZR. exact E.
Qed.
Print Assumptions C13_delay_tap_refuted.

Definition real_math : MathOps R := {|
  m_floor := fun x => IZR (Zfloor x); m_sqrt := sqrt; m_exp := exp; m_log10 := fun x => (ln x / ln 10)%R;
  m_powf := Rpower; m_powi := fun x n => x |}.
Example C13_example : exists v, nthz [10; 20; 30; 40]%R ((2 - (4 / 2 - 1)) mod 4) = Some v /\ v = 20%R /\
  lagrange_wrapped (MO := real_math) (B := dbg32) [[10; 20; 30; 40]%R] (MS (PAt 0 0) 4) (IZR 2) 4 = Ret v.
Proof.
  exists 20%R. split; [reflexivity|]. split; [reflexivity|].
  destruct (lagrange_wrapped_at_int real_math dbg32 [[10; 20; 30; 40]%R] (MS (PAt 0 0) 4) [10; 20; 30; 40]%R 4 2)
    as (v & V & E); try reflexivity; try (cbn; lia).
  - split; [reflexivity|]. split; [vm_compute; discriminate|]. exists [], []. split; reflexivity.
  - rewrite E. change (Some 20%R = Some v) in V. now injection V as <-.
Qed.

(** C14: no input makes the wrapped Lagrange read leave the slice. *)
Theorem C14_lagrange_wrapped_in_bounds : forall (F : Type) (NF : Num F) (MO : MathOps F) (B : Build)
    (h : heap F) s l x w,
  covers h s l -> lagrange_wrapped h s x w <> UB.
Proof. intros. now apply lagrange_wrapped_no_ub with l. Qed.
Print Assumptions C14_lagrange_wrapped_in_bounds.

(** ... and when it panics or returns (f32). *)
Theorem C14_lagrange_wrapped_panics : forall (NP : NanPolicy) (MO : MathOps f32) (B : Build)
    (h : heap f32) s l (x : f32) w,
  covers h s l -> 0 <= w ->
  (isnan x = true \/ x = f_inf -> lagrange_wrapped h s x w = Panic) /\
  (w = 0 -> ovf_checks = true -> lagrange_wrapped h s x w = Panic) /\
  (ms_len s = 0 -> 2 <= w -> lagrange_wrapped h s x w = Panic) /\
  (floor_ok MO -> fin x = true -> (Rabs (val x) < pow2 23)%R ->
   isize_min + 50 <= Zfloor (val x) <= isize_max - 50 -> 0 < ms_len s ->
     (2 <= w -> exists v, lagrange_wrapped h s x w = Ret v) /\
     (w = 1 -> val x <> IZR (Zfloor (val x)) -> lagrange_wrapped h s x w = Panic) /\
     (w = 1 -> val x = IZR (Zfloor (val x)) -> exists v, lagrange_wrapped h s x w = Ret v /\ val v = 0%R)).
Proof. intros. now apply lagrange_wrapped_panics with (l := l). Qed.
Print Assumptions C14_lagrange_wrapped_panics.

Example C14_example (NP : NanPolicy) : floor_ok ref_math /\
  obits (lagrange_wrapped (MO := ref_math) (B := dbg32) ex_heap ex_slice (lit 3 (-1)) 1) = Panic /\
  obits (lagrange_wrapped (MO := ref_math) (B := dbg32) ex_heap ex_slice (lit 3 (-1)) 2) = Ret (to_bits (lit 5 (-1))).
Proof. split; [apply ref_floor_ok|]. split; vm_compute; reflexivity. Qed.

(** C15: the four point read evaluates its polynomial at the absolute position. *)
Theorem C15_four_point_integer_refuted : forall (MO : MathOps R) (B : Build) (h : heap R) s l i,
  (forall x, m_floor x = IZR (Zfloor x)) -> covers h s l -> 0 < ms_len s -> 0 <= i <= 3 ->
  exists v, nthz l ((2 * i) mod ms_len s) = Some v /\ lagrange_four_points_wrapped h s (IZR i) = Ret v.
Proof. exact @four_points_at_int. Qed.
Print Assumptions C15_four_point_integer_refuted.

Theorem C15_four_point_ramp_refuted : forall (MO : MathOps R) (B : Build) (h : heap R) s l (alpha beta x : R),
  (forall x, m_floor x = IZR (Zfloor x)) -> covers h s l ->
  (0 <= x)%R -> Zfloor x + 3 < ms_len s ->
  (forall j, Zfloor x <= j <= Zfloor x + 3 -> nthz l j = Some (alpha + beta * IZR j)%R) ->
  lagrange_four_points_wrapped h s x = Ret (alpha + beta * (IZR (Zfloor x) + x))%R.
Proof. exact @four_points_ramp. Qed.
Print Assumptions C15_four_point_ramp_refuted.

Example C15_example : (forall x, m_floor (MathOps := real_math) x = IZR (Zfloor x)) /\
  covers (B := dbg32) [[10; 20; 30; 40]%R] (MS (PAt 0 0) 4) [10; 20; 30; 40]%R.
Proof.
  split; [reflexivity|].
  split; [reflexivity|]. split; [vm_compute; discriminate|]. exists [], []. split; reflexivity.
Qed.
