(** * Lemmas on the band-limited rectangle lookup. *)

From Coq Require Import ZArith List Bool Reals Lia Lra Psatz.
From Flocq Require Import Core Sterbenz IEEE754.BinarySingleNaN IEEE754.Binary.
From Verif Require Import Base F32 F32Lemmas F32Exact F32Ints F32Range F32Over Num M_Memory S_Memory P_Memory P_Lerp S_Oscillator P_Oscillator
  P_Interp P_SineFloat P_Bits P_Levels M_BlRect.
Import ListNotations.
Local Open Scope R_scope.

Lemma repr_diff x y : repr x -> repr y -> y / 2 <= x <= 2 * y -> repr (x - y).
Proof. intros Hx Hy H. apply sterbenz; [typeclasses eauto|typeclasses eauto|exact Hx|exact Hy|exact H]. Qed.

Section BlRect.
Context {NP : NanPolicy} {B : Build}.

Lemma times4 y v : isv y v -> Rabs v <= 1 -> isv (fmul y (of_int 4)) (4 * v).
Proof.
  intros I H. eapply isv_eq; [apply mul_exact; [exact I|apply isv_int; lia| |]|ring].
  - replace 4 with (pow2 2) by (cbn; lra). apply repr_up; [exact (isv_repr _ _ I)|lia].
  - rewrite Rabs_mult, (Rabs_right 4) by lra. pose proof big_ge. lra.
Qed.

Lemma quarters : isv (lit 1 (-2)) (1 / 4) /\ isv (lit 1 (-1)) (1 / 2) /\ isv (lit 3 (-2)) (3 / 4).
Proof. repeat apply conj; try (eapply isv_eq; [apply isv_lit; lia|]; cbn; lra); try (apply isv_lit; lia). Qed.

(** The position inside the quarter wave is computed exactly. *)
Lemma pos1 x : fin x = true -> 0 < val x <= 1 / 4 -> isv (fmul x (of_int 4)) (4 * val x).
Proof. intros F H. apply times4; [now apply isv_self|]. apply Rabs_le. lra. Qed.
Lemma pos2 x : fin x = true -> 1 / 4 < val x <= 1 / 2 ->
  isv (fmul (fsub (lit 1 (-2)) (fsub x (lit 1 (-2)))) (of_int 4)) (2 - 4 * val x).
Proof.
  intros F H. destruct quarters as (I1 & I2 & I3). pose proof big_ge. pose proof (isv_self x F) as Ix.
  eapply isv_eq; [apply times4; [apply sub_exact; [exact I1|apply sub_exact; [exact Ix|exact I1| |]| |]|]|].
  - apply repr_diff; [apply repr_val|exact (isv_repr _ _ I1)|lra].
  - apply Rabs_lt. lra.
  - replace (1 / 4 - (val x - 1 / 4)) with (1 / 2 - val x) by lra. apply repr_diff; [exact (isv_repr _ _ I2)|apply repr_val|lra].
  - apply Rabs_lt. lra.
  - apply Rabs_le. lra.
  - lra.
Qed.
Lemma pos3 x : fin x = true -> 1 / 2 < val x <= 3 / 4 -> isv (fmul (fsub x (lit 1 (-1))) (of_int 4)) (4 * val x - 2).
Proof.
  intros F H. destruct quarters as (I1 & I2 & I3). pose proof big_ge. pose proof (isv_self x F) as Ix.
  eapply isv_eq; [apply times4; [apply sub_exact; [exact Ix|exact I2| |]|]|].
  - apply repr_diff; [apply repr_val|exact (isv_repr _ _ I2)|lra].
  - apply Rabs_lt. lra.
  - apply Rabs_le. lra.
  - lra.
Qed.
Lemma pos4 x : fin x = true -> 3 / 4 < val x < 1 ->
  isv (fmul (fsub (lit 1 (-2)) (fsub x (lit 3 (-2)))) (of_int 4)) (4 - 4 * val x).
Proof.
  intros F H. destruct quarters as (I1 & I2 & I3). pose proof big_ge. pose proof (isv_self x F) as Ix.
  eapply isv_eq; [apply times4; [apply sub_exact; [exact I1|apply sub_exact; [exact Ix|exact I3| |]| |]|]|].
  - apply repr_diff; [apply repr_val|exact (isv_repr _ _ I3)|lra].
  - apply Rabs_lt. lra.
  - replace (1 / 4 - (val x - 3 / 4)) with (1 - val x) by lra. apply repr_diff; [apply (repr_int 1); lia|apply repr_val|lra].
  - apply Rabs_lt. lra.
  - apply Rabs_le. lra.
  - lra.
Qed.

(** Reading the table at an exact quarter position q. *)
Lemma read_at (T : list f32) f q : Z.of_nat (length T) = bl_rect_len -> isv f q -> 0 <= q <= 1 ->
  let s := from_slice 0 0 (Z.of_nat (length T)) in
  (q = 1 -> ms_lerp_unchecked [T] s (fmul f (of_int 5074)) = UB) /\
  (q < 1 -> let g := rnd (q * 5074) in let k := Ztrunc g in (0 <= k < 5074)%Z /\
     exists t p r, nthz T k = Some p /\ nthz T (k + 1) = Some r /\ isv t (rnd (g - IZR k)) /\ unit_range t /\
       ms_lerp_unchecked [T] s (fmul f (of_int 5074)) = Ret (lerp_unchecked p r t)).
Proof.
  intros L [Ff Vf] Hq s. destruct (isv_int 5074 ltac:(lia)) as [Fi Vi]. pose proof big_ge.
  destruct (mul_within f (of_int 5074) 0 5074) as [[Fm Bm] Vm]; auto; try lra.
  { apply repr_0. } { apply (repr_int 5074). lia. } { rewrite Vf, Vi. nra. }
  rewrite Vf, Vi in Vm.
  assert (C : covers [T] s T).
  { unfold s, from_slice. split; [reflexivity|]. split.
    - cbn [ms_len]. rewrite L. unfold bl_rect_len, isize_max, usize_mod, usize_bits. destruct ptr_w; cbn; lia.
    - exists [], []. split; [now rewrite app_nil_r|reflexivity]. }
  assert (U : (5075 <= usize_max - 1)%Z) by (unfold usize_max, usize_mod, usize_bits; destruct ptr_w; cbn; lia).
  pose proof (trunc_between 0 5074 _ Bm) as T0.
  assert (Eu : n_usize (fmul f (of_int 5074)) = Ztrunc (val (fmul f (of_int 5074)))) by (apply n_usize_fin; [exact Fm|tauto|lia]).
  set (g := val (fmul f (of_int 5074))) in *. set (k := Ztrunc g) in *.
  destruct (lerp_unchecked_at [T] s T (fmul f (of_int 5074)) k C Eu ltac:(lia)) as [R1 R2].
  assert (Ls : ms_len s = 5075%Z) by (unfold s, from_slice; cbn [ms_len]; rewrite L; reflexivity).
  split.
  - intros ->. apply R2.
    + assert (E : g = 5074). { rewrite Vm, Rmult_1_l. apply rnd_repr. apply (repr_int 5074). lia. }
      assert (k = 5074%Z) by (unfold k; rewrite E; apply (Ztrunc_IZR 5074)). lia.
    + unfold ends_allocation, s, from_slice. cbn [ms_ptr ms_len]. exists T. split; reflexivity.
  - intros Q g' k'. assert (Eg : g' = g) by (symmetry; exact Vm). unfold k'. rewrite !Eg. fold k.
    assert (Rq : repr q) by (rewrite <- Vf; apply repr_val).
    pose proof (gap_below_one q Rq Q) as G. assert (E24 : pow2 (-24) = 1 / 16777216) by (cbn; lra). rewrite E24 in G.
    assert (Lg : g < 5074).
    { rewrite Vm. pose proof (rnd_err_bpow (q * 5074) 13 ltac:(lia)) as D. change (pow2 13) with 8192 in D.
      change (pow2 (13 - 25)) with (pow2 (-12)) in D. assert (E12 : pow2 (-12) = 1 / 4096) by (cbn; lra). rewrite E12 in D.
      assert (A : Rabs (q * 5074) <= 8192) by (apply Rabs_le; lra). specialize (D A). apply Rabs_le_inv in D. lra. }
    assert (Tg : IZR k <= g < IZR k + 1).
    { unfold k. rewrite Ztrunc_floor by tauto. split; [apply Zfloor_lb|apply Zfloor_ub]. }
    assert (Hk : (0 <= k < 5074)%Z). { split; [lia|]. apply lt_IZR. lra. }
    split; [exact Hk|]. destruct (R1 ltac:(lia)) as (p & r & Hp & Hr & E).
    exists (fsub (fmul f (of_int 5074)) (of_int k)), p, r. split; [exact Hp|]. split; [exact Hr|].
    destruct (isv_int k ltac:(lia)) as [Fk Vk].
    destruct (sub_within (fmul f (of_int 5074)) (of_int k) 0 1) as [[Ft Bt] Vt]; auto; try lra.
    { apply repr_0. } { apply (repr_int 1). lia. } { fold g. rewrite Vk. lra. }
    split; [split; [exact Ft|]; rewrite Vt; fold g; now rewrite Vk|]. split; [split; [exact Ft|exact Bt]|exact E].
Qed.
End BlRect.
