(** * Concrete data used by the non-vacuity examples (not part of the model). *)

From Coq Require Import ZArith List Bool Reals Lia Lra.
From Flocq Require Import Core.
From Verif Require Import Base F32 F32Lemmas F32Ints Num M_Memory S_Memory S_SliceHistory.
Import ListNotations.
Open Scope Z_scope.

Definition dbg32 : Build := {| ptr_w := W32; ovf_checks := true |}.
Definition rel32 : Build := {| ptr_w := W32; ovf_checks := false |}.
Definition rel64 : Build := {| ptr_w := W64; ovf_checks := false |}.

(** Two allocations; a slice of three samples in the middle of the first. *)
Definition ex_heap : heap f32 :=
  [ [of_int 7; of_int 1; of_int 2; of_int 3; of_int 9]; [of_int 5; of_int 6] ].
Definition ex_slice : mslice := MS (PAt 0 1) 3.
Definition ex_list : list f32 := [of_int 1; of_int 2; of_int 3].

Lemma ex_covers {B : Build} : covers ex_heap ex_slice ex_list.
Proof.
  unfold covers, ex_slice, ex_list. cbn [ms_len ms_ptr length]. split; [reflexivity|]. split.
  - unfold isize_max, usize_bits. destruct ptr_w; lia.
  - exists [of_int 7], [of_int 9]. split; reflexivity.
Qed.
Lemma ex_heap_ok {B : Build} : heap_ok ex_heap.
Proof.
  intros b blk E. assert (Z.of_nat (length blk) <= 5).
  { destruct b as [|[|[|b]]]; cbn in E; try discriminate; injection E as <-; cbn; lia. }
  unfold isize_max, usize_bits. destruct ptr_w; lia.
Qed.

(** A floor routine in the style of micromath's: truncate through an integer and
    step down when that went up. *)
Section Ref.
Context {NP : NanPolicy}.
Definition ref_floor (x : f32) : f32 :=
  let res := of_int (to_int (- 2 ^ 31) (2 ^ 31 - 1) x) in
  if flt x res then fsub res (of_int 1) else res.

Definition ref_math : MathOps f32 := {|
  m_floor := ref_floor; m_sqrt := fun x => x; m_exp := fun x => fadd (of_int 1) x;
  m_log10 := fun x => x; m_powf := fun x _ => x; m_powi := fun x _ => x |}.

Lemma ref_floor_ok : floor_ok ref_math.
Proof.
  intros x Fx Hx. cbn [m_floor ref_math]. unfold ref_floor.
  apply Rabs_lt_inv in Hx. change (pow2 31) with (IZR (2 ^ 31)) in Hx.
  set (k := Ztrunc (val x)).
  assert (Bk : - 2 ^ 31 < k < 2 ^ 31).
  { unfold k. destruct (Rle_or_lt 0 (val x)) as [P|N].
    - rewrite Ztrunc_floor by exact P.
      assert (0 <= Zfloor (val x)) by (apply Zfloor_lub; exact P).
      assert (Zfloor (val x) < 2 ^ 31).
      { apply lt_IZR. eapply Rle_lt_trans; [apply Zfloor_lb|]. lra. }
      lia.
    - rewrite Ztrunc_ceil by lra.
      assert (Zceil (val x) <= 0) by (apply Zceil_glb; simpl; lra).
      assert (- 2 ^ 31 < Zceil (val x)).
      { apply lt_IZR. rewrite opp_IZR. eapply Rlt_le_trans; [|apply Zceil_ub]. lra. }
      lia. }
  assert (Ek : to_int (- 2 ^ 31) (2 ^ 31 - 1) x = k).
  { rewrite to_int_fin by exact Fx. fold k. lia. }
  rewrite Ek.
  destruct (repr_trunc (val x) (repr_val x)) as [R1 R2]. fold k in R1, R2.
  destruct (of_int_spec k) as [Fk Vk]; [lia|]. rewrite rnd_repr in Vk by exact R1.
  rewrite (flt_fin x (of_int k) Fx Fk), Vk.
  destruct (Rlt_bool_spec (val x) (IZR k)) as [L|L].
  - (* a negative non-integer: |k| < 2^23 so k - 1 is exact *)
    assert (Bk2 : - 2 ^ 23 < k <= 0).
    { assert (k <= 0).
      { destruct (Rle_or_lt 0 (val x)) as [P|N].
        - exfalso. pose proof (Ztrunc_bounds_pos _ P). fold k in H. lra.
        - unfold k. rewrite Ztrunc_ceil by lra. apply Zceil_glb. simpl. lra. }
      split; auto.
      destruct (Z.lt_ge_cases (- 2 ^ 23) k) as [|G]; auto. exfalso.
      destruct (repr_large_int (val x) (repr_val x)) as [n En].
      { apply IZR_le in G. rewrite opp_IZR in G. rewrite Rabs_left.
        - change (pow2 23) with (IZR (2 ^ 23)). lra.
        - assert (0 < IZR (2 ^ 23))%R by (apply IZR_lt; lia). lra. }
      unfold k in L. rewrite En, Ztrunc_IZR in L. lra. }
    destruct (of_int_exact 1) as [F1 V1]; [lia|].
    assert (R3 : repr (val (of_int k) - val (of_int 1))).
    { rewrite Vk, V1. replace (IZR k - 1)%R with (IZR (k - 1)) by (rewrite minus_IZR; reflexivity).
      apply repr_int. lia. }
    destruct (fsub_spec _ _ Fk F1) as [F2 V2].
    { rewrite rnd_repr by exact R3. rewrite Vk, V1.
      replace (IZR k - 1)%R with (IZR (k - 1) * pow2 0)%R by (rewrite minus_IZR; simpl; ring).
      apply dy_lt_big; lia. }
    split; auto. rewrite V2, rnd_repr by exact R3. rewrite Vk, V1.
    replace (IZR k - 1)%R with (IZR (k - 1)) by (rewrite minus_IZR; reflexivity).
    f_equal. symmetry. apply Zfloor_imp. split; [|rewrite Z.sub_add; lra].
    rewrite minus_IZR.
    destruct (Rle_or_lt 0 (val x)) as [P|N].
    + pose proof (Ztrunc_bounds_pos _ P). fold k in H. lra.
    + assert (Hk : k = Zceil (val x)) by (apply Ztrunc_ceil; lra).
      destruct (Rlt_or_le (val x) (IZR (k - 1))) as [Q|Q]; [|rewrite minus_IZR in Q; exact Q].
      exfalso. assert (Zceil (val x) <= k - 1) by (apply Zceil_glb; lra). lia.
  - split; auto. rewrite Vk. f_equal. symmetry. apply Zfloor_imp. split; auto.
    rewrite plus_IZR.
    destruct (Rle_or_lt 0 (val x)) as [P|N].
    + pose proof (Ztrunc_bounds_pos _ P). fold k in H. lra.
    + assert (Hk : k = Zceil (val x)) by (apply Ztrunc_ceil; lra).
      pose proof (Zceil_ub (val x)). rewrite <- Hk in H. lra.
Qed.
End Ref.

(** Results shown as bit patterns, so that examples compute to plain integers. *)
Definition obits (x : outcome f32) : outcome Z := do v <- x ; Ret (to_bits v).
Definition rbits {E} (x : result f32 E) : result Z E :=
  match x with Ok v => Ok (to_bits v) | Err e => Err e end.
Definition orbits {E} (x : outcome (result f32 E)) : outcome (result Z E) := do v <- x ; Ret (rbits v).
Definition obs_bits (o : obs f32) : list (option Z) :=
  match o with Samples vs => map (option_map to_bits) vs | _ => [] end.
Definition hist_bits (r : outcome (heap f32 * list mslice * list (obs f32))) : outcome (list (list (option Z))) :=
  do x <- r ; Ret (map obs_bits (snd x)).

(** Bit patterns of the outputs of a run. *)
Definition out_bits {A} (o : outcome (A * list f32)) : outcome (list Z) :=
  match o with Ret (_, ys) => Ret (map to_bits ys) | Panic => Panic | UB => UB end.
