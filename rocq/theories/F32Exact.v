(** * "x is finite with value v": exact evaluation of f32 expressions. *)

From Coq Require Import ZArith Reals Lia Lra Bool.
From Flocq Require Import Core.
From Verif Require Import Base F32 F32Lemmas Num.
Local Open Scope R_scope.

Definition isv (x : f32) (v : R) : Prop := fin x = true /\ val x = v.

Lemma isv_self x : fin x = true -> isv x (val x).
Proof. split; auto. Qed.
Lemma isv_eq x u v : isv x u -> u = v -> isv x v.
Proof. now intros H <-. Qed.
Lemma isv_fun x u v : isv x u -> isv x v -> u = v.
Proof. intros [_ <-] [_ <-]. reflexivity. Qed.
Lemma isv_repr x v : isv x v -> repr v.
Proof. intros [_ <-]. apply repr_val. Qed.
Lemma isv_big x v : isv x v -> Rabs v < big.
Proof. intros [_ <-]. apply val_lt_big. Qed.
Lemma isv_int z : (Z.abs z <= 2 ^ 24)%Z -> isv (of_int z) (IZR z).
Proof. intros H. destruct (of_int_exact z H). split; auto. Qed.
Lemma isv_lit m e : (Z.abs m < 2 ^ 24)%Z -> (-149 <= e <= 104)%Z -> isv (lit m e) (IZR m * pow2 e).
Proof. intros H1 H2. destruct (lit_exact m e H1 H2). split; auto. Qed.
Lemma isv_zero : isv f_zero 0.
Proof. split; reflexivity. Qed.
Lemma isv_neg x v : isv x v -> isv (fneg x) (- v).
Proof. intros [F V]. split; [now rewrite fin_fneg|now rewrite val_fneg, V]. Qed.
Lemma isv_abs x v : isv x v -> isv (fabs x) (Rabs v).
Proof. intros [F V]. split; [now rewrite fin_fabs|now rewrite val_fabs, V]. Qed.

Section Ops.
Context {NP : NanPolicy}.
Lemma isv_add x y u v : isv x u -> isv y v -> Rabs (rnd (u + v)) < big -> isv (fadd x y) (rnd (u + v)).
Proof. intros [Fx <-] [Fy <-] H. now apply fadd_spec. Qed.
Lemma isv_sub x y u v : isv x u -> isv y v -> Rabs (rnd (u - v)) < big -> isv (fsub x y) (rnd (u - v)).
Proof. intros [Fx <-] [Fy <-] H. now apply fsub_spec. Qed.
Lemma isv_mul x y u v : isv x u -> isv y v -> Rabs (rnd (u * v)) < big -> isv (fmul x y) (rnd (u * v)).
Proof. intros [Fx <-] [Fy <-] H. now apply fmul_spec. Qed.
Lemma isv_div x y u v : isv x u -> isv y v -> v <> 0 -> Rabs (rnd (u / v)) < big -> isv (fdiv x y) (rnd (u / v)).
Proof. intros [Fx <-] [Fy <-] N H. now apply fdiv_spec. Qed.

Lemma add_exact x y u v : isv x u -> isv y v -> repr (u + v) -> Rabs (u + v) < big -> isv (fadd x y) (u + v).
Proof. intros Hx Hy R B. rewrite <- (rnd_repr _ R) at 1. apply isv_add; auto. now rewrite rnd_repr. Qed.
Lemma sub_exact x y u v : isv x u -> isv y v -> repr (u - v) -> Rabs (u - v) < big -> isv (fsub x y) (u - v).
Proof. intros Hx Hy R B. rewrite <- (rnd_repr _ R) at 1. apply isv_sub; auto. now rewrite rnd_repr. Qed.
Lemma mul_exact x y u v : isv x u -> isv y v -> repr (u * v) -> Rabs (u * v) < big -> isv (fmul x y) (u * v).
Proof. intros Hx Hy R B. rewrite <- (rnd_repr _ R) at 1. apply isv_mul; auto. now rewrite rnd_repr. Qed.
Lemma div_exact x y u v : isv x u -> isv y v -> v <> 0 -> repr (u / v) -> Rabs (u / v) < big -> isv (fdiv x y) (u / v).
Proof. intros Hx Hy N R B. rewrite <- (rnd_repr _ R) at 1. apply isv_div; auto. now rewrite rnd_repr. Qed.

(** Small integers: everything is exact. *)
Lemma int_lt_big z : (Z.abs z <= 2 ^ 24)%Z -> Rabs (IZR z) < big.
Proof.
  intros H. rewrite <- abs_IZR. apply Rle_lt_trans with (IZR (2 ^ 24)); [now apply IZR_le|].
  change (IZR (2 ^ 24)) with (pow2 24). apply bpow_lt. lia.
Qed.
Lemma add_int x y a b : isv x (IZR a) -> isv y (IZR b) -> (Z.abs (a + b) <= 2 ^ 24)%Z -> isv (fadd x y) (IZR (a + b)).
Proof.
  intros Hx Hy H. rewrite plus_IZR. apply add_exact; auto; rewrite <- plus_IZR; [now apply repr_int|now apply int_lt_big].
Qed.
Lemma sub_int x y a b : isv x (IZR a) -> isv y (IZR b) -> (Z.abs (a - b) <= 2 ^ 24)%Z -> isv (fsub x y) (IZR (a - b)).
Proof.
  intros Hx Hy H. rewrite minus_IZR. apply sub_exact; auto; rewrite <- minus_IZR; [now apply repr_int|now apply int_lt_big].
Qed.
Lemma mul_int x y a b : isv x (IZR a) -> isv y (IZR b) -> (Z.abs (a * b) <= 2 ^ 24)%Z -> isv (fmul x y) (IZR (a * b)).
Proof.
  intros Hx Hy H. rewrite mult_IZR. apply mul_exact; auto; rewrite <- mult_IZR; [now apply repr_int|now apply int_lt_big].
Qed.
Lemma nint_f32 z : @nint f32 num_f32 z = of_int z.
Proof. reflexivity. Qed.
End Ops.
