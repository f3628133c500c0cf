(** * Multiplication and division of f32 including overflow, and the sign rule. *)

From Coq Require Import ZArith Reals Bool Lia Lra.
From Flocq Require Import Core IEEE754.BinarySingleNaN IEEE754.Binary.
From Verif Require Import Base F32 F32Lemmas.
Local Open Scope R_scope.

Lemma inf_of_FF (x : f32) s : B2FF 24 128 x = F754_infinity s -> x = B754_infinity 24 128 s.
Proof. destruct x; simpl; intros H; try discriminate. now injection H as ->. Qed.

Section Ops.
Context {NP : NanPolicy}.

Lemma fadd_cases x y : fin x = true -> fin y = true ->
  (Rabs (rnd (val x + val y)) < big /\ fin (fadd x y) = true /\ val (fadd x y) = rnd (val x + val y)) \/
  (big <= Rabs (rnd (val x + val y)) /\ fadd x y = B754_infinity 24 128 (sgn x) /\ sgn x = sgn y).
Proof.
  intros Fx Fy. pose proof (Bplus_correct 24 128 prec_pos prec_emax (nan_result OpAdd) mode_NE x y Fx Fy) as H.
  change (round _ _ _ _) with (rnd (val x + val y)) in H.
  destruct (Rlt_bool_spec (Rabs (rnd (val x + val y))) (bpow radix2 128)) as [L|L].
  - left. destruct H as (V & F & _). auto.
  - right. split; [exact L|]. destruct H as [H1 H2]. split; [apply inf_of_FF; exact H1|exact H2].
Qed.

Lemma fsub_cases x y : fin x = true -> fin y = true ->
  (Rabs (rnd (val x - val y)) < big /\ fin (fsub x y) = true /\ val (fsub x y) = rnd (val x - val y)) \/
  (big <= Rabs (rnd (val x - val y)) /\ fsub x y = B754_infinity 24 128 (sgn x) /\ sgn x = negb (sgn y)).
Proof.
  intros Fx Fy. pose proof (Bminus_correct 24 128 prec_pos prec_emax (nan_result OpSub) mode_NE x y Fx Fy) as H.
  change (round _ _ _ _) with (rnd (val x - val y)) in H.
  destruct (Rlt_bool_spec (Rabs (rnd (val x - val y))) (bpow radix2 128)) as [L|L].
  - left. destruct H as (V & F & _). auto.
  - right. split; [exact L|]. destruct H as [H1 H2]. split; [apply inf_of_FF; exact H1|exact H2].
Qed.

Lemma fmul_cases x y : fin x = true -> fin y = true ->
  (Rabs (rnd (val x * val y)) < big /\ fin (fmul x y) = true /\ val (fmul x y) = rnd (val x * val y) /\
   sgn (fmul x y) = xorb (sgn x) (sgn y)) \/
  (big <= Rabs (rnd (val x * val y)) /\ fmul x y = B754_infinity 24 128 (xorb (sgn x) (sgn y))).
Proof.
  intros Fx Fy. pose proof (Bmult_correct 24 128 prec_pos prec_emax (nan_result OpMul) mode_NE x y) as H.
  change (round _ _ _ _) with (rnd (val x * val y)) in H.
  destruct (Rlt_bool_spec (Rabs (rnd (val x * val y))) (bpow radix2 128)) as [L|L].
  - left. destruct H as (V & F & S). change (is_finite 24 128 x) with (fin x) in F. change (is_finite 24 128 y) with (fin y) in F.
    rewrite Fx, Fy in F. split; [exact L|]. split; [exact F|]. split; [exact V|]. apply S.
    apply fin_notnan. exact F.
  - right. split; [exact L|]. apply inf_of_FF. exact H.
Qed.

Lemma fdiv_cases x y : fin x = true -> fin y = true -> val y <> 0 ->
  (Rabs (rnd (val x / val y)) < big /\ fin (fdiv x y) = true /\ val (fdiv x y) = rnd (val x / val y) /\
   sgn (fdiv x y) = xorb (sgn x) (sgn y)) \/
  (big <= Rabs (rnd (val x / val y)) /\ fdiv x y = B754_infinity 24 128 (xorb (sgn x) (sgn y))).
Proof.
  intros Fx Fy Ny. pose proof (Bdiv_correct 24 128 prec_pos prec_emax (nan_result OpDiv) mode_NE x y Ny) as H.
  change (round _ _ _ _) with (rnd (val x / val y)) in H.
  destruct (Rlt_bool_spec (Rabs (rnd (val x / val y))) (bpow radix2 128)) as [L|L].
  - left. destruct H as (V & F & S). change (is_finite 24 128 x) with (fin x) in F.
    rewrite Fx in F. split; [exact L|]. split; [exact F|]. split; [exact V|]. apply S.
    apply fin_notnan. exact F.
  - right. split; [exact L|]. apply inf_of_FF. exact H.
Qed.

(** The sign of a product or quotient that is not NaN. *)
Lemma fmul_sgn x y : isnan (fmul x y) = false -> sgn (fmul x y) = xorb (sgn x) (sgn y).
Proof.
  intros N. destruct (fin x && fin y) eqn:F.
  - apply andb_prop in F. destruct F as [Fx Fy].
    destruct (fmul_cases x y Fx Fy) as [(_ & _ & _ & S)|[_ E]]; [exact S|]. now rewrite E.
  - destruct x as [sx|sx|sx px Hx|sx mx ex Hx]; destruct y as [sy|sy|sy py Hy|sy my ey Hy]; try discriminate F;
      try reflexivity; exfalso; revert N; match goal with |- isnan ?z = false -> _ => assert (E : isnan z = true) end;
      try (apply fmul_nan; auto; fail); try congruence;
      unfold fmul, Bmult; rewrite isnan_BSN2B; reflexivity.
Qed.
Lemma fdiv_sgn x y : isnan (fdiv x y) = false -> sgn (fdiv x y) = xorb (sgn x) (sgn y).
Proof.
  intros N. destruct (fin x && fin y) eqn:F.
  - apply andb_prop in F. destruct F as [Fx Fy].
    destruct (Req_dec (val y) 0) as [Z|NZ].
    + destruct y as [sy|sy|sy py Hy|sy my ey Hy]; try discriminate Fy.
      * destruct x as [sx|sx|sx px Hx|sx mx ex Hx]; try discriminate Fx; [|reflexivity].
        exfalso. assert (E : isnan (fdiv (B754_zero 24 128 sx) (B754_zero 24 128 sy)) = true)
          by (unfold fdiv, Bdiv; rewrite isnan_BSN2B; reflexivity). congruence.
      * exfalso. unfold val in Z. simpl in Z. apply eq_0_F2R in Z. destruct sy; discriminate Z.
    + destruct (fdiv_cases x y Fx Fy NZ) as [(_ & _ & _ & S)|[_ E]]; [exact S|]. now rewrite E.
  - destruct x as [sx|sx|sx px Hx|sx mx ex Hx]; destruct y as [sy|sy|sy py Hy|sy my ey Hy]; try discriminate F;
      try reflexivity; exfalso; revert N; match goal with |- isnan ?z = false -> _ => assert (E : isnan z = true) end;
      try (apply fdiv_nan; auto; fail); try congruence;
      unfold fdiv, Bdiv; rewrite isnan_BSN2B; reflexivity.
Qed.
End Ops.

Lemma flt_fin_false x y : fin x = true -> fin y = true -> val y <= val x -> flt x y = false.
Proof. intros Fx Fy H. rewrite flt_fin by assumption. case Rlt_bool_spec; intros; auto; lra. Qed.
