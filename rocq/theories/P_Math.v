(** * Lemmas on tanh, sinh and cosh. *)

From Coq Require Import ZArith Bool Reals Lia Lra Psatz.
From Flocq Require Import Core IEEE754.BinarySingleNaN IEEE754.Binary.
From Verif Require Import Base F32 F32Lemmas F32Exact F32Ints F32Range F32Over Num M_FloatMath P_Interp P_SineFloat P_Bits P_Levels.
Local Open Scope R_scope.

(** ** tanh in f32 *)

Lemma below_2_64 v : repr v -> Rabs v < pow2 64 -> Rabs v <= pow2 64 - pow2 40.
Proof.
  intros Rv H. assert (E64 : pow2 64 = 18446744073709551616) by (cbn; lra). assert (E40 : pow2 40 = 1099511627776) by (cbn; lra).
  destruct (Rle_lt_dec (Rabs v) 1) as [L|L]; [lra|].
  assert (R' : repr (Rabs v * pow2 (-64))).
  { apply repr_scale; [apply generic_format_abs, Rv| |lia]. right. rewrite Rabs_Rabsolu. lra. }
  assert (Em : pow2 (-64) * 18446744073709551616 = 1) by (rewrite <- E64, <- bpow_plus; reflexivity).
  pose proof (bpow_gt_0 radix2 (-64)).
  assert (G : Rabs v * pow2 (-64) <= 1 - pow2 (-24)) by (apply gap_below_one; [exact R'|nra]).
  assert (E24 : pow2 (-24) = 1 / 16777216) by (cbn; lra). rewrite E24 in G. nra.
Qed.

Section Tanh.
Context {NP : NanPolicy}.

Lemma square_fits v : repr v -> Rabs v < pow2 64 -> 0 <= rnd (v * v) <= pow2 128 - pow2 105.
Proof.
  intros Rv H. apply below_2_64 in H; [|exact Rv]. split; [apply rnd_pos; nra|].
  assert (E128 : pow2 128 = 340282366920938463463374607431768211456) by (cbn; lra).
  assert (E105 : pow2 105 = 40564819207303340847894502572032) by (cbn; lra).
  assert (E103 : pow2 103 = 10141204801825835211973625643008) by (cbn; lra).
  assert (E80 : pow2 80 = 1208925819614629174706176) by (cbn; lra).
  assert (E64 : pow2 64 = 18446744073709551616) by (cbn; lra). assert (E40 : pow2 40 = 1099511627776) by (cbn; lra).
  assert (S : v * v <= pow2 128 - pow2 105 + pow2 80).
  { replace (v * v) with (Rabs v * Rabs v) by (rewrite <- Rabs_mult; apply Rabs_right; nra).
    pose proof (Rabs_pos v). rewrite E64, E40 in H. rewrite E128, E105, E80. nra. }
  apply Rle_trans with (1 := rnd_le _ _ S).
  assert (Iq : isv (lit 16777214 104) (pow2 128 - pow2 105)).
  { eapply isv_eq; [apply isv_lit; lia|]. assert (E104 : pow2 104 = 20282409603651670423947251286016) by (cbn; lra). rewrite E104, E128, E105. lra. }
  assert (I8 : isv (lit 1 80) (pow2 80)) by (eapply isv_eq; [apply isv_lit; lia|]; rewrite E80; cbn; lra).
  assert (Is : isv (fadd (lit 16777214 104) (lit 1 80)) (rnd (pow2 128 - pow2 105 + pow2 80))).
  { apply isv_add; [exact Iq|exact I8|]. apply rnd_no_overflow. rewrite E128, E105, E80, E103. rewrite Rabs_right; lra. }
  assert (E : fadd (lit 16777214 104) (lit 1 80) = lit 16777214 104) by (apply bits_inj; vm_compute; reflexivity).
  rewrite E in Is. rewrite (isv_fun _ _ _ Is Iq). lra.
Qed.

Definition u24 : R := 1 / 16777216.

Lemma rnd_err' x : Rabs (rnd x - x) <= u24 * Rabs x + u24 / 1000000.
Proof.
  pose proof (rnd_err x) as H. assert (E24 : pow2 (-24) = u24) by (unfold u24; cbn; lra). rewrite E24 in H.
  assert (pow2 (-150) <= u24 / 1000000). { unfold u24. apply Rle_trans with (pow2 (-50)); [apply bpow_le; lia|cbn; lra]. }
  lra.
Qed.

Lemma abs_le_dev a b e : Rabs (a - b) <= e -> b - e <= a <= b + e.
Proof. intros H. apply Rabs_le_inv in H. lra. Qed.

Lemma abs_le_cosh A : A <= 7072 / 10000 * (1 + A * A / 2).
Proof. pose proof (Rle_0_sqr (A - 10000 / 7072)) as H. unfold Rsqr in H. lra. Qed.

Lemma exp_approx_f32 x : fin x = true -> Rabs (val x) < pow2 64 ->
  let e := exp_approx x in let v := val x in
  fin e = true /\ Rabs (val e) <= pow2 127 - pow2 103 /\
  Rabs (val e - (1 + v + v * v / 2)) <= 518 / 100 * u24 * (1 + v * v / 2).
Proof.
  intros Fx Hx e v. unfold e, exp_approx. change (@nint f32 num_f32 1) with (of_int 1). change (@nint f32 num_f32 2) with (of_int 2).
  cbn [nadd nmul ndiv num_f32].
  destruct (of_int_exact 1 ltac:(lia)) as [F1 V1]. destruct (of_int_exact 2 ltac:(lia)) as [F2 V2].
  assert (Bx := below_2_64 _ (repr_val x) Hx).
  assert (E128 : pow2 128 = 340282366920938463463374607431768211456) by (cbn; lra).
  assert (E127 : pow2 127 = 170141183460469231731687303715884105728) by (cbn; lra).
  assert (E105 : pow2 105 = 40564819207303340847894502572032) by (cbn; lra).
  assert (E104 : pow2 104 = 20282409603651670423947251286016) by (cbn; lra).
  assert (E103 : pow2 103 = 10141204801825835211973625643008) by (cbn; lra).
  assert (E64 : pow2 64 = 18446744073709551616) by (cbn; lra). assert (E65 : pow2 65 = 36893488147419103232) by (cbn; lra).
  assert (Eb : big = pow2 128) by reflexivity.
  (* 1 + x *)
  destruct (fadd_bnd (of_int 1) x (pow2 65) F1 Fx) as (Fa & Va & Ba).
  { apply repr_bpow; lia. } { unfold big. apply bpow_lt. lia. }
  { rewrite V1, E65. rewrite E64 in Hx. apply Rle_trans with (1 := Rabs_triang _ _). rewrite Rabs_R1. lra. }
  (* x * x *)
  pose proof (square_fits _ (repr_val x) Hx) as Bp.
  destruct (fmul_spec x x Fx Fx) as [Fp Vp]. { rewrite Rabs_right by lra. rewrite Eb. rewrite E128, E105 in *. lra. }
  (* / 2 *)
  destruct (div_within (fmul x x) (of_int 2) 0 (pow2 127 - pow2 104)) as [[Fq Bq] Vq]; auto.
  { rewrite V2. lra. } { apply repr_0. }
  { replace (pow2 127 - pow2 104) with (IZR 8388607 * pow2 104) by (rewrite E104, E127; lra). apply repr_dy; lia. }
  { rewrite Eb, E128. lra. } { rewrite Eb, E128, E127, E104. lra. }
  { rewrite Vp, V2. rewrite E128, E105 in Bp. rewrite E127, E104. lra. }
  (* sum *)
  destruct (fadd_bnd (fadd (of_int 1) x) (fdiv (fmul x x) (of_int 2)) (pow2 127 - pow2 103) Fa Fq) as (Fs & Vs & Bs).
  { replace (pow2 127 - pow2 103) with (IZR 16777215 * pow2 103) by (rewrite E103, E127; lra). apply repr_dy; lia. }
  { rewrite Eb, E128, E127, E103. lra. }
  { apply Rle_trans with (1 := Rabs_triang _ _). rewrite (Rabs_right (val (fdiv _ _))) by lra.
    rewrite E127, E104 in Bq. rewrite E127, E103. rewrite E65 in Ba. lra. }
  split; [exact Fs|]. split; [exact Bs|].
  rewrite Vs. fold v in Va, Vp, Bp.
  set (r1 := val (fadd (of_int 1) x)) in *. set (q := val (fdiv (fmul x x) (of_int 2))) in *. set (p := val (fmul x x)) in *.
  rewrite V1 in Va. rewrite V2 in Vq.
  pose proof (rnd_err' (1 + v)) as D1. rewrite <- Va in D1. pose proof (rnd_err' (v * v)) as D2. rewrite <- Vp in D2.
  pose proof (rnd_err' (p / 2)) as D3. rewrite <- Vq in D3. pose proof (rnd_err' (r1 + q)) as D4.
  set (X := v * v) in *. assert (PX : 0 <= X) by (unfold X; nra).
  assert (AX : Rabs X = X) by (apply Rabs_right; lra). rewrite AX in D2.
  assert (A1 : Rabs (1 + v) <= 1 + Rabs v) by (apply Rle_trans with (1 := Rabs_triang _ _); rewrite Rabs_R1; lra).
  assert (Pp : 0 <= p) by (rewrite Vp; lra). rewrite (Rabs_right (p / 2)) in D3 by lra.
  pose proof (abs_le_cosh (Rabs v)) as AC. replace (Rabs v * Rabs v) with X in AC by (unfold X; rewrite <- Rabs_mult; symmetry; exact AX).
  assert (B1 : Rabs (r1 - (1 + v)) <= u24 * (1 + Rabs v) + u24 / 1000000) by (unfold u24 in *; lra).
  apply abs_le_dev in D2. apply abs_le_dev in D3. apply abs_le_dev in B1.
  assert (A4 : Rabs (r1 + q) <= 102 / 100 * (1 + Rabs v + X / 2)).
  { pose proof (Rle_abs v). pose proof (Rle_abs (- v)) as NV. rewrite Rabs_Ropp in NV. unfold u24 in *. apply Rabs_le. lra. }
  apply abs_le_dev in D4. apply Rabs_le. unfold u24 in *. lra.
Qed.

Lemma tanh_f32 x : fin x = true -> Rabs (val x) < pow2 64 ->
  fin (tanh_ x) = true /\ Rabs (val (tanh_ x) - val x / (1 + val x * val x / 2)) <= pow2 (-20).
Proof.
  intros Fx Hx. unfold tanh_. change (@nint f32 num_f32 2) with (of_int 2). cbn [nsub nadd nmul ndiv nneg num_f32].
  destruct (exp_approx_f32 x Fx Hx) as (Fe & Be & De).
  destruct (exp_approx_f32 (fneg x)) as (Fn & Bn & Dn); [now rewrite fin_fneg|now rewrite val_fneg, Rabs_Ropp|].
  rewrite val_fneg in Dn. set (v := val x) in *. replace (- v * - v) with (v * v) in Dn by ring.
  destruct (of_int_exact 2 ltac:(lia)) as [F2 V2].
  set (e := exp_approx x) in *. set (e' := exp_approx (fneg x)) in *.
  assert (E128 : pow2 128 = 340282366920938463463374607431768211456) by (cbn; lra).
  assert (E127 : pow2 127 = 170141183460469231731687303715884105728) by (cbn; lra).
  assert (E104 : pow2 104 = 20282409603651670423947251286016) by (cbn; lra).
  assert (E103 : pow2 103 = 10141204801825835211973625643008) by (cbn; lra).
  assert (Eb : big = pow2 128) by reflexivity.
  assert (Rm : repr fmaxv). { replace fmaxv with (IZR 16777215 * pow2 104) by (unfold fmaxv; rewrite E104, E128; lra). apply repr_dy; lia. }
  assert (Lm : fmaxv < big) by (unfold fmaxv; rewrite Eb, E128, E104; lra).
  rewrite E127, E103 in Be, Bn. apply Rabs_le_inv in Be, Bn.
  destruct (fsub_bnd e e' fmaxv Fe Fn Rm Lm) as (Fd & Vd & Bd).
  { apply Rabs_le. unfold fmaxv. rewrite E128, E104. lra. }
  destruct (fadd_bnd e e' fmaxv Fe Fn Rm Lm) as (Fs & Vs & Bs).
  { apply Rabs_le. unfold fmaxv. rewrite E128, E104. lra. }
  assert (Pm : 0 < fmaxv) by (unfold fmaxv; rewrite E128, E104; lra).
  destruct (fdiv_bnd (fsub e e') (of_int 2) fmaxv) as (Fsh & Vsh & Bsh); auto; [rewrite V2; lra| |].
  { rewrite V2. apply Rabs_le_inv in Bd. apply Rabs_le. lra. }
  destruct (fdiv_bnd (fadd e e') (of_int 2) fmaxv) as (Fch & Vch & Bch); auto; [rewrite V2; lra| |].
  { rewrite V2. apply Rabs_le_inv in Bs. apply Rabs_le. lra. }
  set (X := v * v) in *. assert (PX : 0 <= X) by (unfold X; nra). set (C := 1 + X / 2) in *. assert (PC : 1 <= C) by (unfold C; lra).
  pose proof (abs_le_cosh (Rabs v)) as AC. replace (Rabs v * Rabs v) with X in AC by (unfold X; rewrite <- Rabs_mult; symmetry; apply Rabs_right; unfold X in PX; lra).
  fold C in AC.
  set (dd := val (fsub e e')) in *. set (ss := val (fadd e e')) in *.
  set (sh := val (fdiv (fsub e e') (of_int 2))) in *. set (ch := val (fdiv (fadd e e') (of_int 2))) in *.
  rewrite V2 in Vsh, Vch.
  apply abs_le_dev in De, Dn.
  pose proof (rnd_err' (val e - val e')) as D1. rewrite <- Vd in D1. pose proof (rnd_err' (val e + val e')) as D2. rewrite <- Vs in D2.
  pose proof (rnd_err' (dd / 2)) as D3. rewrite <- Vsh in D3. pose proof (rnd_err' (ss / 2)) as D4. rewrite <- Vch in D4.
  pose proof (Rle_abs v) as LV. pose proof (Rle_abs (- v)) as NV. rewrite Rabs_Ropp in NV.
  assert (X1 : Rabs (val e - val e') <= 15 / 10 * C) by (apply Rabs_le; unfold u24, C in *; lra).
  assert (X2 : Rabs (val e + val e') <= 21 / 10 * C) by (apply Rabs_le; unfold u24, C in *; lra).
  apply abs_le_dev in D1. apply abs_le_dev in D2.
  assert (Y1 : 2 * v - 1192 / 100 * u24 * C <= dd <= 2 * v + 1192 / 100 * u24 * C) by (unfold u24, C in *; lra).
  assert (Y2 : 2 * C - 1250 / 100 * u24 * C <= ss <= 2 * C + 1250 / 100 * u24 * C) by (unfold u24, C in *; lra).
  assert (X3 : Rabs (dd / 2) <= 8 / 10 * C) by (apply Rabs_le; unfold u24, C in *; lra).
  assert (X4 : Rabs (ss / 2) <= 11 / 10 * C) by (apply Rabs_le; unfold u24, C in *; lra).
  apply abs_le_dev in D3. apply abs_le_dev in D4.
  assert (Z1 : v - 68 / 10 * u24 * C <= sh <= v + 68 / 10 * u24 * C) by (unfold u24, C in *; lra).
  assert (Z2 : C - 74 / 10 * u24 * C <= ch <= C + 74 / 10 * u24 * C) by (unfold u24, C in *; lra).
  assert (Pch : 0 < ch) by (unfold u24 in *; lra).
  assert (Q : Rabs (sh / ch - v / C) <= 1210 / 100 * u24).
  { replace (sh / ch - v / C) with ((C * (sh - v) - v * (ch - C)) / (C * ch)) by (field; lra).
    assert (Pcc : 0 < C * ch) by (apply Rmult_lt_0_compat; lra).
    unfold Rdiv at 1. rewrite Rabs_mult, Rabs_inv, (Rabs_right (C * ch)) by lra.
    apply Rmult_le_reg_r with (C * ch); [exact Pcc|]. rewrite Rmult_assoc, Rinv_l by lra. rewrite Rmult_1_r.
    apply Rle_trans with (1 := Rabs_triang _ _). rewrite Rabs_Ropp, !Rabs_mult, (Rabs_right C) by lra.
    assert (H1 : Rabs (sh - v) <= 68 / 10 * u24 * C) by (apply Rabs_le; lra).
    assert (H2 : Rabs (ch - C) <= 74 / 10 * u24 * C) by (apply Rabs_le; lra).
    pose proof (Rabs_pos v). pose proof (Rabs_pos (ch - C)).
    assert (T1 : C * Rabs (sh - v) <= C * (68 / 10 * u24 * C)) by (apply Rmult_le_compat_l; lra).
    assert (T2 : Rabs v * Rabs (ch - C) <= (7072 / 10000 * C) * (74 / 10 * u24 * C)) by (apply Rmult_le_compat; lra).
    assert (T3 : C * (999 / 1000 * C) <= C * ch) by (apply Rmult_le_compat_l; [lra|unfold u24 in *; lra]).
    assert (PCC : 0 < C * C) by (apply Rmult_lt_0_compat; lra).
    apply Rle_trans with ((1210 / 100 * u24) * (C * (999 / 1000 * C))); [unfold u24 in *; lra|].
    apply Rmult_le_compat_l; [unfold u24; lra|exact T3]. }
  assert (M : Rabs (v / C) <= 7072 / 10000).
  { unfold Rdiv. rewrite Rabs_mult, Rabs_inv, (Rabs_right C) by lra. apply Rmult_le_reg_r with C; [lra|].
    rewrite Rmult_assoc, Rinv_l by lra. lra. }
  assert (M' : Rabs (sh / ch) <= 1).
  { apply abs_le_dev in Q. apply Rabs_le_inv in M. apply Rabs_le. unfold u24 in *. lra. }
  destruct (fdiv_bnd (fdiv (fsub e e') (of_int 2)) (fdiv (fadd e e') (of_int 2)) 1) as (Ft & Vt & _); auto.
  { fold ch. lra. } { apply (repr_int 1). lia. } { rewrite Eb, E128. lra. }
  split; [exact Ft|]. rewrite Vt. fold sh ch. fold C.
  pose proof (rnd_err' (sh / ch)) as D5. apply abs_le_dev in D5. apply abs_le_dev in Q. apply Rabs_le.
  assert (E20 : pow2 (-20) = 16 * u24) by (unfold u24; cbn; lra). rewrite E20. unfold u24 in *. lra.
Qed.

Lemma tanh_f32_nan x : fin x = false \/ pow2 64 <= Rabs (val x) -> isnan (tanh_ x) = true.
Proof.
  intros H. unfold tanh_. cbn [nsub nadd nmul ndiv nneg num_f32].
  assert (G : isnan (fsub (exp_approx x) (exp_approx (fneg x))) = true).
  2:{ apply fdiv_nan. left. apply fdiv_nan. now left. }
  unfold exp_approx. change (@nint f32 num_f32 1) with (of_int 1). change (@nint f32 num_f32 2) with (of_int 2). cbn [nadd nmul ndiv num_f32].
  destruct (of_int_exact 2 ltac:(lia)) as [F2 V2]. destruct (of_int_exact 1 ltac:(lia)) as [F1 V1].
  destruct (fin x) eqn:Fx.
  - destruct H as [H|H]; [discriminate|].
    assert (E : forall y, fin y = true -> pow2 64 <= Rabs (val y) -> exists s, fmul y y = B754_infinity 24 128 false /\ s = false).
    { intros y Fy Hy. exists false. split; [|reflexivity]. destruct (fmul_cases y y Fy Fy) as [(L & _)|[_ E]]; [exfalso|].
      - assert (pow2 128 <= rnd (val y * val y)).
        { apply rnd_ge_repr; [apply repr_bpow; lia|]. replace (val y * val y) with (Rabs (val y) * Rabs (val y)) by (rewrite <- Rabs_mult; apply Rabs_right; nra).
          change (pow2 128) with (pow2 (64 + 64)). rewrite bpow_plus. pose proof (bpow_gt_0 radix2 64). nra. }
        unfold big in L. rewrite Rabs_right in L; [lra|]. pose proof (bpow_gt_0 radix2 128). lra.
      - rewrite E. now destruct (sgn y). }
    assert (A : forall y, fin y = true -> pow2 64 <= Rabs (val y) ->
      fadd (fadd (of_int 1) y) (fdiv (fmul y y) (of_int 2)) = B754_infinity 24 128 false).
    { intros y Fy Hy. destruct (E y Fy Hy) as (s & -> & _). rewrite inf_div by (auto; rewrite V2; lra).
      destruct (fadd_cases (of_int 1) y F1 Fy) as [(_ & F & _)|[L _]].
      - destruct (fadd (of_int 1) y) as [s'|s'|s' pl Hn|s' m e Hb]; try discriminate F; reflexivity.
      - exfalso. assert (O : Rabs (rnd (val (of_int 1) + val y)) < big); [|lra]. apply rnd_no_overflow.
        pose proof (val_max y) as M. apply Rle_lt_trans with (1 := Rabs_triang _ _). rewrite V1, Rabs_R1. unfold fmaxv in M.
        assert (E104 : pow2 104 = 20282409603651670423947251286016) by (cbn; lra).
        assert (E103 : pow2 103 = 10141204801825835211973625643008) by (cbn; lra). lra. }
    rewrite (A x Fx H), (A (fneg x)) by (rewrite ?fin_fneg, ?val_fneg, ?Rabs_Ropp; assumption).
    unfold fsub, Bminus. rewrite isnan_BSN2B. reflexivity.
  - apply fsub_nan. destruct (isnan x) eqn:N.
    + left. apply fadd_nan. left. apply fadd_nan. now right.
    + destruct (fin_or_inf x N) as [F|[s ->]]; [congruence|].
      destruct s; [left|right]; unfold fadd at 1, Bplus at 1; rewrite isnan_BSN2B; reflexivity.
Qed.
End Tanh.

(** ** Symmetry of sums and differences *)

(** The same float, or two NaNs. *)
Definition same (x y : f32) : Prop := x = y \/ (isnan x = true /\ isnan y = true).

Lemma same_BSN x y : B2BSN 24 128 x = B2BSN 24 128 y -> same x y.
Proof.
  unfold same. destruct x as [sx|sx|sx px Hx|sx mx ex Hx]; destruct y as [sy|sy|sy py Hy|sy my ey Hy]; cbn; intros H;
    try discriminate; try (right; split; reflexivity); left.
  - now injection H as ->.
  - now injection H as ->.
  - injection H as -> -> ->. f_equal. apply Eqdep_dec.UIP_dec, Bool.bool_dec.
Qed.

Section Symm.
Context {NP : NanPolicy}.

Lemma fadd_comm x y : same (fadd x y) (fadd y x).
Proof.
  apply same_BSN. unfold fadd, Bplus. rewrite !B2BSN_BSN2B.
  generalize (B2BSN 24 128 x), (B2BSN 24 128 y). intros a b.
  destruct a as [sa|sa| |sa ma ea Ha]; destruct b as [sb|sb| |sb mb eb Hb]; try reflexivity.
  - destruct sa, sb; reflexivity.
  - destruct sa, sb; reflexivity.
  - unfold BinarySingleNaN.Bplus, Fplus_naive. rewrite (Z.min_comm eb ea), Z.add_comm. reflexivity.
Qed.

(** [x - y] and [y - x]: opposite, both zero, or both NaN. *)
Definition opposite (x y : f32) : Prop :=
  x = fneg y \/ (fin x = true /\ fin y = true /\ val x = 0 /\ val y = 0) \/ (isnan x = true /\ isnan y = true).

Lemma fsub_anti x y : opposite (fsub x y) (fsub y x).
Proof.
  unfold opposite. destruct (fin x && fin y) eqn:E.
  - apply andb_prop in E. destruct E as [Fx Fy].
    assert (O : rnd (val y - val x) = - rnd (val x - val y)) by (rewrite <- rnd_opp; f_equal; ring).
    destruct (fsub_cases x y Fx Fy) as [(_ & F & V)|(L & E & S)]; destruct (fsub_cases y x Fy Fx) as [(L' & F' & V')|(L' & E' & S')].
    + destruct (Req_dec (val (fsub x y)) 0) as [Z|NZ].
      * right. left. split; [exact F|]. split; [exact F'|]. split; [exact Z|]. rewrite V', O. lra.
      * left. apply val_inj; [exact F|now rewrite fin_fneg|rewrite val_fneg; lra|exact NZ].
    + exfalso. rewrite O, Rabs_Ropp, <- V in L'. pose proof (val_lt_big (fsub x y)). lra.
    + exfalso. rewrite O, Rabs_Ropp in L'. lra.
    + left. rewrite E, E'. cbn. f_equal. destruct (sgn x), (sgn y); try discriminate; reflexivity.
  - destruct (isnan x) eqn:Nx; [right; right; split; apply fsub_nan; tauto|].
    destruct (isnan y) eqn:Ny; [right; right; split; apply fsub_nan; tauto|].
    destruct (fin_or_inf x Nx) as [Fx|[s ->]]; destruct (fin_or_inf y Ny) as [Fy|[s' ->]].
    + rewrite Fx, Fy in E. discriminate.
    + left. destruct x as [sx|sx|sx px Hx|sx mx ex Hx]; try discriminate Fx; destruct s'; reflexivity.
    + left. destruct y as [sx|sx|sx px Hx|sx mx ex Hx]; try discriminate Fy; destruct s; reflexivity.
    + destruct s, s'; try (left; reflexivity); right; right; split; unfold fsub, Bminus; rewrite isnan_BSN2B; reflexivity.
Qed.

Lemma fmul_fneg x y : same (fmul (fneg x) y) (fneg (fmul x y)).
Proof.
  unfold same. destruct (isnan (fmul x y)) eqn:N.
  - right. rewrite isnan_fneg. split; [|exact N].
    destruct (isnan x) eqn:Nx; [apply fmul_nan; left; now rewrite isnan_fneg|].
    destruct (isnan y) eqn:Ny; [apply fmul_nan; now right|].
    destruct x as [sx|sx|sx px Hx|sx mx ex Hx]; destruct y as [sy|sy|sy py Hy|sy my ey Hy]; try discriminate;
      try (unfold fmul, Bmult; rewrite isnan_BSN2B; reflexivity).
    exfalso. destruct (fmul_cases (B754_finite 24 128 sx mx ex Hx) (B754_finite 24 128 sy my ey Hy) eq_refl eq_refl) as [(_ & F & _)|[_ F]].
    + apply fin_notnan in F. congruence.
    + rewrite F in N. discriminate.
  - left. assert (Nf : isnan (fmul (fneg x) y) = false).
    { destruct (isnan (fmul (fneg x) y)) eqn:N'; [exfalso|reflexivity].
      destruct x as [sx|sx|sx px Hx|sx mx ex Hx]; destruct y as [sy|sy|sy py Hy|sy my ey Hy]; cbn [fneg] in N'; try discriminate N';
        try (revert N; unfold fmul, Bmult; rewrite isnan_BSN2B; discriminate).
      destruct (fmul_cases (B754_finite 24 128 (negb sx) mx ex Hx) (B754_finite 24 128 sy my ey Hy) eq_refl eq_refl) as [(_ & F & _)|[_ F]].
      + apply fin_notnan in F. congruence.
      + rewrite F in N'. discriminate. }
    pose proof (fmul_sgn _ _ N) as S. pose proof (fmul_sgn _ _ Nf) as S'.
    assert (Sx : sgn (fneg x) = negb (sgn x)) by now destruct x.
    destruct (fin x && fin y) eqn:E.
    + apply andb_prop in E. destruct E as [Fx Fy]. assert (Fx' : fin (fneg x) = true) by now rewrite fin_fneg.
      assert (O : rnd (val (fneg x) * val y) = - rnd (val x * val y)) by (rewrite val_fneg, <- rnd_opp; f_equal; ring).
      destruct (fmul_cases x y Fx Fy) as [(L & F & V & _)|[L E]]; destruct (fmul_cases (fneg x) y Fx' Fy) as [(L' & F' & V' & _)|[L' E']].
      * apply val_sgn_inj; [exact F'|now rewrite fin_fneg|rewrite val_fneg, V, V'; exact O|].
        rewrite S', Sx. transitivity (negb (sgn (fmul x y))); [rewrite S; now destruct (sgn x), (sgn y)|now destruct (fmul x y)].
      * exfalso. rewrite O, Rabs_Ropp in L'. lra.
      * exfalso. rewrite O, Rabs_Ropp in L'. lra.
      * rewrite E, E', Sx. cbn. f_equal. now destruct (sgn x), (sgn y).
    + destruct x as [sx|sx|sx px Hx|sx mx ex Hx]; destruct y as [sy|sy|sy py Hy|sy my ey Hy]; try discriminate E;
        try (exfalso; revert N; match goal with |- isnan ?z = false -> _ => assert (K : isnan z = true) by (first [apply fmul_nan; tauto | apply fmul_nan; auto | unfold fmul, Bmult; rewrite isnan_BSN2B; reflexivity]) end; congruence);
        cbn; f_equal; now destruct sx, sy.
Qed.
End Symm.
