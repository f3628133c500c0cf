(** * Biquad: inverse filters, losslessness, degenerate gains, non-finite states. *)

From Coq Require Import ZArith Reals Lia Lra Psatz Bool Arith.
From Flocq Require Import Core IEEE754.BinarySingleNaN IEEE754.Binary.
From Verif Require Import Base F32 F32Lemmas Num M_FloatMath M_Biquad S_Biquad P_DelayNum P_Biquad P_Butterworth F32Exact.
Local Open Scope R_scope.

(** Gains 1 and 0 at the two ends of the spectrum. *)
Lemma settle_dc1 : forall (b : biquad R) c, jury (bq_coeffs b) ->
  b0 (bq_coeffs b) + b1 (bq_coeffs b) + b2 (bq_coeffs b) = 1 + a1 (bq_coeffs b) + a2 (bq_coeffs b) ->
  settles_to b (constant c) (constant c).
Proof. intros b c J E. apply settle; auto. intros n. unfold constant. nra. Qed.
Lemma settle_dc0 : forall (b : biquad R) c, jury (bq_coeffs b) ->
  b0 (bq_coeffs b) + b1 (bq_coeffs b) + b2 (bq_coeffs b) = 0 ->
  settles_to b (constant c) (constant 0).
Proof. intros b c J E. apply settle; auto. intros n. unfold constant. nra. Qed.
Lemma settle_alt1 : forall (b : biquad R) c, jury (bq_coeffs b) ->
  b0 (bq_coeffs b) - b1 (bq_coeffs b) + b2 (bq_coeffs b) = 1 - a1 (bq_coeffs b) + a2 (bq_coeffs b) ->
  settles_to b (alternating c) (alternating c).
Proof. intros b c J E. apply settle; auto. intros n. rewrite !alternating_S. nra. Qed.
Lemma settle_alt0 : forall (b : biquad R) c, jury (bq_coeffs b) ->
  b0 (bq_coeffs b) - b1 (bq_coeffs b) + b2 (bq_coeffs b) = 0 ->
  settles_to b (alternating c) (constant 0).
Proof. intros b c J E. apply settle; auto. intros n. rewrite !alternating_S. unfold constant. nra. Qed.

(** ** Inverse filters *)
Lemma inverse_cascade : forall (c d : coeffs R) x, b0 c <> 0 ->
  b0 d = / b0 c -> b1 d = a1 c / b0 c -> b2 d = a2 c / b0 c -> a1 d = b1 c / b0 c -> a2 d = b2 c / b0 c ->
  forall n, response (bq_new d) (response (bq_new c) x) n = x n.
Proof.
  intros c d x Hb E0 E1 E2 E3 E4.
  set (y := response (bq_new c) x). set (z := response (bq_new d) y).
  assert (Step : forall n, ago 1 z n = ago 1 x n -> ago 2 z n = ago 2 x n -> z n = x n).
  { intros n A1 A2. pose proof (response_rest c x n) as Hy. pose proof (response_rest d y n) as Hz.
    fold y in Hy. fold z in Hz. rewrite Hz, A1, A2, E0, E1, E2, E3, E4, Hy. field. exact Hb. }
  assert (P : forall n, z n = x n /\ z (S n) = x (S n)).
  { induction n as [|n [I1 I2]].
    - assert (H0 : z O = x O) by (apply Step; reflexivity).
      split; [exact H0|]. apply Step; [exact H0|reflexivity].
    - split; [exact I2|]. apply Step.
      + unfold ago. cbn [Nat.ltb Nat.leb Nat.sub]. exact I2.
      + unfold ago. cbn [Nat.ltb Nat.leb Nat.sub]. rewrite Nat.sub_0_r. exact I1. }
  intros n. apply P.
Qed.

(** ** Losslessness of the all-pass *)
Section Lossless.
Variables A D : R.
Hypothesis HD : -1 < D < 1.
Hypothesis HA : - (1 + D) < A < 1 + D.
Let den : R := (1 - D) * ((1 + D) * (1 + D) - A * A).
Let p : R := (1 + D) / den.
Let r : R := - p * A / (1 + D).
Definition stored (s t : R) : R := p * (s * s) + 2 * r * (s * t) + p * (t * t).

Lemma stored_nonneg : forall s t, 0 <= stored s t.
Proof.
  intros. assert (Hd : 0 < den) by (unfold den; apply Rmult_lt_0_compat; nra).
  assert (Hp : 0 < p) by (unfold p; apply Rdiv_lt_0_compat; lra).
  assert (Hr : - p <= r <= p).
  { unfold r. assert (- 1 <= - A / (1 + D) <= 1).
    { split; apply Rmult_le_reg_r with (1 + D); try lra; unfold Rdiv; rewrite Rmult_assoc, Rinv_l by lra; lra. }
    replace (- p * A / (1 + D)) with (p * (- A / (1 + D))) by (field; lra). nra. }
  unfold stored. clearbody p r.
  assert (0 <= (p + r) * ((s + t) * (s + t))) by (apply Rmult_le_pos; [lra|apply Rle_0_sqr]).
  assert (0 <= (p - r) * ((s - t) * (s - t))) by (apply Rmult_le_pos; [lra|apply Rle_0_sqr]).
  nra.
Qed.

Lemma stored_step : forall s t x,
  stored (A * x + t - A * (D * x + s)) (1 * x - D * (D * x + s))
    = stored s t + x * x - (D * x + s) * (D * x + s).
Proof.
  intros. assert (Hd : 0 < den) by (unfold den; apply Rmult_lt_0_compat; nra).
  unfold stored, r, p. unfold den in *. field.
  repeat split; intros C; try lra; rewrite ?C in Hd; nra.
Qed.

Lemma stored_0 : stored 0 0 = 0.
Proof. unfold stored. ring. Qed.

Lemma stored_cv : forall s t : nat -> R, Un_cv s 0 -> Un_cv t 0 -> Un_cv (fun n => stored (s n) (t n)) 0.
Proof.
  intros s t Hs Ht. unfold stored.
  assert (C : forall q : R, Un_cv (fun _ => q) q).
  { intros q eps He. exists O. intros. unfold R_dist. rewrite Rminus_diag_eq by reflexivity. now rewrite Rabs_R0. }
  replace 0 with (p * (0 * 0) + 2 * r * (0 * 0) + p * (0 * 0)) by ring.
  repeat first [apply CV_plus | apply CV_mult | apply C | assumption].
Qed.
End Lossless.

Lemma response_shift : forall (b : biquad R) x N n,
  response b x (N + n) = response (after b x N) (fun i => x (N + i)%nat) n.
Proof.
  intros b x N n. assert (E : after b x (N + n) = after (after b x N) (fun i => x (N + i)%nat) n).
  { induction n as [|n I]; [now rewrite Nat.add_0_r|].
    rewrite Nat.add_succ_r. cbn [after]. now rewrite I. }
  unfold response. now rewrite E.
Qed.

Lemma cv_shift : forall (u : nat -> R) l N, Un_cv (fun n => u (N + n)%nat) l -> Un_cv u l.
Proof.
  intros u l N H eps He. destruct (H eps He) as [M HM]. exists (N + M)%nat. intros n Hn.
  replace n with (N + (n - N))%nat by lia. apply HM. lia.
Qed.

Lemma response_dies : forall (b : biquad R) x N, jury (bq_coeffs b) ->
  (forall n, (N <= n)%nat -> x n = 0) -> Un_cv (response b x) 0.
Proof.
  intros b x N J H. apply cv_shift with N.
  assert (S : settles_to (after b x N) (fun i => x (N + i)%nat) (fun _ => 0)).
  { apply settle; [now rewrite after_coeffs|]. intros n. rewrite !H by lia. ring. }
  unfold settles_to in S. intros eps He. destruct (S eps He) as [M HM]. exists M. intros n Hn.
  rewrite response_shift. specialize (HM n Hn). now rewrite Rminus_0_r in HM.
Qed.

Lemma lossless : forall (c : coeffs R) x, jury c -> b0 c = a2 c -> b1 c = a1 c -> b2 c = 1 ->
  let y := response (bq_new c) x in
  (forall n, energy_upto x n - energy_upto y n =
     stored (a1 c) (a2 c) (z1 (after (bq_new c) x (S n))) (z2 (after (bq_new c) x (S n)))) /\
  (forall n, energy_upto y n <= energy_upto x n) /\
  (forall N, (forall n, (N <= n)%nat -> x n = 0) -> Un_cv (fun n => energy_upto x n - energy_upto y n) 0).
Proof.
  intros c x J E0 E1 E2 y. destruct J as [HD HA]. pose proof (conj HD HA : jury c) as J.
  assert (Step : forall n,
    stored (a1 c) (a2 c) (z1 (after (bq_new c) x (S n))) (z2 (after (bq_new c) x (S n))) =
    stored (a1 c) (a2 c) (z1 (after (bq_new c) x n)) (z2 (after (bq_new c) x n)) + x n * x n - y n * y n).
  { intros n. rewrite z1_S, z2_S. fold y.
    assert (Ey : y n = a2 c * x n + z1 (after (bq_new c) x n)).
    { unfold y. rewrite response_R. cbn [bq_coeffs bq_new]. now rewrite E0. }
    rewrite Ey. cbn [bq_coeffs bq_new]. rewrite E1, E2. rewrite stored_step by assumption. ring. }
  assert (S1 : forall n, energy_upto x n - energy_upto y n =
     stored (a1 c) (a2 c) (z1 (after (bq_new c) x (S n))) (z2 (after (bq_new c) x (S n)))).
  { induction n as [|n I].
    - rewrite Step. cbn [after energy_upto sum_f_R0]. destruct (z_rest c) as [-> ->]. rewrite stored_0.
      unfold energy_upto. cbn [sum_f_R0]. ring.
    - rewrite Step, <- I. unfold energy_upto. cbn [sum_f_R0]. ring. }
  split; [exact S1|]. split.
  - intros n. specialize (S1 n).
    pose proof (stored_nonneg (a1 c) (a2 c) HD HA (z1 (after (bq_new c) x (S n))) (z2 (after (bq_new c) x (S n)))).
    lra.
  - intros N Hx.
    assert (Cy : Un_cv y 0) by (apply response_dies with N; auto).
    assert (C1 : Un_cv (fun n => z1 (after (bq_new c) x (S n))) 0).
    { apply cv_shift with N. intros eps He. destruct (Cy eps He) as [M HM]. exists M. intros n Hn.
      assert (E : z1 (after (bq_new c) x (S (N + n))) = y (S (N + n))).
      { unfold y. rewrite response_R, Hx by lia. ring. }
      rewrite E. apply HM. lia. }
    assert (C2 : Un_cv (fun n => z2 (after (bq_new c) x (S n))) 0).
    { apply cv_shift with N.
      assert (E : forall n, z2 (after (bq_new c) x (S (N + n))) = - a2 c * y (N + n)%nat).
      { intros n. rewrite z2_S, Hx by lia. cbn [bq_coeffs bq_new]. fold y. ring. }
      assert (C3 : Un_cv (fun n => - a2 c * y n) 0).
      { replace 0 with (- a2 c * 0) by ring. apply CV_mult; [|exact Cy].
        intros eps He. exists O. intros. unfold R_dist. rewrite Rminus_diag_eq by reflexivity. now rewrite Rabs_R0. }
      intros eps He. destruct (C3 eps He) as [M HM]. exists M. intros n Hn. rewrite E. apply HM. lia. }
    pose proof (stored_cv (a1 c) (a2 c) _ _ C1 C2) as C.
    intros eps He. destruct (C eps He) as [M HM]. exists M. intros n Hn. rewrite S1. apply HM. exact Hn.
Qed.

(** ** Cut designs with a zero gain *)
Lemma double_pole_grows : forall (c : coeffs R), a1 c = - 2 -> a2 c = 1 ->
  forall n, response (bq_new c) unit_impulse (S n) =
    b1 c + 2 * b0 c + INR n * (b0 c + b1 c + b2 c).
Proof.
  intros c E1 E2. set (y := response (bq_new c) unit_impulse).
  assert (Y0 : y 0%nat = b0 c).
  { unfold y. rewrite response_rest. unfold ago. cbn [Nat.ltb Nat.leb unit_impulse]. ring. }
  assert (Y1 : y 1%nat = b1 c + 2 * b0 c).
  { unfold y. rewrite response_rest. fold y. unfold ago. cbn [Nat.ltb Nat.leb Nat.sub unit_impulse].
    rewrite Y0, E1. ring. }
  assert (Y2 : y 2%nat = b1 c + 2 * b0 c + (b0 c + b1 c + b2 c)).
  { unfold y. rewrite response_rest. fold y. unfold ago. cbn [Nat.ltb Nat.leb Nat.sub unit_impulse].
    rewrite Y0, Y1, E1, E2. ring. }
  assert (P : forall n, y (S n) = b1 c + 2 * b0 c + INR n * (b0 c + b1 c + b2 c) /\
                        y (S (S n)) = b1 c + 2 * b0 c + INR (S n) * (b0 c + b1 c + b2 c)).
  { induction n as [|n [I1 I2]].
    - rewrite Y1, Y2. cbn [INR]. split; ring.
    - split; [exact I2|]. unfold y. rewrite response_rec. fold y. rewrite I1, I2.
      cbn [bq_coeffs bq_new unit_impulse]. rewrite E1, E2, !S_INR. ring. }
  intros n. destruct (P n) as [H _]. exact H.
Qed.

(** ** Non-finite states in f32 *)
Section Poison.
Context {NP : NanPolicy}.

Ltac fin_inv f := intros x y H; unfold fin, f in H; rewrite Binary.is_finite_BSN2B in H;
  destruct x as [?|[|]|? ? ?|? ? ? ?], y as [?|[|]|? ? ?|? ? ? ?]; try discriminate H; auto.

Lemma fadd_fin_inv : forall x y, fin (fadd x y) = true -> fin x = true /\ fin y = true.
Proof. unfold fadd. fin_inv Binary.Bplus. Qed.
Lemma fsub_fin_inv : forall x y, fin (fsub x y) = true -> fin x = true /\ fin y = true.
Proof. unfold fsub. fin_inv Binary.Bminus. Qed.
Lemma fmul_fin_inv : forall x y, fin (fmul x y) = true -> fin x = true /\ fin y = true.
Proof. unfold fmul. fin_inv Binary.Bmult. Qed.

Lemma step_fin : forall (b : biquad f32) c x b' y,
  bq_process (bq_set_coeffs b c) x = (b', y) ->
  (fin y = true -> fin x = true /\ fin (z1 b) = true) /\ (fin (z1 b') = true -> fin y = true).
Proof.
  intros b c x b' y E. injection E as <- <-. cbn [bq_coeffs bq_set_coeffs z1 z2 nadd nsub nmul num_f32].
  split; intros H.
  - apply fadd_fin_inv in H as [H1 H2]. apply fmul_fin_inv in H1 as [_ H1]. auto.
  - apply fsub_fin_inv in H as [_ H]. now apply fmul_fin_inv in H as [_ H].
Qed.

Lemma step_nan : forall (b : biquad f32) c x b' y,
  bq_process (bq_set_coeffs b c) x = (b', y) ->
  (isnan x = true \/ isnan (z1 b) = true -> isnan y = true) /\ (isnan y = true -> isnan (z1 b') = true).
Proof.
  intros b c x b' y E. injection E as <- <-. cbn [bq_coeffs bq_set_coeffs z1 z2 nadd nsub nmul num_f32].
  split; intros H.
  - apply fadd_nan. destruct H as [H|H]; [left; apply fmul_nan; auto|auto].
  - apply fsub_nan. right. apply fmul_nan. auto.
Qed.

Lemma poison_fin : forall (b : biquad f32) c x m,
  fin (response_var b c x m) = false -> forall n, (m <= n)%nat -> fin (response_var b c x n) = false.
Proof.
  intros b c x m H n Hn. induction Hn as [|n Hn I]; [exact H|].
  unfold response_var in *. cbn [after_var].
  destruct (bq_process (bq_set_coeffs (after_var b c x n) (c n)) (x n)) as [b1 y1] eqn:E1.
  cbn [fst snd] in *.
  destruct (bq_process (bq_set_coeffs b1 (c (S n))) (x (S n))) as [b2 y2] eqn:E2. cbn [snd].
  destruct (step_fin _ _ _ _ _ E1) as [_ P1]. destruct (step_fin _ _ _ _ _ E2) as [P2 _].
  destruct (fin y2) eqn:F; [|reflexivity]. destruct (P2 eq_refl) as [_ F2]. rewrite P1 in I by exact F2. discriminate.
Qed.

Lemma poison_nan : forall (b : biquad f32) c x m,
  isnan (response_var b c x m) = true -> forall n, (m <= n)%nat -> isnan (response_var b c x n) = true.
Proof.
  intros b c x m H n Hn. induction Hn as [|n Hn I]; [exact H|].
  unfold response_var in *. cbn [after_var].
  destruct (bq_process (bq_set_coeffs (after_var b c x n) (c n)) (x n)) as [b1 y1] eqn:E1.
  cbn [fst snd] in *.
  destruct (bq_process (bq_set_coeffs b1 (c (S n))) (x (S n))) as [b2 y2] eqn:E2. cbn [snd].
  destruct (step_nan _ _ _ _ _ E1) as [_ P1]. destruct (step_nan _ _ _ _ _ E2) as [P2 _].
  apply P2. right. now apply P1.
Qed.

Lemma poison_input : forall (b : biquad f32) c x n,
  (fin (x n) = false -> fin (response_var b c x n) = false) /\
  (isnan (x n) = true -> isnan (response_var b c x n) = true).
Proof.
  intros b c x n. unfold response_var.
  destruct (bq_process (bq_set_coeffs (after_var b c x n) (c n)) (x n)) as [b1 y1] eqn:E1. cbn [snd].
  destruct (step_fin _ _ _ _ _ E1) as [P1 _]. destruct (step_nan _ _ _ _ _ E1) as [P2 _].
  split; intros H; [|apply P2; auto]. destruct (fin y1) eqn:F; [|reflexivity].
  destruct (P1 eq_refl). congruence.
Qed.

(** A freshly created Butterworth filter is silent. *)
Definition is_zero (x : f32) : Prop := fin x = true /\ val x = 0.
Lemma zero_mul : forall x y, is_zero x -> fin y = true -> is_zero (fmul x y).
Proof.
  intros x y [Fx Vx] Fy. destruct (fmul_spec x y Fx Fy) as [F V].
  - rewrite Vx, Rmult_0_l, rnd_0, Rabs_R0. apply big_pos.
  - split; auto. now rewrite V, Vx, Rmult_0_l, rnd_0.
Qed.
Lemma zero_add : forall x y, is_zero x -> is_zero y -> is_zero (fadd x y).
Proof.
  intros x y [Fx Vx] [Fy Vy]. destruct (fadd_spec x y Fx Fy) as [F V].
  - rewrite Vx, Vy, Rplus_0_l, rnd_0, Rabs_R0. apply big_pos.
  - split; auto. now rewrite V, Vx, Vy, Rplus_0_l, rnd_0.
Qed.
Lemma zero_sub : forall x y, is_zero x -> is_zero y -> is_zero (fsub x y).
Proof.
  intros x y [Fx Vx] [Fy Vy]. destruct (fsub_spec x y Fx Fy) as [F V].
  - rewrite Vx, Vy, Rminus_0_r, rnd_0, Rabs_R0. apply big_pos.
  - split; auto. now rewrite V, Vx, Vy, Rminus_0_r, rnd_0.
Qed.

Lemma fresh_silent : forall x : nat -> f32, (forall n, fin (x n) = true) ->
  forall n, is_zero (response (bq_new bw_new) x n).
Proof.
  intros x Hx n.
  assert (Z0 : is_zero (nint 0)) by (split; reflexivity).
  assert (I : forall n, bq_coeffs (after (bq_new bw_new) x n) = bw_new /\
    is_zero (z1 (after (bq_new bw_new) x n)) /\ is_zero (z2 (after (bq_new bw_new) x n))).
  { clear n. induction n as [|n (IC & I1 & I2)]; [cbn [after bq_new bq_coeffs z1 z2]; auto|].
    cbn [after]. unfold bq_process. rewrite IC. cbn [fst snd bq_coeffs z1 z2 bw_new b0 b1 b2 a1 a2 nadd nsub nmul num_f32].
    assert (M : forall y, fin y = true -> is_zero (fmul (nint 0) y)) by (intros; now apply zero_mul).
    assert (Y : is_zero (fadd (fmul (nint 0) (x n)) (z1 (after (bq_new bw_new) x n)))) by (apply zero_add; auto).
    split; [reflexivity|]. split.
    - apply zero_sub; [apply zero_add; auto|]. apply M, Y.
    - apply zero_sub; auto. apply M, Y. }
  destruct (I n) as (IC & I1 & I2). unfold response, bq_process. rewrite IC.
  cbn [snd bw_new b0 nadd nmul num_f32]. apply zero_add; auto. apply zero_mul; auto.
Qed.

(** Low shelf with gain -0.0: the cut branch, whose denominator is then (1 - 1/z)^2. *)
Lemma low_shelf_minus_zero : forall (MO : MathOps f32) fc q sr,
  (forall x, is_zero x -> is_zero (m_sqrt x)) ->
  fin (fst (setup_coeffs fc q sr)) = true ->
  let c := low_shelf fc q (fneg f_zero) sr in
  fin (a1 c) = true /\ val (a1 c) = -2 /\ fin (a2 c) = true /\ val (a2 c) = 1.
Proof.
  intros MO fc q sr Hs Fk c. unfold c, low_shelf. cbn [npos num_f32].
  change (is_sign_positive (fneg f_zero)) with false. cbv iota.
  unfold low_shelf_cut_only. destruct (setup_coeffs fc q sr) as [k2 k_q]. cbn [fst] in Fk.
  cbn [a1 a2 nadd nsub nmul ndiv nneg num_f32]. change (fneg (fneg f_zero)) with f_zero.
  assert (Z : is_zero f_zero) by (split; reflexivity).
  set (g2 := fmul f_zero (nint 2)). set (gk := fmul f_zero k2). set (sq := m_sqrt (fmul g2 k2)).
  assert (Zg : is_zero gk) by (apply zero_mul; auto).
  assert (Zs : is_zero sq).
  { apply Hs. apply zero_mul; auto. }
  clearbody gk sq. clear g2.
  change (nint 1) with (of_int 1). change (nint 2) with (of_int 2).
  destruct Zg as [Fg Vg]. destruct Zs as [Fs Vs].
  assert (Z0 : isv gk (IZR 0)) by (split; auto). assert (Z1 : isv sq (IZR 0)) by (split; auto).
  assert (I1 : isv (of_int 1) (IZR 1)) by (apply isv_int; lia).
  assert (I2 : isv (of_int 2) (IZR 2)) by (apply isv_int; lia).
  assert (S0 : isv (fadd (fadd (of_int 1) sq) gk) (IZR 1)).
  { apply (add_int _ _ 1 0); [|auto|lia]. apply (add_int _ _ 1 0); auto; lia. }
  assert (S1 : isv (fadd (fsub (of_int 1) sq) gk) (IZR 1)).
  { apply (add_int _ _ 1 0); [|auto|lia]. apply (sub_int _ _ 1 0); auto; lia. }
  assert (N : isv (fdiv (of_int 1) (fadd (fadd (of_int 1) sq) gk)) (IZR 1)).
  { eapply isv_eq; [apply (div_exact _ _ 1 1)|]; auto; try lra.
    - replace (1 / 1) with (IZR 1) by lra. apply repr_int. lia.
    - replace (1 / 1) with (IZR 1) by lra. apply int_lt_big. lia. }
  set (norm := fdiv _ _) in *. clearbody norm.
  assert (Q1 : isv (fmul norm (fmul (of_int 2) (fsub gk (of_int 1)))) (IZR (-2))).
  { apply (mul_int _ _ 1 (-2)); auto; [|lia]. apply (mul_int _ _ 2 (-1)); auto; [|lia].
    apply (sub_int _ _ 0 1); auto. lia. }
  assert (Q2 : isv (fmul norm (fadd (fsub (of_int 1) sq) gk)) (IZR 1)).
  { apply (mul_int _ _ 1 1); auto. lia. }
  destruct Q1, Q2. auto.
Qed.
End Poison.
