(** * Proofs: rounding errors in a biquad (C95). *)

From Coq Require Import ZArith List Bool Reals Lia Lra Psatz.
From Flocq Require Import Core.
From Verif Require Import Base F32 F32Lemmas F32Range Num M_FloatMath M_Biquad S_Biquad S_BiquadF32 P_DelayNum P_Biquad P_Comb.
Local Open Scope R_scope.

(** ** Superposition: the output is at most the input's bound times the ringing *)
Lemma after_ext (b : biquad R) x y : forall n, (forall k, (k < n)%nat -> x k = y k) -> after b x n = after b y n.
Proof. induction n as [|n IH]; intros H; [reflexivity|]. cbn [after]. rewrite IH, (H n) by (intros; try apply H; lia). reflexivity. Qed.

Lemma response_ext (b : biquad R) x y n : (forall k, (k <= n)%nat -> x k = y k) -> response b x n = response b y n.
Proof. intros H. unfold response. rewrite (after_ext b x y n), (H n) by (intros; try apply H; lia). reflexivity. Qed.

Lemma superpose (c : coeffs R) S : 0 <= S -> forall n (s : nat -> R), (forall k, (k <= n)%nat -> Rabs (s k) <= S) ->
  Rabs (response (bq_new c) s n) <= S * sum_f_R0 (fun k => Rabs (response (bq_new c) unit_impulse k)) n.
Proof.
  intros HS. induction n as [|n IH]; intros s Hs.
  - rewrite (response_ext _ s (fun i => s 0%nat * unit_impulse i + 0 * unit_impulse i) 0).
    + rewrite response_linear, Rmult_0_l, Rplus_0_r, Rabs_mult. cbn [sum_f_R0]. apply Rmult_le_compat_r; [apply Rabs_pos|apply Hs; lia].
    + intros k Hk. replace k with 0%nat by lia. cbn. ring.
  - rewrite (response_ext _ s (fun i => s 0%nat * unit_impulse i + 1 * ago 1 (fun j => s (Datatypes.S j)) i) (Datatypes.S n)).
    + rewrite response_linear, response_delay, tech5, Rmult_1_l. unfold ago. cbn [Nat.ltb Nat.leb Nat.sub]. rewrite Nat.sub_0_r.
      eapply Rle_trans; [apply Rabs_triang|]. rewrite Rabs_mult, Rmult_plus_distr_l.
      pose proof (IH (fun j => s (Datatypes.S j)) ltac:(intros; apply Hs; lia)) as I.
      pose proof (Rmult_le_compat_r _ _ _ (Rabs_pos (response (bq_new c) unit_impulse (Datatypes.S n))) (Hs 0%nat ltac:(lia))). lra.
    + intros [|k] Hk; unfold ago; cbn; [ring|rewrite Nat.sub_0_r; ring].
Qed.

(** A sequence obeying the recurrence of the recursive part is its response. *)
Lemma recurrence_unique p q (y s : nat -> R) : (forall n, y n = s n - p * ago 1 y n - q * ago 2 y n) ->
  forall n, y n = response (bq_new (BC 1 0 0 p q)) s n.
Proof.
  intros H n. induction n as [n IH] using (well_founded_induction Wf_nat.lt_wf). rewrite H, response_rest. cbn [b0 b1 b2 a1 a2].
  assert (A : forall k, (0 < k)%nat -> ago k y n = ago k (response (bq_new (BC 1 0 0 p q)) s) n).
  { intros k Hk. unfold ago. destruct (Nat.ltb_spec n k); [reflexivity|]. apply IH. lia. }
  rewrite (A 1%nat), (A 2%nat) by lia. ring.
Qed.

(** ** Local rounding errors *)
Section Track.
Context {NP : NanPolicy}.
Variable c : coeffs f32.
Hypothesis Fc : finite_coeffs c.
Variables G M : R.
Hypothesis HG : ringing (exact_coeffs c) G.
Let Bw := forward_weight (exact_coeffs c).
Let A := feedback_weight (exact_coeffs c).
Hypothesis HAG : A * G <= 524288.
Hypothesis HM : pow2 (-90) <= Bw * M <= pow2 60.
Variable x : nat -> f32.
Hypothesis Hx : forall n, fin (x n) = true /\ Rabs (val (x n)) <= M.

Let Y := G * (Bw * M).
Let T := Bw * M + 2 * (A * Y).
Let f := bq_new c.
Let e := bq_new (exact_coeffs c).
Let xr := fun n => val (x n).

Lemma G1 : 1 <= G.
Proof.
  pose proof (HG 0%nat) as H. cbn [sum_f_R0] in H. rewrite response_R in H. cbn [after bq_new z1 unit_impulse bq_coeffs b0] in H.
  rewrite nint_R in H. replace (1 * 1 + 0) with 1 in H by ring. rewrite Rabs_R1 in H. exact H.
Qed.
Lemma A1 : 1 <= A.
Proof. unfold A, feedback_weight. pose proof (Rabs_pos (a1 (exact_coeffs c))). pose proof (Rabs_pos (a2 (exact_coeffs c))). lra. Qed.

Lemma Y_pos : 0 < Bw * M <= Y.
Proof. pose proof (bpow_gt_0 radix2 (-90)). pose proof G1. unfold Y. split; [lra|]. nra. Qed.

Lemma T_range : pow2 (-90) <= T <= pow2 100.
Proof.
  pose proof Y_pos as PY. pose proof A1 as PA. unfold T. split; [nra|].
  apply Rle_trans with (pow2 60 * pow2 21).
  - unfold Y. replace (Bw * M + 2 * (A * (G * (Bw * M)))) with (Bw * M * (1 + 2 * (A * G))) by ring.
    apply Rmult_le_compat; try lra; [pose proof G1; nra|]. replace (pow2 21) with 2097152 by (cbn; lra). lra.
  - rewrite <- bpow_plus. apply bpow_le. lia.
Qed.

Definition yv (n : nat) := response f x n.
Definition z1v (n : nat) := z1 (after f x n).
Definition z2v (n : nat) := z2 (after f x n).

Lemma aft_c n : bq_coeffs (after f x n) = c.
Proof. induction n as [|n IH]; [reflexivity|]. cbn [after]. exact IH. Qed.
Lemma yv_eq n : yv n = fadd (fmul (b0 c) (x n)) (z1v n).
Proof. unfold yv, response, bq_process. rewrite aft_c. reflexivity. Qed.
Lemma z1v_S n : z1v (S n) = fsub (fadd (fmul (b1 c) (x n)) (z2v n)) (fmul (a1 c) (yv n)).
Proof. unfold z1v. cbn [after]. unfold bq_process at 1. rewrite aft_c. cbn [fst z1]. rewrite yv_eq. reflexivity. Qed.
Lemma z2v_S n : z2v (S n) = fsub (fmul (b2 c) (x n)) (fmul (a2 c) (yv n)).
Proof. unfold z2v. cbn [after]. unfold bq_process at 1. rewrite aft_c. cbn [fst z2]. rewrite yv_eq. reflexivity. Qed.

Let rb0 := val (b0 c). Let rb1 := val (b1 c). Let rb2 := val (b2 c). Let ra1 := val (a1 c). Let ra2 := val (a2 c).

Definition e0 n := val (yv n) - (rb0 * xr n + val (z1v n)).
Definition e1 n := val (z1v (S n)) - (rb1 * xr n + val (z2v n) - ra1 * val (yv n)).
Definition e2 n := val (z2v (S n)) - (rb2 * xr n - ra2 * val (yv n)).
Definition sg n := e0 n + ago 1 e1 n + ago 2 e2 n.
Definition dl n := val (yv n) - response e xr n.

Lemma z_start : val (z1v 0) = 0 /\ val (z2v 0) = 0 /\ fin (z1v 0) = true /\ fin (z2v 0) = true.
Proof.
  unfold z1v, z2v, f. cbn [after bq_new z1 z2]. change (@nint f32 num_f32 0) with (of_int 0).
  destruct (of_int_exact 0 ltac:(lia)) as [F V]. rewrite V. auto.
Qed.

Lemma dl_rec n : dl n = sg n - ra1 * ago 1 dl n - ra2 * ago 2 dl n.
Proof.
  destruct z_start as (Z1 & Z2 & _ & _). pose proof (response_rest (exact_coeffs c) xr) as R. fold e in R. cbn [b0 b1 b2 a1 a2 exact_coeffs] in R. fold rb0 rb1 rb2 ra1 ra2 in R.
  destruct n as [|[|n]]; unfold dl, sg; unfold ago in *; cbn [Nat.ltb Nat.leb Nat.sub].
  - rewrite (R 0%nat). cbn [Nat.ltb Nat.leb]. unfold e0. rewrite Z1. ring.
  - rewrite (R 1%nat). cbn [Nat.ltb Nat.leb Nat.sub]. unfold e0, e1. rewrite Z2. ring.
  - rewrite (R (S (S n))). cbn [Nat.ltb Nat.leb Nat.sub]. rewrite Nat.sub_0_r. unfold e0, e1, e2. ring.
Qed.

Lemma dl_bound n S : 0 <= S -> (forall k, (k <= n)%nat -> Rabs (sg k) <= S) -> Rabs (dl n) <= S * G.
Proof.
  intros HS H. rewrite (recurrence_unique ra1 ra2 dl sg dl_rec n). eapply Rle_trans; [apply superpose; eassumption|].
  apply Rmult_le_compat_l; [exact HS|]. apply (HG n).
Qed.

Lemma exact_bound n : Rabs (response e xr n) <= Y.
Proof.
  set (s := fun k => rb0 * xr k + rb1 * ago 1 xr k + rb2 * ago 2 xr k).
  assert (E : response e xr n = response (bq_new (BC 1 0 0 ra1 ra2)) s n).
  { apply recurrence_unique. intros k. unfold e. rewrite response_rest. cbn [b0 b1 b2 a1 a2 exact_coeffs]. reflexivity. }
  rewrite E. eapply Rle_trans; [apply superpose with (S := Bw * M)|].
  - pose proof Y_pos. lra.
  - intros k _. assert (PM : 0 <= M) by (pose proof (Hx 0%nat) as [_ H]; pose proof (Rabs_pos (val (x 0%nat))); lra).
    assert (Ha : forall j, Rabs (ago j xr k) <= M).
    { intros j. unfold ago. destruct (k <? j)%nat; [rewrite Rabs_R0; exact PM|apply Hx]. }
    unfold s, Bw, forward_weight. cbn [b0 b1 b2 exact_coeffs]. fold rb0 rb1 rb2.
    eapply Rle_trans; [apply Rabs_triang|]. eapply Rle_trans; [apply Rplus_le_compat_r, Rabs_triang|]. rewrite !Rabs_mult.
    pose proof (Rmult_le_compat_l _ _ _ (Rabs_pos rb0) (proj2 (Hx k))). pose proof (Rmult_le_compat_l _ _ _ (Rabs_pos rb1) (Ha 1%nat)). pose proof (Rmult_le_compat_l _ _ _ (Rabs_pos rb2) (Ha 2%nat)).
    unfold xr at 1. lra.
  - unfold Y. rewrite (Rmult_comm G). apply Rmult_le_compat_l; [pose proof Y_pos; lra|]. apply (HG n).
Qed.

Lemma sub_K a b : fin a = true -> fin b = true -> Rabs (val a - val b) <= 4 * T ->
  fin (fsub a b) = true /\ Rabs (val (fsub a b) - (val a - val b)) <= Rabs (val a - val b) / 16777216 + T / 1099511627776.
Proof. intros Fa Fb H. destruct (rnd_K T T_range _ H) as [R1 R2]. destruct (fsub_spec a b Fa Fb R2) as [F ->]. tauto. Qed.

(** What holds before sample [n]. *)
Definition ready n : Prop :=
  fin (z1v n) = true /\ fin (z2v n) = true /\
  Rabs (val (z2v n)) <= Rabs rb2 * M + Rabs ra2 * (2 * Y) + T / 1000000 /\
  Rabs (val (z1v n)) <= (Rabs rb1 + Rabs rb2) * M + (Rabs ra1 + Rabs ra2) * (2 * Y) + T / 300000.

Lemma step_errors n : ready n -> 
  fin (yv n) = true /\ Rabs (e0 n) <= 21 / 10 * (T / 16777216) /\
  (Rabs (val (yv n)) <= 2 * Y -> ready (S n) /\ Rabs (e1 n) <= 41 / 10 * (T / 16777216) /\ Rabs (e2 n) <= 31 / 10 * (T / 16777216)).
Proof.
  intros (F1 & F2 & B2 & B1). pose proof Y_pos as PY. pose proof A1 as PA. pose proof (K_pos T T_range) as PT.
  destruct (Hx n) as [Fx Bx]. destruct Fc as (Gb0 & Gb1 & Gb2 & Ga1 & Ga2).
  assert (ET : T = (Rabs rb0 + Rabs rb1 + Rabs rb2) * M + (1 + Rabs ra1 + Rabs ra2) * (2 * Y)) by (unfold T, Bw, A, forward_weight, feedback_weight; cbn [b0 b1 b2 a1 a2 exact_coeffs]; fold rb0 rb1 rb2 ra1 ra2; ring).
  pose proof (abs_mul_le rb0 (val (x n)) _ _ (Rle_refl _) Bx) as X0. pose proof (abs_mul_le rb1 (val (x n)) _ _ (Rle_refl _) Bx) as X1. pose proof (abs_mul_le rb2 (val (x n)) _ _ (Rle_refl _) Bx) as X2.
  assert (PM : 0 <= M) by (pose proof (Rabs_pos (val (x n))); lra).
  pose proof (Rmult_le_pos _ _ (Rabs_pos rb0) PM) as P0. pose proof (Rmult_le_pos _ _ (Rabs_pos rb1) PM) as P1. pose proof (Rmult_le_pos _ _ (Rabs_pos rb2) PM) as P2.
  assert (PY2 : 0 <= 2 * Y) by lra.
  pose proof (Rmult_le_pos _ _ (Rabs_pos ra1) PY2) as Q1. pose proof (Rmult_le_pos _ _ (Rabs_pos ra2) PY2) as Q2.
  set (u0 := Rabs rb0 * M) in *. set (u1 := Rabs rb1 * M) in *. set (u2 := Rabs rb2 * M) in *. set (w1 := Rabs ra1 * (2 * Y)) in *. set (w2 := Rabs ra2 * (2 * Y)) in *.
  replace ((Rabs rb1 + Rabs rb2) * M + (Rabs ra1 + Rabs ra2) * (2 * Y)) with (u1 + u2 + w1 + w2) in B1 by (unfold u1, u2, w1, w2; ring).
  replace ((Rabs rb0 + Rabs rb1 + Rabs rb2) * M + (1 + Rabs ra1 + Rabs ra2) * (2 * Y)) with (u0 + u1 + u2 + 2 * Y + w1 + w2) in ET by (unfold u0, u1, u2, w1, w2; ring).
  destruct (mul_K T T_range (b0 c) (x n) Gb0 Fx) as [Fp0 Ep0]; [fold rb0; lra|]. fold rb0 in Ep0.
  assert (D0 : Rabs (val (fmul (b0 c) (x n)) + val (z1v n)) <= 101 / 100 * T).
  { replace (val (fmul (b0 c) (x n)) + val (z1v n)) with ((val (fmul (b0 c) (x n)) - rb0 * val (x n)) + rb0 * val (x n) + val (z1v n)) by ring.
    eapply Rle_trans; [apply Rabs_triang|]. eapply Rle_trans; [apply Rplus_le_compat_r, Rabs_triang|]. lra. }
  destruct (add_K T T_range _ _ Fp0 F1 ltac:(lra)) as [Fy Ey]. rewrite <- yv_eq in Fy, Ey.
  split; [exact Fy|]. split.
  { unfold e0, xr. replace (val (yv n) - (rb0 * val (x n) + val (z1v n))) with ((val (yv n) - (val (fmul (b0 c) (x n)) + val (z1v n))) + (val (fmul (b0 c) (x n)) - rb0 * val (x n))) by ring.
    eapply Rle_trans; [apply Rabs_triang|]. lra. }
  intros By. clear D0 Ep0 Ey Fp0.
  pose proof (abs_mul_le ra1 (val (yv n)) _ _ (Rle_refl _) By) as Y1. pose proof (abs_mul_le ra2 (val (yv n)) _ _ (Rle_refl _) By) as Y2. fold w1 in Y1. fold w2 in Y2.
  destruct (mul_K T T_range (b1 c) (x n) Gb1 Fx) as [Fp1 Ep1]; [fold rb1; lra|]. fold rb1 in Ep1.
  destruct (mul_K T T_range (b2 c) (x n) Gb2 Fx) as [Fp2 Ep2]; [fold rb2; lra|]. fold rb2 in Ep2.
  destruct (mul_K T T_range (a1 c) (yv n) Ga1 Fy) as [Fq1 Eq1]; [fold ra1; lra|]. fold ra1 in Eq1.
  destruct (mul_K T T_range (a2 c) (yv n) Ga2 Fy) as [Fq2 Eq2]; [fold ra2; lra|]. fold ra2 in Eq2.
  assert (D1 : Rabs (val (fmul (b1 c) (x n)) + val (z2v n)) <= 101 / 100 * T).
  { replace (val (fmul (b1 c) (x n)) + val (z2v n)) with ((val (fmul (b1 c) (x n)) - rb1 * val (x n)) + rb1 * val (x n) + val (z2v n)) by ring.
    eapply Rle_trans; [apply Rabs_triang|]. eapply Rle_trans; [apply Rplus_le_compat_r, Rabs_triang|]. lra. }
  destruct (add_K T T_range _ _ Fp1 F2 ltac:(lra)) as [Fs Es].
  pose proof (z1v_S n) as Z1. pose proof (z2v_S n) as Z2. fold (z1v n) in *.
  set (p1 := fmul (b1 c) (x n)) in *. set (p2 := fmul (b2 c) (x n)) in *. set (q1 := fmul (a1 c) (yv n)) in *. set (q2 := fmul (a2 c) (yv n)) in *. set (sm := fadd p1 (z2v n)) in *.
  set (xv := val (x n)) in *. set (y := val (yv n)) in *. set (z2n := val (z2v n)) in *.
  assert (Ep1' : Rabs (val p1 - rb1 * xv) <= u1 / 16777216 + T / 1099511627776) by lra.
  assert (Ep2' : Rabs (val p2 - rb2 * xv) <= u2 / 16777216 + T / 1099511627776) by lra.
  assert (Eq1' : Rabs (val q1 - ra1 * y) <= w1 / 16777216 + T / 1099511627776) by lra.
  assert (Eq2' : Rabs (val q2 - ra2 * y) <= w2 / 16777216 + T / 1099511627776) by lra.
  assert (Es' : Rabs (val sm - (val p1 + z2n)) <= 101 / 100 * T / 16777216 + T / 1099511627776) by lra.
  clear Ep1 Ep2 Eq1 Eq2 Es D1 B1.
  apply Rabs_le_inv in Ep1', Ep2', Eq1', Eq2', Es', X0, X1, X2, Y1, Y2, B2.
  destruct (sub_K sm q1 Fs Fq1) as [Fz1 Ez1]; [apply Rabs_le; lra|].
  destruct (sub_K p2 q2 Fp2 Fq2) as [Fz2 Ez2]; [apply Rabs_le; lra|].
  assert (C1 : Rabs (val sm - val q1) <= 101 / 100 * T) by (apply Rabs_le; lra).
  assert (C2 : Rabs (val p2 - val q2) <= 101 / 100 * T) by (apply Rabs_le; lra).
  assert (Ez1' : Rabs (val (fsub sm q1) - (val sm - val q1)) <= 101 / 100 * T / 16777216 + T / 1099511627776) by lra.
  assert (Ez2' : Rabs (val (fsub p2 q2) - (val p2 - val q2)) <= 101 / 100 * T / 16777216 + T / 1099511627776) by lra.
  clear Ez1 Ez2 C1 C2. apply Rabs_le_inv in Ez1', Ez2'.
  unfold ready, e1, e2, xr. rewrite Z1, Z2. fold xv y z2n.
  replace ((Rabs rb1 + Rabs rb2) * M + (Rabs ra1 + Rabs ra2) * (2 * Y)) with (u1 + u2 + w1 + w2) by (unfold u1, u2, w1, w2; ring).
  fold u2 w2. repeat split; try assumption; apply Rabs_le; lra.
Qed.

Lemma ready_0 : ready 0.
Proof.
  destruct z_start as (Z1 & Z2 & F1 & F2). unfold ready. rewrite Z1, Z2, Rabs_R0. pose proof (K_pos T T_range) as PT. pose proof Y_pos as PY.
  assert (PM : 0 <= M) by (pose proof (Hx 0%nat) as [_ H]; pose proof (Rabs_pos (val (x 0%nat))); lra).
  assert (PY2 : 0 <= 2 * Y) by lra.
  pose proof (Rmult_le_pos _ _ (Rabs_pos rb1) PM). pose proof (Rmult_le_pos _ _ (Rabs_pos rb2) PM).
  pose proof (Rmult_le_pos _ _ (Rabs_pos ra1) PY2). pose proof (Rmult_le_pos _ _ (Rabs_pos ra2) PY2).
  repeat split; auto; lra.
Qed.

Lemma small_gain : 94 / 10 * (T / 16777216) * G <= A * G * Y / 500000 /\ 94 / 10 * (T / 16777216) * G <= Y.
Proof.
  pose proof Y_pos as PY. pose proof A1 as PA. pose proof G1 as PG.
  assert (L : T <= 3 * (A * Y)) by (unfold T; nra).
  assert (L2 : T * G <= 3 * (A * G * Y)) by nra.
  assert (L3 : A * G * Y <= 524288 * Y) by nra.
  assert (L4 : 0 <= A * G * Y) by (apply Rmult_le_pos; [apply Rmult_le_pos; lra|lra]). split; lra.
Qed.

Lemma all_ready n : ready n /\ (forall k, (k < n)%nat -> Rabs (e0 k) <= 21 / 10 * (T / 16777216) /\ Rabs (e1 k) <= 41 / 10 * (T / 16777216) /\ Rabs (e2 k) <= 31 / 10 * (T / 16777216)).
Proof.
  induction n as [|n [R I]]; [split; [apply ready_0|intros; lia]|].
  destruct (step_errors n R) as (Fy & E0 & N).
  pose proof (K_pos T T_range) as PT.
  assert (D : Rabs (dl n) <= 94 / 10 * (T / 16777216) * G).
  { apply dl_bound; [lra|]. intros k Hk. unfold sg.
    assert (B0 : Rabs (e0 k) <= 21 / 10 * (T / 16777216)) by (destruct (Nat.eq_dec k n) as [->|]; [exact E0|apply I; lia]).
    assert (B1 : Rabs (ago 1 e1 k) <= 41 / 10 * (T / 16777216)).
    { unfold ago. destruct (Nat.ltb_spec k 1); [rewrite Rabs_R0; lra|apply I; lia]. }
    assert (B2 : Rabs (ago 2 e2 k) <= 31 / 10 * (T / 16777216)).
    { unfold ago. destruct (Nat.ltb_spec k 2); [rewrite Rabs_R0; lra|apply I; lia]. }
    apply Rabs_le_inv in B0, B1, B2. apply Rabs_le. lra. }
  pose proof small_gain as [_ SG]. pose proof (exact_bound n) as X.
  assert (By : Rabs (val (yv n)) <= 2 * Y).
  { replace (val (yv n)) with (dl n + response e xr n) by (unfold dl; ring). eapply Rle_trans; [apply Rabs_triang|]. lra. }
  destruct (N By) as (R' & E1 & E2). split; [exact R'|].
  intros k Hk. destruct (Nat.eq_dec k n) as [->|]; [auto|apply I; lia].
Qed.

Lemma track n : fin (yv n) = true /\ Rabs (dl n) <= A * G * Y / 500000 /\ Rabs (val (yv n)) <= 2 * Y /\ ready n.
Proof.
  destruct (all_ready n) as [R _]. destruct (step_errors n R) as (Fy & _ & _). pose proof (proj2 (all_ready (S n))) as I.
  pose proof (K_pos T T_range) as PT.
  assert (D : Rabs (dl n) <= 94 / 10 * (T / 16777216) * G).
  { apply dl_bound; [lra|]. intros k Hk. unfold sg.
    assert (B0 : Rabs (e0 k) <= 21 / 10 * (T / 16777216)) by (apply I; lia).
    assert (B1 : Rabs (ago 1 e1 k) <= 41 / 10 * (T / 16777216)).
    { unfold ago. destruct (Nat.ltb_spec k 1); [rewrite Rabs_R0; lra|apply I; lia]. }
    assert (B2 : Rabs (ago 2 e2 k) <= 31 / 10 * (T / 16777216)).
    { unfold ago. destruct (Nat.ltb_spec k 2); [rewrite Rabs_R0; lra|apply I; lia]. }
    apply Rabs_le_inv in B0, B1, B2. apply Rabs_le. lra. }
  pose proof small_gain as [SG1 SG]. pose proof (exact_bound n) as X.
  repeat split; auto; try (apply R); try lra.
  replace (val (yv n)) with (dl n + response e xr n) by (unfold dl; ring). eapply Rle_trans; [apply Rabs_triang|]. lra.
Qed.
End Track.
