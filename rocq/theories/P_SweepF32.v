(** * Proofs: rounding errors in a biquad whose coefficients change (C110). *)

From Coq Require Import ZArith List Bool Reals Lia Lra Psatz.
From Flocq Require Import Core.
From Verif Require Import Base F32 F32Lemmas F32Range Num M_FloatMath M_Biquad S_Biquad S_BiquadF32 S_Sweep S_SweepF32 P_DelayNum P_Biquad P_Comb P_Sweep T_Sweep.
Local Open Scope R_scope.

(** A sequence obeying the changing recurrence is the response of the recursive part. *)
Lemma var_unique (c : nat -> coeffs R) (y s : nat -> R) :
  (forall n, y n = s n - ago 1 (fun i => a1 (c i) * y i) n - ago 2 (fun i => a2 (c i) * y i) n) ->
  forall n, y n = response_var (bq_new (recursive (c 0%nat))) (fun i => recursive (c i)) s n.
Proof.
  intros H n. induction n as [n IH] using (well_founded_induction Wf_nat.lt_wf). rewrite H.
  rewrite (C110_coefficients_in_force (fun i => recursive (c i)) s n). cbn [recursive b0 b1 b2 a1 a2].
  unfold ago. destruct (Nat.ltb_spec n 1) as [L|L]; destruct (Nat.ltb_spec n 2) as [L2|L2]; try lia; [ring|rewrite (IH (n - 1)%nat) by lia; ring|rewrite (IH (n - 1)%nat), (IH (n - 2)%nat) by lia; ring].
Qed.

Lemma var_ext (b : biquad R) c x x' : forall n, (forall k, (k <= n)%nat -> x k = x' k) -> response_var b c x n = response_var b c x' n.
Proof.
  assert (A : forall n, (forall k, (k < n)%nat -> x k = x' k) -> after_var b c x n = after_var b c x' n).
  { induction n as [|n IH]; intros H; [reflexivity|]. cbn [after_var]. rewrite IH, (H n) by (intros; try apply H; lia). reflexivity. }
  intros n H. unfold response_var. rewrite (A n), (H n) by (intros; try apply H; lia). reflexivity.
Qed.

Lemma gain_to c G : sweep_gain c G -> forall n u S, 0 <= S -> (forall k, (k <= n)%nat -> Rabs (u k) <= S) ->
  Rabs (response_var (bq_new (recursive (c 0%nat))) (fun i => recursive (c i)) u n) <= S * G.
Proof.
  intros HG n u S PS H. rewrite (var_ext _ _ u (fun k => if (k <=? n)%nat then u k else 0) n).
  - rewrite Rmult_comm. apply HG. intros k. destruct (Nat.leb_spec k n); [now apply H|]. now rewrite Rabs_R0.
  - intros k Hk. destruct (Nat.leb_spec k n); [reflexivity|lia].
Qed.

(** ** Local rounding errors, as in [P_BiquadF32] with the coefficients of each sample *)
Section TrackVar.
Context {NP : NanPolicy}.
Variable c : nat -> coeffs f32.
Variable m : coeffs R.
Hypothesis Fc : forall n, finite_coeffs (c n) /\ within_limits m (exact_coeffs (c n)).
Variables G M : R.
Let ec := fun n => exact_coeffs (c n).
Hypothesis HG : sweep_gain ec G.
Let Bw := forward_weight m.
Let A := feedback_weight m.
Hypothesis HAG : A * G <= 524288.
Hypothesis HM : pow2 (-90) <= Bw * M <= pow2 60.
Variable x : nat -> f32.
Hypothesis Hx : forall n, fin (x n) = true /\ Rabs (val (x n)) <= M.

Let Y := G * (Bw * M).
Let T := Bw * M + 2 * (A * Y).
Let f := bq_new (c 0%nat).
Let e := bq_new (ec 0%nat).
Let xr := fun n => val (x n).

Lemma G1 : 1 <= G.
Proof.
  pose proof (HG (fun _ => 1) 1 ltac:(intros ?; cbv beta; rewrite Rabs_R1; lra) 0%nat) as H.
  rewrite (C110_coefficients_in_force (fun k => recursive (ec k)) (fun _ => 1) 0) in H. unfold ago in H. cbn [Nat.ltb Nat.leb recursive b0] in H.
  replace (1 * 1 + 0 + 0) with 1 in H by ring. rewrite Rabs_R1 in H. lra.
Qed.
Lemma m_pos : 0 <= b0 m /\ 0 <= b1 m /\ 0 <= b2 m /\ 0 <= a1 m /\ 0 <= a2 m.
Proof.
  destruct (Fc 0%nat) as [_ (L0 & L1 & L2 & L3 & L4)]. set (k := exact_coeffs (c 0%nat)) in L0, L1, L2, L3, L4.
  pose proof (Rabs_pos (b0 k)). pose proof (Rabs_pos (b1 k)). pose proof (Rabs_pos (b2 k)). pose proof (Rabs_pos (a1 k)). pose proof (Rabs_pos (a2 k)). lra.
Qed.
Lemma Bw_eq : Bw = b0 m + b1 m + b2 m.
Proof. destruct m_pos as (H0 & H1 & H2 & H3 & H4). unfold Bw, forward_weight. now rewrite !Rabs_pos_eq. Qed.
Lemma A_eq : A = 1 + a1 m + a2 m.
Proof. destruct m_pos as (H0 & H1 & H2 & H3 & H4). unfold A, feedback_weight. now rewrite !Rabs_pos_eq. Qed.
Lemma A1 : 1 <= A.
Proof. rewrite A_eq. destruct m_pos as (H0 & H1 & H2 & H3 & H4). lra. Qed.

Lemma Y_pos : 0 < Bw * M <= Y.
Proof. pose proof (bpow_gt_0 radix2 (-90)). pose proof G1. unfold Y. split; [lra|]. nra. Qed.

Lemma T_range : pow2 (-90) <= T <= pow2 100.
Proof.
  pose proof Y_pos as PY. pose proof A1 as PA. unfold T. split; [nra|].
  apply Rle_trans with (pow2 60 * pow2 21).
  - unfold Y. replace (Bw * M + 2 * (A * (G * (Bw * M)))) with (Bw * M * (1 + 2 * (A * G))) by ring.
    apply Rmult_le_compat; try lra; [pose proof G1; nra|]. replace (pow2 21) with 2097152 by (cbn; lra). lra.
  - rewrite <- bpow_plus. apply bpow_le. lia.
Qed.

Definition yv (n : nat) := response_var f c x n.
Definition z1v (n : nat) := z1 (after_var f c x n).
Definition z2v (n : nat) := z2 (after_var f c x n).

Lemma yv_eq n : yv n = fadd (fmul (b0 (c n)) (x n)) (z1v n).
Proof. reflexivity. Qed.
Lemma z1v_S n : z1v (S n) = fsub (fadd (fmul (b1 (c n)) (x n)) (z2v n)) (fmul (a1 (c n)) (yv n)).
Proof. reflexivity. Qed.
Lemma z2v_S n : z2v (S n) = fsub (fmul (b2 (c n)) (x n)) (fmul (a2 (c n)) (yv n)).
Proof. reflexivity. Qed.

Let rb0 n := val (b0 (c n)). Let rb1 n := val (b1 (c n)). Let rb2 n := val (b2 (c n)). Let ra1 n := val (a1 (c n)). Let ra2 n := val (a2 (c n)).

Definition e0 n := val (yv n) - (rb0 n * xr n + val (z1v n)).
Definition e1 n := val (z1v (S n)) - (rb1 n * xr n + val (z2v n) - ra1 n * val (yv n)).
Definition e2 n := val (z2v (S n)) - (rb2 n * xr n - ra2 n * val (yv n)).
Definition sg n := e0 n + ago 1 e1 n + ago 2 e2 n.
Definition dl n := val (yv n) - response_var e ec xr n.

Lemma z_start : val (z1v 0) = 0 /\ val (z2v 0) = 0 /\ fin (z1v 0) = true /\ fin (z2v 0) = true.
Proof.
  unfold z1v, z2v, f. cbn [after_var bq_new z1 z2]. change (@nint f32 num_f32 0) with (of_int 0).
  destruct (of_int_exact 0 ltac:(lia)) as [F V]. rewrite V. auto.
Qed.

Lemma dl_rec n : dl n = sg n - ago 1 (fun i => ra1 i * dl i) n - ago 2 (fun i => ra2 i * dl i) n.
Proof.
  destruct z_start as (Z1 & Z2 & _ & _). pose proof (C110_coefficients_in_force ec xr) as R. fold e in R. cbv zeta in R.
  assert (R' : forall n, response_var e ec xr n = rb0 n * xr n + ago 1 (fun i => rb1 i * xr i - ra1 i * response_var e ec xr i) n + ago 2 (fun i => rb2 i * xr i - ra2 i * response_var e ec xr i) n) by exact R. clear R.
  destruct n as [|[|n]]; unfold dl, sg; unfold ago in *; cbn [Nat.ltb Nat.leb Nat.sub].
  - rewrite (R' 0%nat). cbn [Nat.ltb Nat.leb]. unfold e0. rewrite Z1. ring.
  - rewrite (R' 1%nat). cbn [Nat.ltb Nat.leb Nat.sub]. unfold e0, e1. rewrite Z2. ring.
  - rewrite (R' (S (S n))). cbn [Nat.ltb Nat.leb Nat.sub]. rewrite Nat.sub_0_r. unfold e0, e1, e2. ring.
Qed.

Lemma dl_bound n S : 0 <= S -> (forall k, (k <= n)%nat -> Rabs (sg k) <= S) -> Rabs (dl n) <= S * G.
Proof. intros HS H. rewrite (var_unique ec dl sg dl_rec n). now apply gain_to. Qed.

Lemma exact_bound n : Rabs (response_var e ec xr n) <= Y.
Proof.
  set (s := fun k => rb0 k * xr k + ago 1 (fun i => rb1 i * xr i) k + ago 2 (fun i => rb2 i * xr i) k).
  rewrite (var_unique ec (response_var e ec xr) s).
  - unfold Y. apply HG. intros k. assert (PM : 0 <= M) by (pose proof (Hx 0%nat) as [_ H]; pose proof (Rabs_pos (val (x 0%nat))); lra).
    destruct m_pos as (P0 & P1 & P2 & _).
    assert (H0 : Rabs (rb0 k * xr k) <= b0 m * M) by (rewrite Rabs_mult; apply Rmult_le_compat; try apply Rabs_pos; [apply (Fc k)|apply Hx]).
    assert (H1 : Rabs (ago 1 (fun i => rb1 i * xr i) k) <= b1 m * M).
    { unfold ago. destruct (k <? 1)%nat; [rewrite Rabs_R0; now apply Rmult_le_pos|]. rewrite Rabs_mult; apply Rmult_le_compat; try apply Rabs_pos; [apply (Fc (k - 1)%nat)|apply Hx]. }
    assert (H2 : Rabs (ago 2 (fun i => rb2 i * xr i) k) <= b2 m * M).
    { unfold ago. destruct (k <? 2)%nat; [rewrite Rabs_R0; now apply Rmult_le_pos|]. rewrite Rabs_mult; apply Rmult_le_compat; try apply Rabs_pos; [apply (Fc (k - 2)%nat)|apply Hx]. }
    rewrite Bw_eq. unfold s. eapply Rle_trans; [apply Rabs_triang|]. eapply Rle_trans; [apply Rplus_le_compat_r, Rabs_triang|]. lra.
  - intros k. pose proof (C110_coefficients_in_force ec xr k) as R. cbv zeta in R. fold e in R. rewrite R. unfold s, ago.
    cbn [ec exact_coeffs b0 b1 b2 a1 a2]. fold (rb0 k). destruct (k <? 1)%nat; destruct (k <? 2)%nat; unfold rb0, rb1, rb2, ra1, ra2; cbn [ec exact_coeffs b0 b1 b2 a1 a2]; ring.
Qed.

Lemma sub_K a b : fin a = true -> fin b = true -> Rabs (val a - val b) <= 4 * T ->
  fin (fsub a b) = true /\ Rabs (val (fsub a b) - (val a - val b)) <= Rabs (val a - val b) / 16777216 + T / 1099511627776.
Proof. intros Fa Fb H. destruct (rnd_K T T_range _ H) as [R1 R2]. destruct (fsub_spec a b Fa Fb R2) as [F ->]. tauto. Qed.

(** What holds before sample [n]. *)
Definition ready n : Prop :=
  fin (z1v n) = true /\ fin (z2v n) = true /\
  Rabs (val (z2v n)) <= b2 m * M + a2 m * (2 * Y) + T / 1000000 /\
  Rabs (val (z1v n)) <= (b1 m + b2 m) * M + (a1 m + a2 m) * (2 * Y) + T / 300000.

Lemma step_errors n : ready n -> 
  fin (yv n) = true /\ Rabs (e0 n) <= 21 / 10 * (T / 16777216) /\
  (Rabs (val (yv n)) <= 2 * Y -> ready (S n) /\ Rabs (e1 n) <= 41 / 10 * (T / 16777216) /\ Rabs (e2 n) <= 31 / 10 * (T / 16777216)).
Proof.
  intros (F1 & F2 & B2 & B1). pose proof Y_pos as PY. pose proof A1 as PA. pose proof (K_pos T T_range) as PT.
  destruct (Hx n) as [Fx Bx]. destruct (Fc n) as [(Gb0 & Gb1 & Gb2 & Ga1 & Ga2) (L0 & L1 & L2 & L3 & L4)]. destruct m_pos as (P0' & P1' & P2' & P3' & P4'). change (Rabs (rb0 n) <= b0 m) in L0. change (Rabs (rb1 n) <= b1 m) in L1. change (Rabs (rb2 n) <= b2 m) in L2. change (Rabs (ra1 n) <= a1 m) in L3. change (Rabs (ra2 n) <= a2 m) in L4.
  assert (ET : T = (b0 m + b1 m + b2 m) * M + (1 + a1 m + a2 m) * (2 * Y)) by (unfold T; rewrite Bw_eq, A_eq; ring).
  pose proof (abs_mul_le (rb0 n) (val (x n)) _ _ L0 Bx) as X0. pose proof (abs_mul_le (rb1 n) (val (x n)) _ _ L1 Bx) as X1. pose proof (abs_mul_le (rb2 n) (val (x n)) _ _ L2 Bx) as X2.
  assert (PM : 0 <= M) by (pose proof (Rabs_pos (val (x n))); lra).
  pose proof (Rmult_le_pos _ _ P0' PM) as P0. pose proof (Rmult_le_pos _ _ P1' PM) as P1. pose proof (Rmult_le_pos _ _ P2' PM) as P2.
  assert (PY2 : 0 <= 2 * Y) by lra.
  pose proof (Rmult_le_pos _ _ P3' PY2) as Q1. pose proof (Rmult_le_pos _ _ P4' PY2) as Q2.
  set (u0 := b0 m * M) in *. set (u1 := b1 m * M) in *. set (u2 := b2 m * M) in *. set (w1 := a1 m * (2 * Y)) in *. set (w2 := a2 m * (2 * Y)) in *.
  replace ((b1 m + b2 m) * M + (a1 m + a2 m) * (2 * Y)) with (u1 + u2 + w1 + w2) in B1 by (unfold u1, u2, w1, w2; ring).
  replace ((b0 m + b1 m + b2 m) * M + (1 + a1 m + a2 m) * (2 * Y)) with (u0 + u1 + u2 + 2 * Y + w1 + w2) in ET by (unfold u0, u1, u2, w1, w2; ring).
  destruct (mul_K T T_range (b0 (c n)) (x n) Gb0 Fx) as [Fp0 Ep0]; [fold (rb0 n); lra|]. fold (rb0 n) in Ep0.
  assert (D0 : Rabs (val (fmul (b0 (c n)) (x n)) + val (z1v n)) <= 101 / 100 * T).
  { replace (val (fmul (b0 (c n)) (x n)) + val (z1v n)) with ((val (fmul (b0 (c n)) (x n)) - (rb0 n) * val (x n)) + (rb0 n) * val (x n) + val (z1v n)) by ring.
    eapply Rle_trans; [apply Rabs_triang|]. eapply Rle_trans; [apply Rplus_le_compat_r, Rabs_triang|]. lra. }
  destruct (add_K T T_range _ _ Fp0 F1 ltac:(lra)) as [Fy Ey]. rewrite <- yv_eq in Fy, Ey.
  split; [exact Fy|]. split.
  { unfold e0, xr. replace (val (yv n) - ((rb0 n) * val (x n) + val (z1v n))) with ((val (yv n) - (val (fmul (b0 (c n)) (x n)) + val (z1v n))) + (val (fmul (b0 (c n)) (x n)) - (rb0 n) * val (x n))) by ring.
    eapply Rle_trans; [apply Rabs_triang|]. lra. }
  intros By. clear D0 Ep0 Ey Fp0.
  pose proof (abs_mul_le (ra1 n) (val (yv n)) _ _ L3 By) as Y1. pose proof (abs_mul_le (ra2 n) (val (yv n)) _ _ L4 By) as Y2. fold w1 in Y1. fold w2 in Y2.
  destruct (mul_K T T_range (b1 (c n)) (x n) Gb1 Fx) as [Fp1 Ep1]; [fold (rb1 n); lra|]. fold (rb1 n) in Ep1.
  destruct (mul_K T T_range (b2 (c n)) (x n) Gb2 Fx) as [Fp2 Ep2]; [fold (rb2 n); lra|]. fold (rb2 n) in Ep2.
  destruct (mul_K T T_range (a1 (c n)) (yv n) Ga1 Fy) as [Fq1 Eq1]; [fold (ra1 n); lra|]. fold (ra1 n) in Eq1.
  destruct (mul_K T T_range (a2 (c n)) (yv n) Ga2 Fy) as [Fq2 Eq2]; [fold (ra2 n); lra|]. fold (ra2 n) in Eq2.
  assert (D1 : Rabs (val (fmul (b1 (c n)) (x n)) + val (z2v n)) <= 101 / 100 * T).
  { replace (val (fmul (b1 (c n)) (x n)) + val (z2v n)) with ((val (fmul (b1 (c n)) (x n)) - (rb1 n) * val (x n)) + (rb1 n) * val (x n) + val (z2v n)) by ring.
    eapply Rle_trans; [apply Rabs_triang|]. eapply Rle_trans; [apply Rplus_le_compat_r, Rabs_triang|]. lra. }
  destruct (add_K T T_range _ _ Fp1 F2 ltac:(lra)) as [Fs Es].
  pose proof (z1v_S n) as Z1. pose proof (z2v_S n) as Z2. fold (z1v n) in *.
  set (p1 := fmul (b1 (c n)) (x n)) in *. set (p2 := fmul (b2 (c n)) (x n)) in *. set (q1 := fmul (a1 (c n)) (yv n)) in *. set (q2 := fmul (a2 (c n)) (yv n)) in *. set (sm := fadd p1 (z2v n)) in *.
  set (xv := val (x n)) in *. set (y := val (yv n)) in *. set (z2n := val (z2v n)) in *.
  assert (Ep1' : Rabs (val p1 - (rb1 n) * xv) <= u1 / 16777216 + T / 1099511627776) by lra.
  assert (Ep2' : Rabs (val p2 - (rb2 n) * xv) <= u2 / 16777216 + T / 1099511627776) by lra.
  assert (Eq1' : Rabs (val q1 - (ra1 n) * y) <= w1 / 16777216 + T / 1099511627776) by lra.
  assert (Eq2' : Rabs (val q2 - (ra2 n) * y) <= w2 / 16777216 + T / 1099511627776) by lra.
  assert (Es' : Rabs (val sm - (val p1 + z2n)) <= 101 / 100 * T / 16777216 + T / 1099511627776) by lra.
  clear Ep1 Ep2 Eq1 Eq2 Es D1 B1.
  apply Rabs_le_inv in Ep1', Ep2', Eq1', Eq2', Es', X0, X1, X2, Y1, Y2, B2.
  destruct (sub_K sm q1 Fs Fq1) as [Fz1 Ez1]; [apply Rabs_le; lra|].
  destruct (sub_K p2 q2 Fp2 Fq2) as [Fz2 Ez2]; [apply Rabs_le; lra|].
  assert (C1 : Rabs (val sm - val q1) <= 101 / 100 * T) by (apply Rabs_le; lra).
  assert (C2 : Rabs (val p2 - val q2) <= 101 / 100 * T) by (apply Rabs_le; lra).
  assert (Ez1' : Rabs (val (fsub sm q1) - (val sm - val q1)) <= 101 / 100 * T / 16777216 + T / 1099511627776) by lra.
  assert (Ez2' : Rabs (val (fsub p2 q2) - (val p2 - val q2)) <= 101 / 100 * T / 16777216 + T / 1099511627776) by lra.
  clear Ez1 Ez2 C1 C2. apply Rabs_le_inv in Ez1', Ez2'.
  unfold ready, e1, e2, xr. rewrite Z1, Z2. fold xv y z2n.
  replace ((b1 m + b2 m) * M + (a1 m + a2 m) * (2 * Y)) with (u1 + u2 + w1 + w2) by (unfold u1, u2, w1, w2; ring).
  fold u2 w2. repeat split; try assumption; apply Rabs_le; lra.
Qed.

Lemma ready_0 : ready 0.
Proof.
  destruct z_start as (Z1 & Z2 & F1 & F2). destruct m_pos as (P0' & P1' & P2' & P3' & P4'). unfold ready. rewrite Z1, Z2, Rabs_R0. pose proof (K_pos T T_range) as PT. pose proof Y_pos as PY.
  assert (PM : 0 <= M) by (pose proof (Hx 0%nat) as [_ H]; pose proof (Rabs_pos (val (x 0%nat))); lra).
  assert (PY2 : 0 <= 2 * Y) by lra.
  pose proof (Rmult_le_pos _ _ P1' PM). pose proof (Rmult_le_pos _ _ P2' PM).
  pose proof (Rmult_le_pos _ _ P3' PY2). pose proof (Rmult_le_pos _ _ P4' PY2).
  repeat split; auto; lra.
Qed.

Lemma small_gain : 94 / 10 * (T / 16777216) * G <= A * G * Y / 500000 /\ 94 / 10 * (T / 16777216) * G <= Y.
Proof.
  pose proof Y_pos as PY. pose proof A1 as PA. pose proof G1 as PG.
  assert (L : T <= 3 * (A * Y)) by (unfold T; nra).
  assert (L2 : T * G <= 3 * (A * G * Y)) by nra.
  assert (L3 : A * G * Y <= 524288 * Y) by nra.
  assert (L4 : 0 <= A * G * Y) by (apply Rmult_le_pos; [apply Rmult_le_pos; lra|lra]). split; lra.
Qed.

Lemma all_ready n : ready n /\ (forall k, (k < n)%nat -> Rabs (e0 k) <= 21 / 10 * (T / 16777216) /\ Rabs (e1 k) <= 41 / 10 * (T / 16777216) /\ Rabs (e2 k) <= 31 / 10 * (T / 16777216)).
Proof.
  induction n as [|n [R I]]; [split; [apply ready_0|intros; lia]|].
  destruct (step_errors n R) as (Fy & E0 & N).
  pose proof (K_pos T T_range) as PT.
  assert (D : Rabs (dl n) <= 94 / 10 * (T / 16777216) * G).
  { apply dl_bound; [lra|]. intros k Hk. unfold sg.
    assert (B0 : Rabs (e0 k) <= 21 / 10 * (T / 16777216)) by (destruct (Nat.eq_dec k n) as [->|]; [exact E0|exact (proj1 (I k ltac:(lia)))]).
    assert (B1 : Rabs (ago 1 e1 k) <= 41 / 10 * (T / 16777216)).
    { unfold ago. destruct (Nat.ltb_spec k 1); [rewrite Rabs_R0; lra|exact (proj1 (proj2 (I (k - 1)%nat ltac:(lia))))]. }
    assert (B2 : Rabs (ago 2 e2 k) <= 31 / 10 * (T / 16777216)).
    { unfold ago. destruct (Nat.ltb_spec k 2); [rewrite Rabs_R0; lra|exact (proj2 (proj2 (I (k - 2)%nat ltac:(lia))))]. }
    apply Rabs_le_inv in B0, B1, B2. apply Rabs_le. lra. }
  pose proof small_gain as [_ SG]. pose proof (exact_bound n) as X.
  assert (By : Rabs (val (yv n)) <= 2 * Y).
  { replace (val (yv n)) with (dl n + response_var e ec xr n) by (unfold dl; ring). eapply Rle_trans; [apply Rabs_triang|]. lra. }
  destruct (N By) as (R' & E1 & E2). split; [exact R'|].
  intros k Hk. destruct (Nat.eq_dec k n) as [->|]; [auto|apply I; lia].
Qed.

Lemma track n : fin (yv n) = true /\ Rabs (dl n) <= A * G * Y / 500000 /\ Rabs (val (yv n)) <= 2 * Y /\ ready n.
Proof.
  destruct (all_ready n) as [R _]. destruct (step_errors n R) as (Fy & _ & _). pose proof (proj2 (all_ready (S n))) as I.
  pose proof (K_pos T T_range) as PT.
  assert (D : Rabs (dl n) <= 94 / 10 * (T / 16777216) * G).
  { apply dl_bound; [lra|]. intros k Hk. unfold sg.
    assert (B0 : Rabs (e0 k) <= 21 / 10 * (T / 16777216)) by exact (proj1 (I k ltac:(lia))).
    assert (B1 : Rabs (ago 1 e1 k) <= 41 / 10 * (T / 16777216)).
    { unfold ago. destruct (Nat.ltb_spec k 1); [rewrite Rabs_R0; lra|exact (proj1 (proj2 (I (k - 1)%nat ltac:(lia))))]. }
    assert (B2 : Rabs (ago 2 e2 k) <= 31 / 10 * (T / 16777216)).
    { unfold ago. destruct (Nat.ltb_spec k 2); [rewrite Rabs_R0; lra|exact (proj2 (proj2 (I (k - 2)%nat ltac:(lia))))]. }
    apply Rabs_le_inv in B0, B1, B2. apply Rabs_le. lra. }
  pose proof small_gain as [SG1 SG]. pose proof (exact_bound n) as X.
  repeat split; auto; try (apply R); try lra.
  replace (val (yv n)) with (dl n + response_var e ec xr n) by (unfold dl; ring). eapply Rle_trans; [apply Rabs_triang|]. lra.
Qed.
End TrackVar.
