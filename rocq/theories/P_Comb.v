(** * Proofs about the comb filter for every setting (C93). *)

From Coq Require Import ZArith List Bool Reals Lia Lra Psatz Classical.
From Flocq Require Import Core Mult_error.
From Verif Require Import Base F32 F32Lemmas F32Range Num M_Memory M_Delay S_Memory S_Delay S_Comb P_Memory P_Delay P_DelayNum.
Import ListNotations.
Local Open Scope R_scope.

(** ** One tick in f32 against the same tick in exact arithmetic *)
Section Step.
Context {NP : NanPolicy}.
Variables K M f E : R.
Hypothesis HK : pow2 (-90) <= K <= pow2 100.
Hypothesis Hf : 0 <= f <= 1023 / 1024.
Hypothesis HM : 101 / 100 * M <= K * (1 - f).
Hypothesis HE : E * (1 - f) = K / 131072.

Lemma K_pos : 0 < K.
Proof using HK. clear HE HM Hf. pose proof (bpow_gt_0 radix2 (-90)). lra. Qed.

Lemma rnd_K x : Rabs x <= 4 * K -> Rabs (rnd x - x) <= Rabs x / 16777216 + K / 1099511627776 /\ Rabs (rnd x) < big.
Proof using HK. clear HE HM Hf.
  intros H. pose proof K_pos. pose proof (rnd_err x) as R1.
  assert (P : pow2 (-150) <= K / 1099511627776).
  { apply Rle_trans with (pow2 (-90) * pow2 (-40)); [rewrite <- bpow_plus; apply bpow_le; lia|].
    apply Rle_trans with (K * pow2 (-40)); [apply Rmult_le_compat_r; [apply bpow_ge_0|tauto]|]. right. cbn. field. }
  assert (E24 : pow2 (-24) = / 16777216) by (cbn; reflexivity). rewrite E24 in R1.
  split; [lra|].
  assert (B : Rabs (rnd x) <= 8 * K).
  { replace (rnd x) with (rnd x - x + x) by ring. eapply Rle_trans; [apply Rabs_triang|]. lra. }
  apply Rle_lt_trans with (8 * K); [exact B|]. apply Rle_lt_trans with (8 * pow2 100); [lra|].
  replace 8 with (pow2 3) by (cbn; lra). rewrite <- bpow_plus. apply bpow_lt. lia.
Qed.

Lemma add_K a b : fin a = true -> fin b = true -> Rabs (val a + val b) <= 4 * K ->
  fin (fadd a b) = true /\ Rabs (val (fadd a b) - (val a + val b)) <= Rabs (val a + val b) / 16777216 + K / 1099511627776.
Proof using HK. clear HE HM Hf. intros Fa Fb H. destruct (rnd_K _ H) as [R1 R2]. destruct (fadd_spec a b Fa Fb R2) as [F ->]. tauto. Qed.
Lemma mul_K a b : fin a = true -> fin b = true -> Rabs (val a * val b) <= 4 * K ->
  fin (fmul a b) = true /\ Rabs (val (fmul a b) - val a * val b) <= Rabs (val a * val b) / 16777216 + K / 1099511627776.
Proof using HK. clear HE HM Hf. intros Fa Fb H. destruct (rnd_K _ H) as [R1 R2]. destruct (fmul_spec a b Fa Fb R2) as [F ->]. tauto. Qed.

Lemma abs_mul_le a b A B : Rabs a <= A -> Rabs b <= B -> Rabs (a * b) <= A * B.
Proof. intros. rewrite Rabs_mult. apply Rmult_le_compat; auto using Rabs_pos. Qed.

(** What holds of every sample in the buffer and of the filter state. *)
Definition near_y (y : f32) (yr : R) : Prop := fin y = true /\ Rabs (val y) <= K /\ Rabs (val y - yr) <= E.
Definition near_s (s : f32) (sr : R) : Prop :=
  fin s = true /\ Rabs (val s) <= K * (1 + 1 / 131072) /\ Rabs (val s - sr) <= E + K / 262144.

Lemma state_step y s d yr sr : near_y y yr -> near_s s sr -> damp_ok d ->
  near_s (fadd (fmul y (fsub (of_int 1) d)) (fmul s d)) (yr * (1 - val d) + sr * val d).
Proof.
  intros (Fy & By & Ey) (Fs & Bs & Es) (Fd & Bd). pose proof K_pos as PK.
  destruct (of_int_exact 1 ltac:(lia)) as [F1 V1].
  assert (B1 : 1 < big) by (unfold big; change 1 with (pow2 0); apply bpow_lt; lia).
  destruct (sub_within (of_int 1) d 0 1 F1 Fd repr_0 (repr_int 1 ltac:(lia)) ltac:(lra) B1 ltac:(rewrite V1; lra)) as [[Fi Bi] Vi].
  rewrite V1 in Vi. set (di := fsub (of_int 1) d) in *.
  assert (Ei : Rabs (val di - (1 - val d)) <= 1 / 33554432).
  { rewrite Vi. eapply Rle_trans; [apply (rnd_err_bpow _ 0); [lia|]|cbn; lra]. change (pow2 0) with 1. apply Rabs_le. lra. }
  clearbody di.
  assert (M1 : Rabs (val y * (1 - val d)) <= K * (1 - val d)) by (apply abs_mul_le; [exact By|right; apply Rabs_pos_eq; lra]).
  assert (M2 : Rabs (val y * (val di - (1 - val d))) <= K * (1 / 33554432)) by (apply abs_mul_le; assumption).
  assert (M3 : Rabs (val s * val d) <= K * (1 + 1 / 131072) * val d) by (apply abs_mul_le; [exact Bs|right; apply Rabs_pos_eq; lra]).
  set (Kd := K * val d). assert (BKd : 0 <= Kd <= K * (15 / 16)) by (unfold Kd; split; [apply Rmult_le_pos; lra|apply Rmult_le_compat_l; lra]).
  replace (K * (1 - val d)) with (K - Kd) in M1 by (unfold Kd; ring).
  replace (K * (1 + 1 / 131072) * val d) with (Kd * (1 + 1 / 131072)) in M3 by (unfold Kd; ring).
  assert (M4 : Rabs (val y * val di) <= K - Kd + K * (1 / 33554432)).
  { replace (val y * val di) with (val y * (1 - val d) + val y * (val di - (1 - val d))) by ring.
    eapply Rle_trans; [apply Rabs_triang|]. lra. }
  destruct (mul_K y di Fy Fi ltac:(lra)) as [Fp Ep]. destruct (mul_K s d Fs Fd ltac:(lra)) as [Fq Eq].
  set (p := fmul y di) in *. set (q := fmul s d) in *. clearbody p q.
  assert (D1 : Rabs (val p + val q - (val y * (1 - val d) + val s * val d)) <= K * (3 / 33554432 + 3 / 1099511627776 + 1 / 2199023255552) + Kd * (1 / 2199023255552)).
  { replace (val p + val q - (val y * (1 - val d) + val s * val d)) with ((val p - val y * val di) + (val q - val s * val d) + val y * (val di - (1 - val d))) by ring.
    eapply Rle_trans; [apply Rabs_triang|]. eapply Rle_trans; [apply Rplus_le_compat_r, Rabs_triang|]. lra. }
  assert (D2 : Rabs (val y * (1 - val d) + val s * val d) <= K + Kd / 131072).
  { eapply Rle_trans; [apply Rabs_triang|]. lra. }
  assert (D3 : Rabs (val p + val q) <= K * (1 + 1 / 131072 + 1 / 4194304)).
  { replace (val p + val q) with ((val p + val q - (val y * (1 - val d) + val s * val d)) + (val y * (1 - val d) + val s * val d)) by ring.
    eapply Rle_trans; [apply Rabs_triang|]. lra. }
  destruct (add_K p q Fp Fq ltac:(lra)) as [Fr Er]. set (r := fadd p q) in *. clearbody r.
  assert (D4 : Rabs (val r - (val y * (1 - val d) + val s * val d)) <= K / 4194304).
  { replace (val r - (val y * (1 - val d) + val s * val d)) with ((val r - (val p + val q)) + (val p + val q - (val y * (1 - val d) + val s * val d))) by ring.
    eapply Rle_trans; [apply Rabs_triang|]. lra. }
  split; [exact Fr|]. split.
  - replace (val r) with ((val r - (val y * (1 - val d) + val s * val d)) + (val y * (1 - val d) + val s * val d)) by ring.
    eapply Rle_trans; [apply Rabs_triang|]. lra.
  - assert (X1 : Rabs ((val y - yr) * (1 - val d)) <= E * (1 - val d)) by (apply abs_mul_le; [exact Ey|right; apply Rabs_pos_eq; lra]).
    assert (X2 : Rabs ((val s - sr) * val d) <= (E + K / 262144) * val d) by (apply abs_mul_le; [exact Es|right; apply Rabs_pos_eq; lra]).
    replace ((E + K / 262144) * val d) with (E * val d + Kd / 262144) in X2 by (unfold Kd; field).
    replace (val r - (yr * (1 - val d) + sr * val d)) with ((val r - (val y * (1 - val d) + val s * val d)) + (val y - yr) * (1 - val d) + (val s - sr) * val d) by ring.
    eapply Rle_trans; [apply Rabs_triang|]. eapply Rle_trans; [apply Rplus_le_compat_r, Rabs_triang|]. lra.
Qed.

Lemma store_step x s g sr : fin x = true -> Rabs (val x) <= M -> near_s s sr -> fb_ok f g ->
  near_y (fadd x (fmul s g)) (val x + sr * val g).
Proof.
  intros Fx Bx (Fs & Bs & Es) (Fg & Bg). pose proof K_pos as PK.
  pose proof (abs_mul_le _ _ _ _ Bs Bg) as M1.
  set (Kf := K * f). assert (BKf : 0 <= Kf <= K * (1023 / 1024)) by (unfold Kf; split; [apply Rmult_le_pos; lra|apply Rmult_le_compat_l; lra]).
  replace (K * (1 + 1 / 131072) * f) with (Kf * (1 + 1 / 131072)) in M1 by (unfold Kf; ring).
  replace (K * (1 - f)) with (K - Kf) in HM by (unfold Kf; ring).
  destruct (mul_K s g Fs Fg ltac:(lra)) as [Fp Ep]. set (p := fmul s g) in *. clearbody p.
  assert (D1 : Rabs (val x + val p) <= M + Kf * (1 + 1 / 131072 + 1 / 8388608) + K / 1099511627776).
  { replace (val x + val p) with (val x + val s * val g + (val p - val s * val g)) by ring.
    eapply Rle_trans; [apply Rabs_triang|]. eapply Rle_trans; [apply Rplus_le_compat_r, Rabs_triang|]. lra. }
  destruct (add_K x p Fx Fp ltac:(lra)) as [Fr Er]. set (r := fadd x p) in *. clearbody r.
  split; [exact Fr|]. split.
  - replace (val r) with ((val r - (val x + val p)) + (val x + val p)) by ring. eapply Rle_trans; [apply Rabs_triang|]. lra.
  - pose proof (abs_mul_le _ _ _ _ Es Bg) as X. replace ((E + K / 262144) * f) with (E * f + Kf / 262144) in X by (unfold Kf; field).
    assert (HE' : E - E * f = K / 131072) by lra.
    replace (val r - (val x + sr * val g)) with ((val r - (val x + val p)) + (val p - val s * val g) + (val s - sr) * val g) by ring.
    eapply Rle_trans; [apply Rabs_triang|]. eapply Rle_trans; [apply Rplus_le_compat_r, Rabs_triang|]. lra.
Qed.

(** ** Whole histories *)
Lemma nth_near d dr m : Forall2 near_y d dr -> near_y (nth m d (of_int 0)) (nth m dr 0).
Proof.
  intros H. revert m. induction H as [|y yr d dr H1 H2 IH]; intros [|m]; cbn [nth]; try exact H1; try apply IH.
  all: destruct (of_int_exact 0 ltac:(lia)) as [F0 V0]; pose proof K_pos as PK; split; [exact F0|]; rewrite V0, Rminus_0_r, Rabs_R0; split; [lra|];
    assert (0 < E * (1 - f)) by (rewrite HE; lra); assert (0 < 1 - f) by lra; nra.
Qed.

Lemma comb_tracks ops : forall d dr m s sr damp g, Forall2 near_y d dr -> near_s s sr -> damp_ok damp -> fb_ok f g -> Forall (op_ok M f) ops ->
  Forall2 near_y (comb_spec d m s damp g ops) (comb_spec dr m sr (val damp) (val g) (map real_op ops)).
Proof.
  induction ops as [|op ops IH]; intros d dr m s sr damp g Hd Hs Hp Hg Ho; cbn [map comb_spec]; [constructor|].
  inversion Ho as [|? ? H1 H2]; subst. destruct op as [x|v|v]; cbn [real_op comb_spec op_ok] in *; try (now apply IH).
  cbv zeta. pose proof (nth_near d dr m Hd) as Ny.
  pose proof (state_step _ _ _ _ _ Ny Hs Hp) as Ns. destruct H1 as [Fx Bx]. pose proof (store_step x _ _ _ Fx Bx Ns Hg) as Nw.
  rewrite !nint_R. change (@nint f32 num_f32 0) with (of_int 0). change (@nint f32 num_f32 1) with (of_int 1). cbn [nadd nsub nmul num_f32 num_R]. constructor; [exact Ny|].
  apply IH; try assumption. apply Forall2_app; [exact Hd|]. constructor; [exact Nw|constructor].
Qed.
End Step.

(** ** The exact comb as two sequences *)
Section Real.
Variables (d0 : list R) (m0 : nat) (s0 damp g : R) (x : nat -> R).

Fixpoint cst (k : nat) : list R * R :=
  match k with
  | O => (d0, s0)
  | S j => let '(d, s) := cst j in
      let s' := nth (m0 + j) d 0 * (1 - damp) + s * damp in (d ++ [x j + s' * g], s')
  end.
Definition cy (k : nat) : R := nth (m0 + k) (fst (cst k)) 0.
Definition cs (k : nat) : R := snd (cst k).

Lemma cs_S k : cs (S k) = cy k * (1 - damp) + cs k * damp.
Proof. unfold cs, cy. cbn [cst]. destruct (cst k) as [d s]. reflexivity. Qed.

Lemma cst_S k : fst (cst (S k)) = fst (cst k) ++ [x k + cs (S k) * g].
Proof. unfold cs. cbn [cst]. destruct (cst k) as [d s]. reflexivity. Qed.

Lemma cst_len k : length (fst (cst k)) = (length d0 + k)%nat.
Proof. induction k as [|k IH]; [cbn; lia|]. rewrite cst_S, app_length, IH. cbn. lia. Qed.

Lemma cst_stable k j i : (i < length d0 + k)%nat -> nth i (fst (cst (k + j))) 0 = nth i (fst (cst k)) 0.
Proof.
  intros Hi. induction j as [|j IH]; [now rewrite Nat.add_0_r|]. rewrite Nat.add_succ_r, cst_S, app_nth1, IH; [reflexivity|].
  rewrite cst_len. lia.
Qed.

Lemma cy_next n k : (length d0 = m0 + n)%nat -> (0 < n)%nat -> cy (k + n) = x k + cs (S k) * g.
Proof.
  intros L Hn. unfold cy. replace (k + n)%nat with (S k + (n - 1))%nat at 2 by lia.
  rewrite cst_stable by lia. rewrite cst_S, app_nth2 by (rewrite cst_len; lia). rewrite cst_len.
  replace (m0 + (k + n) - (length d0 + k))%nat with 0%nat by lia. reflexivity.
Qed.

Lemma cy_first n k : (length d0 = m0 + n)%nat -> (k < n)%nat -> cy k = nth (m0 + k) d0 0.
Proof. intros L Hk. unfold cy. apply (cst_stable 0 k). lia. Qed.

Lemma comb_spec_seq N : forall k, comb_spec (fst (cst k)) (m0 + k) (cs k) damp g (map CTick (map x (seq k N))) = map cy (seq k N).
Proof.
  induction N as [|N IH]; intros k; [reflexivity|]. cbn [seq map comb_spec]. rewrite !nint_R. cbn [nadd nsub nmul num_R]. f_equal.
  rewrite <- IH, cst_S, cs_S. now rewrite Nat.add_succ_r.
Qed.
End Real.

(** Constant input: the deviations from the fixed point. *)
Section Settle.
Variables (y s : nat -> R) (n : nat) (damp g : R).
Hypothesis Hn : (0 < n)%nat.
Hypothesis Hd : 0 <= damp < 1.
Hypothesis Hg : Rabs g < 1.
Hypothesis HS : forall k, s (S k) = y k * (1 - damp) + s k * damp.
Hypothesis HY : forall k, y (k + n)%nat = s (S k) * g.

Definition quiet (m : nat) (E : R) : Prop := forall j, (m <= j)%nat -> Rabs (y j) <= E /\ Rabs (s j) <= E.

Lemma mix a b E : Rabs a <= E -> Rabs b <= E -> Rabs (a * (1 - damp) + b * damp) <= E.
Proof.
  intros Ha Hb. eapply Rle_trans; [apply Rabs_triang|]. rewrite !Rabs_mult, (Rabs_pos_eq (1 - damp)), (Rabs_pos_eq damp) by lra. nra.
Qed.

Lemma quiet_from m E : Rabs (s m) <= E -> (forall j, (m <= j < m + n)%nat -> Rabs (y j) <= E) -> quiet m E.
Proof.
  intros Hs Hy. assert (P : forall k, Rabs (s (m + k)%nat) <= E /\ forall j, (j < n + k)%nat -> Rabs (y (m + j)%nat) <= E).
  { induction k as [|k [IHs IHy]].
    - rewrite Nat.add_0_r. split; [exact Hs|]. intros j Hj. apply Hy. lia.
    - assert (Hs' : Rabs (s (m + S k)%nat) <= E) by (rewrite Nat.add_succ_r, HS; apply mix; [apply IHy; lia|exact IHs]).
      split; [exact Hs'|]. intros j Hj. destruct (Nat.eq_dec j (n + k)) as [->|]; [|apply IHy; lia].
      replace (m + (n + k))%nat with (m + k + n)%nat by lia. rewrite HY, Rabs_mult. rewrite Nat.add_succ_r in Hs'.
      pose proof (Rabs_pos (s (S (m + k)))). pose proof (Rabs_pos g). nra. }
  intros j Hj. replace j with (m + (j - m))%nat by lia. split; [|apply P]. apply (P (S (j - m))). lia.
Qed.

Lemma quiet_start : exists E, 0 <= E /\ quiet 0 E.
Proof.
  assert (B : forall k, exists E, 0 <= E /\ forall j, (j < k)%nat -> Rabs (y j) <= E).
  { induction k as [|k (E & PE & IH)]; [exists 0; split; [lra|]; lia|]. exists (Rmax E (Rabs (y k))). split; [eapply Rle_trans; [exact PE|apply Rmax_l]|].
    intros j Hj. destruct (Nat.eq_dec j k) as [->|]; [apply Rmax_r|]. eapply Rle_trans; [apply IH; lia|apply Rmax_l]. }
  destruct (B n) as (E & PE & HE). exists (Rmax E (Rabs (s 0%nat))). split; [eapply Rle_trans; [exact PE|apply Rmax_l]|].
  apply quiet_from; [apply Rmax_r|]. intros j Hj. eapply Rle_trans; [apply HE; lia|apply Rmax_l].
Qed.

Lemma quiet_shrinks : exists b rho, 0 <= rho < 1 /\ forall m E, 0 <= E -> quiet m E -> quiet (m + b) (rho * E).
Proof.
  pose proof (Rabs_pos g) as Pg. set (f := Rabs g) in *.
  destruct (pow_lt_1_zero damp ltac:(rewrite Rabs_pos_eq; lra) ((1 - f) / 2) ltac:(lra)) as [p Hp].
  exists (n + p)%nat, ((1 + f) / 2). split; [lra|]. intros m E PE Q.
  assert (Yf : forall j, (m + n <= j)%nat -> Rabs (y j) <= f * E).
  { intros j Hj. replace j with (j - n + n)%nat by lia. rewrite HY, Rabs_mult. fold f.
    destruct (Q (S (j - n)) ltac:(lia)) as [_ H]. rewrite Rmult_comm. apply Rmult_le_compat_l; assumption. }
  assert (Sf : forall j, Rabs (s (m + n + j)%nat) <= f * E + damp ^ j * E).
  { induction j as [|j IH].
    - rewrite Nat.add_0_r. destruct (Q (m + n)%nat ltac:(lia)) as [_ H]. cbn [pow]. nra.
    - rewrite Nat.add_succ_r, HS. pose proof (Yf (m + n + j)%nat ltac:(lia)) as Yj. eapply Rle_trans; [apply Rabs_triang|].
      rewrite !Rabs_mult, (Rabs_pos_eq (1 - damp)), (Rabs_pos_eq damp) by lra. cbn [pow].
      apply Rle_trans with (f * E * (1 - damp) + (f * E + damp ^ j * E) * damp); [|lra].
      apply Rplus_le_compat; apply Rmult_le_compat_r; lra. }
  intros j Hj. split.
  - eapply Rle_trans; [apply Yf; lia|]. apply Rmult_le_compat_r; lra.
  - replace j with (m + n + (j - m - n))%nat by lia. eapply Rle_trans; [apply Sf|].
    specialize (Hp (j - m - n)%nat ltac:(lia)). rewrite Rabs_pos_eq in Hp by (apply pow_le; lra). nra.
Qed.

Lemma settles eps : 0 < eps -> exists N, forall k, (N <= k)%nat -> Rabs (y k) < eps.
Proof.
  intros He. destruct quiet_start as (E & PE & Q0). destruct quiet_shrinks as (b & rho & Hr & Sh).
  assert (Q : forall i, quiet (i * b) (rho ^ i * E)).
  { induction i as [|i IH]; [cbn [pow Nat.mul]; now rewrite Rmult_1_l|]. replace (S i * b)%nat with (i * b + b)%nat by (cbn; lia).
    cbn [pow]. rewrite Rmult_assoc. apply Sh; [apply Rmult_le_pos; [apply pow_le; lra|exact PE]|exact IH]. }
  destruct (pow_lt_1_zero rho ltac:(rewrite Rabs_pos_eq; lra) (eps / (E + 1)) ltac:(apply Rdiv_lt_0_compat; lra)) as [i Hi].
  specialize (Hi i ltac:(lia)). rewrite Rabs_pos_eq in Hi by (apply pow_le; lra).
  exists (i * b)%nat. intros k Hk. destruct (Q i k Hk) as [H _]. eapply Rle_lt_trans; [exact H|].
  assert (T : rho ^ i * (E + 1) < eps) by (apply Rmult_lt_reg_r with (/ (E + 1)); [apply Rinv_0_lt_compat; lra|]; rewrite Rmult_assoc, Rinv_r by lra; lra).
  assert (0 <= rho ^ i) by (apply pow_le; lra). lra.
Qed.
End Settle.

(** Feedback of 1 or more: a constant input grows beyond every bound. *)
Section Grow.
Variables (y s : nat -> R) (n : nat) (damp g c : R).
Hypothesis Hn : (0 < n)%nat.
Hypothesis Hd : 0 <= damp < 1.
Hypothesis Hg : 1 <= g.
Hypothesis Hc : 0 < c.
Hypothesis HS : forall k, s (S k) = y k * (1 - damp) + s k * damp.
Hypothesis HY : forall k, y (k + n)%nat = c + s (S k) * g.
Hypothesis Y0 : forall k, (k < n)%nat -> y k = 0.
Hypothesis S0 : s 0%nat = 0.

Lemma nonneg k : 0 <= s k /\ forall j, (j < n + k)%nat -> 0 <= y j.
Proof.
  induction k as [|k [IHs IHy]].
  - split; [lra|]. intros j Hj. rewrite Y0 by lia. lra.
  - assert (P : 0 <= s (S k)) by (rewrite HS; specialize (IHy k ltac:(lia)); nra). split; [exact P|].
    intros j Hj. destruct (Nat.eq_dec j (n + k)) as [->|]; [|apply IHy; lia]. rewrite Nat.add_comm, HY. nra.
Qed.

Lemma grows m : y m <= y (S m) /\ s m <= s (S m).
Proof.
  induction m as [m IH] using (well_founded_induction Wf_nat.lt_wf).
  assert (Sm : s m <= s (S m)).
  { destruct m as [|k]; [rewrite HS, S0, Y0 by exact Hn; lra|]. destruct (IH k ltac:(lia)) as [A1 A2]. rewrite (HS (S k)), (HS k).
    assert (y k * (1 - damp) <= y (S k) * (1 - damp)) by (apply Rmult_le_compat_r; lra).
    assert (s k * damp <= s (S k) * damp) by (apply Rmult_le_compat_r; lra). rewrite <- (HS k) at 2. lra. }
  split; [|exact Sm]. destruct (Nat.lt_ge_cases (S m) n) as [L|L]; [rewrite !Y0 by lia; lra|].
  destruct (Nat.eq_dec (S m) n) as [L'|L'].
  - rewrite Y0 by lia. apply (proj2 (nonneg (S m))). lia.
  - replace m with (m - n + n)%nat by lia. replace (S (m - n + n)) with (S (m - n) + n)%nat by lia. rewrite !HY.
    assert (s (S (m - n)) <= s (S (S (m - n)))) by (destruct (Nat.eq_dec (S (m - n)) m) as [E|E]; [rewrite E; exact Sm|apply IH; lia]).
    apply Rplus_le_compat_l, Rmult_le_compat_r; lra.
Qed.

Lemma y_mono i j : (i <= j)%nat -> y i <= y j.
Proof. induction 1 as [|j _ IH]; [lra|]. pose proof (proj1 (grows j)). lra. Qed.

Lemma unbounded B : exists N, forall k, (N <= k)%nat -> B < y k.
Proof.
  destruct (classic (exists N, B < y N)) as [[N H]|H].
  { exists N. intros k Hk. pose proof (y_mono N k Hk). lra. }
  exfalso. assert (Hy : forall k, y k <= B) by (intros k; apply Rnot_lt_le; intros C; apply H; now exists k).
  assert (Hs : forall k, s k <= Rmax B 0).
  { induction k as [|k IH]; [rewrite S0; apply Rmax_r|]. rewrite HS. pose proof (Hy k). pose proof (Rmax_l B 0). nra. }
  destruct (growing_cv y (fun k => proj1 (grows k))) as [L HL]; [exists B; intros v [k ->]; apply Hy|].
  destruct (growing_cv s (fun k => proj2 (grows k))) as [T HT]; [exists (Rmax B 0); intros v [k ->]; apply Hs|].
  assert (Cst : forall a, Un_cv (fun _ => a) a) by (intros a e He; exists O; intros; now rewrite (proj2 (R_dist_refl a a) eq_refl)).
  assert (Sh : forall (u : nat -> R) l p, Un_cv u l -> Un_cv (fun k => u (k + p)%nat) l).
  { intros u l p Hu e He. destruct (Hu e He) as [N HN]. exists N. intros k Hk. apply HN. lia. }
  assert (HT1 : Un_cv (fun k => s (S k)) T).
  { intros e He. destruct (HT e He) as [N HN]. exists N. intros k Hk. apply HN. lia. }
  assert (E1 : T = L * (1 - damp) + T * damp).
  { eapply UL_sequence; [exact HT1|]. assert (U : Un_cv (fun k => y k * (1 - damp) + s k * damp) (L * (1 - damp) + T * damp)) by (apply CV_plus; apply (CV_mult _ (fun _ => _)); auto).
    intros e He. destruct (U e He) as [N HN]. exists N. intros k Hk. rewrite HS. now apply HN. }
  assert (E2 : L = c + T * g).
  { eapply UL_sequence; [exact (Sh y L n HL)|]. assert (U : Un_cv (fun k => c + s (S k) * g) (c + T * g)) by (apply (CV_plus (fun _ => c)); [auto|apply (CV_mult _ (fun _ => g)); auto]).
    intros e He. destruct (U e He) as [N HN]. exists N. intros k Hk. rewrite HY. now apply HN. }
  assert (LT : L = T) by nra.
  assert (PL : 0 <= L).
  { apply Rle_cv_lim with (Un := fun _ => 0) (Vn := y); [|apply Cst|exact HL]. intros k. apply (proj2 (nonneg (S k))). lia. }
  nra.
Qed.
End Grow.

(** Histories split: what follows starts from some reachable state. *)
Lemma comb_spec_app (ops : list (comb_op R)) : forall d m s damp g, exists d' m' s' damp' g',
  (length d' + m = length d + m')%nat /\ forall r, comb_spec d m s damp g (ops ++ r) = comb_spec d m s damp g ops ++ comb_spec d' m' s' damp' g' r.
Proof.
  induction ops as [|op ops IH]; intros d m s damp g.
  - exists d, m, s, damp, g. split; [lia|reflexivity].
  - destruct op as [x|v|v]; cbn [app comb_spec]; [|apply IH|apply IH].
    destruct (IH (d ++ [nadd x (nmul (nadd (nmul (nth m d (nint 0)) (nsub (nint 1) damp)) (nmul s damp)) g)]) (S m)
      (nadd (nmul (nth m d (nint 0)) (nsub (nint 1) damp)) (nmul s damp)) damp g) as (d' & m' & s' & damp' & g' & L & E).
    exists d', m', s', damp', g'. rewrite app_length in L. cbn [length] in L. split; [lia|]. intros r. cbv zeta. cbn [app]. f_equal. apply E.
Qed.

Lemma last_map_seq (u : nat -> R) k N : last (map u (seq k (S N))) 0 = u (k + N)%nat.
Proof. revert k. induction N as [|N IH]; intros k; [cbn; now rewrite Nat.add_0_r|]. change (map u (seq k (S (S N)))) with (u k :: map u (seq (S k) (S N))). rewrite Nat.add_succ_r, <- Nat.add_succ_l, <- IH. destruct (map u (seq (S k) (S N))) eqn:E; [discriminate|]. reflexivity. Qed.

Lemma last_app_ne (a b : list R) : b <> [] -> last (a ++ b) 0 = last b 0.
Proof. intros H. induction a as [|v a IH]; [reflexivity|]. cbn [app]. destruct (a ++ b) eqn:E; [destruct a; [contradiction|discriminate]|]. cbn [last]. exact IH. Qed.

Lemma repeat_seq {A} (v : A) (k N : nat) : repeat v N = map (fun _ => v) (seq k N).
Proof. revert k. induction N as [|N IH]; intros k; [reflexivity|]. cbn. f_equal. apply IH. Qed.

(** ** The all-pass unit *)
Section AllPass.
Context {NP : NanPolicy}.
Variables M : R.
Hypothesis HM : pow2 (-80) <= M <= pow2 90.
Let K : R := 201 / 100 * M.

Lemma K_range : pow2 (-90) <= K <= pow2 100.
Proof.
  pose proof (bpow_gt_0 radix2 (-80)). unfold K. split.
  - apply Rle_trans with (pow2 (-80)); [apply bpow_le; lia|lra].
  - apply Rle_trans with (pow2 2 * pow2 90); [replace (pow2 2) with 4 by (cbn; lra); lra|]. rewrite <- bpow_plus. apply bpow_le. lia.
Qed.

Definition near_v (y : f32) (yr : R) : Prop := fin y = true /\ Rabs (val y) <= K /\ Rabs (val y - yr) <= M / 4000000.

Lemma half_exact : fin (lit 1 (-1)) = true /\ val (lit 1 (-1)) = 1 / 2.
Proof. destruct (lit_exact 1 (-1) ltac:(lia) ltac:(lia)) as [F V]. split; [exact F|]. rewrite V. cbn. lra. Qed.

Lemma mul_half v : fin v = true -> Rabs (val v) <= K -> fin (fmul v (lit 1 (-1))) = true /\ Rabs (val (fmul v (lit 1 (-1))) - val v / 2) <= K / 1099511627776.
Proof.
  intros Fv Bv. pose proof (K_pos K K_range) as PK. destruct half_exact as [FH VH].
  assert (B : Rabs (val v * val (lit 1 (-1))) <= 4 * K) by (rewrite VH, Rabs_mult, (Rabs_pos_eq (1 / 2)) by lra; lra).
  destruct (rnd_K K K_range _ B) as [_ R2]. destruct (fmul_spec v (lit 1 (-1)) Fv FH R2) as [F V]. split; [exact F|]. rewrite V, VH.
  replace (val v * (1 / 2)) with (val v / 2) by field.
  destruct (Rle_or_lt (pow2 (-125)) (Rabs (val v))) as [N|S].
  - replace (rnd (val v / 2)) with (val v / 2); [rewrite Rminus_eq_0, Rabs_R0; lra|]. symmetry. apply rnd_repr.
    replace (val v / 2) with (val v * pow2 (-1)) by (cbn; lra). unfold repr.
    apply mult_bpow_exact_FLT; [apply repr_val|].
    assert (H : (-124 <= mag radix2 (val v))%Z) by (apply mag_ge_bpow; exact N). lia.
  - eapply Rle_trans; [apply (rnd_err_bpow _ (-125)); [lia|unfold Rdiv; rewrite Rabs_mult, (Rabs_pos_eq (/ 2)) by lra; pose proof (Rabs_pos (val v)); lra]|].
    apply Rle_trans with (pow2 (-90) * pow2 (-40)); [rewrite <- bpow_plus; apply bpow_le; lia|].
    apply Rle_trans with (K * pow2 (-40)); [apply Rmult_le_compat_r; [apply bpow_ge_0|apply K_range]|]. right. cbn. field.
Qed.

Lemma ap_store x v vr : fin x = true -> Rabs (val x) <= M -> near_v v vr -> near_v (fadd x (fmul v (lit 1 (-1)))) (val x + vr / 2).
Proof.
  intros Fx Bx (Fv & Bv & Ev). pose proof (K_pos K K_range) as PK. destruct (mul_half v Fv Bv) as [Fp Ep].
  set (p := fmul v _) in *. clearbody p.
  assert (D0 : Rabs (val v / 2) <= K / 2) by (unfold Rdiv; rewrite Rabs_mult, (Rabs_pos_eq (/ 2)) by lra; lra).
  assert (D1 : Rabs (val x + val p) <= M + K / 2 + K / 1099511627776).
  { replace (val x + val p) with (val x + val v / 2 + (val p - val v / 2)) by ring.
    eapply Rle_trans; [apply Rabs_triang|]. eapply Rle_trans; [apply Rplus_le_compat_r, Rabs_triang|]. lra. }
  assert (EK : K = 201 / 100 * M) by reflexivity.
  destruct (add_K K K_range x p Fx Fp ltac:(lra)) as [Fr Er]. set (r := fadd x p) in *. clearbody r. clearbody K.
  split; [exact Fr|]. split.
  - replace (val r) with ((val r - (val x + val p)) + (val x + val p)) by ring. eapply Rle_trans; [apply Rabs_triang|]. lra.
  - assert (X : Rabs ((val v - vr) / 2) <= M / 8000000) by (unfold Rdiv at 1; rewrite Rabs_mult, (Rabs_pos_eq (/ 2)) by lra; lra).
    replace (val r - (val x + vr / 2)) with ((val r - (val x + val p)) + (val p - val v / 2) + (val v - vr) / 2) by field.
    eapply Rle_trans; [apply Rabs_triang|]. eapply Rle_trans; [apply Rplus_le_compat_r, Rabs_triang|]. lra.
Qed.

Lemma ap_out x v vr : fin x = true -> Rabs (val x) <= M -> near_v v vr ->
  fin (fadd (fneg x) v) = true /\ Rabs (val (fadd (fneg x) v) - (- val x + vr)) <= M / 2000000.
Proof.
  intros Fx Bx (Fv & Bv & Ev). pose proof (K_pos K K_range) as PK. assert (EK : K = 201 / 100 * M) by reflexivity.
  assert (Fn : fin (fneg x) = true) by (now rewrite fin_fneg). assert (Vn : val (fneg x) = - val x) by apply val_fneg.
  assert (D : Rabs (val (fneg x) + val v) <= M + K) by (rewrite Vn; eapply Rle_trans; [apply Rabs_triang|]; rewrite Rabs_Ropp; lra).
  destruct (add_K K K_range (fneg x) v Fn Fv ltac:(lra)) as [Fr Er]. split; [exact Fr|]. rewrite Vn in *.
  set (r := val (fadd (fneg x) v)) in *. clearbody r K.
  replace (r - (- val x + vr)) with ((r - (- val x + val v)) + (val v - vr)) by ring. eapply Rle_trans; [apply Rabs_triang|]. lra.
Qed.

Lemma ap_tracks xs : forall d dr m, Forall2 near_v d dr -> Forall (bounded M) xs ->
  Forall2 (fun y yr => fin y = true /\ Rabs (val y - yr) <= M / 2000000) (ap_spec d m xs) (ap_spec dr m (map val xs)).
Proof.
  induction xs as [|x xs IH]; intros d dr m Hd Hx; cbn [map ap_spec]; [constructor|].
  inversion Hx as [|? ? [Fx Bx] Hx']; subst.
  assert (Nv : near_v (nth m d (of_int 0)) (nth m dr 0)).
  { clear - Hd HM. revert m. induction Hd as [|y yr d dr H1 H2 IH]; intros [|m]; cbn [nth]; try exact H1; try apply IH.
    all: destruct (of_int_exact 0 ltac:(lia)) as [F0 V0]; pose proof (K_pos K K_range) as PK; split; [exact F0|]; rewrite V0, Rminus_0_r, Rabs_R0; unfold K in *; split; lra. }
  cbv zeta. rewrite !nint_R. change (@nint f32 num_f32 0) with (of_int 0). cbn [nadd nmul nneg num_f32 num_R ndy].
  replace (IZR 1 * bpow radix2 (-1)) with (/ 2) by (cbn; lra).
  constructor; [now apply ap_out|]. apply IH; [|exact Hx']. apply Forall2_app; [exact Hd|]. constructor; [now apply ap_store|constructor].
Qed.
End AllPass.

(** The exact all-pass unit under a constant input: what it stores. *)
Section AllPassReal.
Variables (d0 : list R) (m0 : nat) (x : nat -> R).
Fixpoint ast (k : nat) : list R :=
  match k with O => d0 | S j => ast j ++ [x j + nth (m0 + j) (ast j) 0 * / 2] end.
Definition av (k : nat) : R := nth (m0 + k) (ast k) 0.
Lemma ast_len k : length (ast k) = (length d0 + k)%nat.
Proof. induction k as [|k IH]; [cbn; lia|]. cbn [ast]. rewrite app_length, IH. cbn. lia. Qed.
Lemma ast_stable k j i : (i < length d0 + k)%nat -> nth i (ast (k + j)) 0 = nth i (ast k) 0.
Proof.
  intros Hi. induction j as [|j IH]; [now rewrite Nat.add_0_r|]. rewrite Nat.add_succ_r. cbn [ast]. rewrite app_nth1, IH; [reflexivity|].
  rewrite ast_len. lia.
Qed.
Lemma av_next n k : (length d0 = m0 + n)%nat -> (0 < n)%nat -> av (k + n) = x k + av k * / 2.
Proof.
  intros L Hn. unfold av at 1. replace (k + n)%nat with (S k + (n - 1))%nat at 2 by lia.
  rewrite ast_stable by lia. cbn [ast]. rewrite app_nth2 by (rewrite ast_len; lia). rewrite ast_len.
  replace (m0 + (k + n) - (length d0 + k))%nat with 0%nat by lia. reflexivity.
Qed.
Lemma ap_spec_seq N : forall k, ap_spec (ast k) (m0 + k) (map x (seq k N)) = map (fun i => - x i + av i) (seq k N).
Proof.
  induction N as [|N IH]; intros k; [reflexivity|]. cbn [seq map ap_spec]. cbv zeta. rewrite !nint_R. cbn [nadd nmul nneg num_R ndy].
  replace (IZR 1 * bpow radix2 (-1)) with (/ 2) by (cbn; lra). f_equal. rewrite <- IH. cbn [ast]. now rewrite Nat.add_succ_r.
Qed.
End AllPassReal.

Lemma ap_spec_app (xs : list R) : forall d m, exists d' m', (length d' + m = length d + m')%nat /\ forall r, ap_spec d m (xs ++ r) = ap_spec d m xs ++ ap_spec d' m' r.
Proof.
  induction xs as [|x xs IH]; intros d m.
  - exists d, m. split; [lia|reflexivity].
  - destruct (IH (d ++ [nadd x (nmul (nth m d (nint 0)) (ndy 1 (-1)))]) (S m)) as (d' & m' & L & E).
    exists d', m'. rewrite app_length in L. cbn [length] in L. split; [lia|]. intros r. cbn [app ap_spec]. cbv zeta. f_equal. apply E.
Qed.
