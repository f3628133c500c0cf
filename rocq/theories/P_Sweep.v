(** * Lemmas for C110. *)

From Coq Require Import ZArith Reals Lra Lia Psatz Arith Bool.
From Verif Require Import Base F32 Num M_Biquad S_Biquad S_BiquadF32 S_Sweep P_Butterworth.
Local Open Scope R_scope.

Section Var.
Variables (b : biquad R) (c : nat -> coeffs R) (x : nat -> R).
Let y := response_var b c x.
Let w := after_var b c x.
Lemma var_out n : y n = b0 (c n) * x n + z1 (w n).
Proof. reflexivity. Qed.
Lemma var_z1 n : z1 (w (S n)) = b1 (c n) * x n + z2 (w n) - a1 (c n) * y n.
Proof. reflexivity. Qed.
Lemma var_z2 n : z2 (w (S n)) = b2 (c n) * x n - a2 (c n) * y n.
Proof. reflexivity. Qed.

(** The weighted sum |z1| + |z2| / s shrinks by the factor s when |a1| + |a2| <= s^2. *)
Lemma var_shrinks s B M : 0 < s < 1 -> (forall n, Rabs (a1 (c n)) + Rabs (a2 (c n)) <= s * s) ->
  (forall n, forward_weight (c n) <= B) -> (forall n, Rabs (x n) <= M) ->
  Rabs (z1 b) + Rabs (z2 b) / s <= B * M / (s * (1 - s)) ->
  forall n, Rabs (z1 (w n)) + Rabs (z2 (w n)) / s <= B * M / (s * (1 - s)).
Proof.
  intros Hs Ha Hb Hx H0 n. induction n as [|n IH]; [exact H0|].
  set (V := B * M / (s * (1 - s))) in *. rewrite var_z1, var_z2, var_out.
  set (z := z1 (w n)) in *. set (v := z2 (w n)) in *. set (e := c n) in *.
  specialize (Ha n). specialize (Hb n). specialize (Hx n). fold e in Ha, Hb.
  assert (M0 : 0 <= M) by (pose proof (Rabs_pos (x n)); lra).
  assert (Bx : forall k, Rabs (k * x n) <= Rabs k * M) by (intros k; rewrite Rabs_mult; apply Rmult_le_compat_l; [apply Rabs_pos|exact Hx]).
  pose proof (Bx (b0 e)) as X0. pose proof (Bx (b1 e)) as X1. pose proof (Bx (b2 e)) as X2.
  assert (T1 : Rabs (b1 e * x n + v - a1 e * (b0 e * x n + z)) <= Rabs (b1 e) * M + Rabs v + Rabs (a1 e) * (Rabs (b0 e) * M + Rabs z)).
  { unfold Rminus. eapply Rle_trans; [apply Rabs_triang|]. rewrite Rabs_Ropp, Rabs_mult.
    pose proof (Rabs_triang (b1 e * x n) v). pose proof (Rabs_triang (b0 e * x n) z).
    assert (Rabs (a1 e) * Rabs (b0 e * x n + z) <= Rabs (a1 e) * (Rabs (b0 e) * M + Rabs z)) by (apply Rmult_le_compat_l; [apply Rabs_pos|lra]). lra. }
  assert (T2 : Rabs (b2 e * x n - a2 e * (b0 e * x n + z)) <= Rabs (b2 e) * M + Rabs (a2 e) * (Rabs (b0 e) * M + Rabs z)).
  { unfold Rminus. eapply Rle_trans; [apply Rabs_triang|]. rewrite Rabs_Ropp, (Rabs_mult (a2 e)).
    pose proof (Rabs_triang (b0 e * x n) z).
    assert (Rabs (a2 e) * Rabs (b0 e * x n + z) <= Rabs (a2 e) * (Rabs (b0 e) * M + Rabs z)) by (apply Rmult_le_compat_l; [apply Rabs_pos|lra]). lra. }
  set (r := / s) in *. assert (Hr : s * r = 1) by (unfold r; field; lra). assert (R1 : 1 < r) by (apply Rmult_lt_reg_l with s; lra).
  unfold Rdiv in *. fold r in IH. fold r.
  pose proof (Rabs_pos (b0 e)) as P0. pose proof (Rabs_pos (b1 e)) as P1. pose proof (Rabs_pos (b2 e)) as P2.
  pose proof (Rabs_pos (a1 e)) as Q1. pose proof (Rabs_pos (a2 e)) as Q2. pose proof (Rabs_pos z) as Q3. pose proof (Rabs_pos v) as Q4.
  unfold forward_weight in Hb.
  apply Rle_trans with (r * (B * M) + s * V).
  2:{ apply Req_le. unfold V, r. field. lra. }
  (* |a1| + r |a2| <= r (|a1| + |a2|) <= s, times what it multiplies *)
  set (g := Rabs (b0 e) * M + Rabs z) in *. assert (G0 : 0 <= g) by (unfold g; nra).
  assert (Hg : Rabs (a1 e) * g + Rabs (a2 e) * g * r <= s * g).
  { apply Rle_trans with (r * (s * s) * g); [|right; replace (r * (s * s)) with s; [ring|]; replace (r * (s * s)) with (s * r * s) by ring; rewrite Hr; ring].
    replace (Rabs (a1 e) * g + Rabs (a2 e) * g * r) with ((Rabs (a1 e) + Rabs (a2 e) * r) * g) by ring. apply Rmult_le_compat_r; [exact G0|]. nra. }
  assert (Hv : Rabs v = s * (Rabs v * r)) by (replace (s * (Rabs v * r)) with (s * r * Rabs v) by ring; rewrite Hr; ring).
  assert (IH' : s * (Rabs z + Rabs v * r) <= s * V) by (apply Rmult_le_compat_l; lra).
  assert (HB : Rabs (b1 e) * M + Rabs (b2 e) * M * r + s * (Rabs (b0 e) * M) <= r * (B * M)).
  { apply Rle_trans with (r * ((Rabs (b0 e) + Rabs (b1 e) + Rabs (b2 e)) * M)); [|apply Rmult_le_compat_l; [lra|]; apply Rmult_le_compat_r; lra].
    assert (0 <= Rabs (b0 e) * M) by nra. assert (0 <= Rabs (b1 e) * M) by nra. nra. }
  assert (T2' : Rabs (b2 e * x n - a2 e * (b0 e * x n + z)) * r <= (Rabs (b2 e) * M + Rabs (a2 e) * g) * r) by (apply Rmult_le_compat_r; lra).
  unfold g in *. nra.
Qed.
End Var.

(** ** Two settings in turn *)
Section Alternate.
Variables (c d : coeffs R) (lam : R).
Let w := after_var (bq_new c) (alternate c d) unit_impulse.
Let y := response_var (bq_new c) (alternate c d) unit_impulse.
Hypothesis Hl : 1 < lam.
Hypothesis Hc : a2 c < 1.
Hypothesis Hr : lam * lam - (a2 c + a2 d - a1 c * a1 d) * lam + a2 c * a2 d = 0.
Let l := a1 c / (lam - a2 c).
Let L (b : biquad R) := z1 b + l * z2 b.

Lemma alt_even k : alternate c d (2 * k) = c.
Proof. unfold alternate. now rewrite Nat.even_mul. Qed.
Lemma alt_odd k : alternate c d (S (2 * k)) = d.
Proof. unfold alternate. rewrite Nat.even_succ, <- Nat.negb_even, Nat.even_mul. reflexivity. Qed.
Lemma imp_S n : unit_impulse (S n) = 0.
Proof. reflexivity. Qed.

(** What the two samples 2k+1 and 2k+2 do to the state. *)
Lemma alt_pair k : L (w (S (2 * S k))) = - lam * L (w (S (2 * k))) /\
  z1 (w (S (2 * k))) = y (S (2 * k)) /\ z2 (w (S (2 * S k))) = - a2 c * y (2 * S k).
Proof.
  pose proof (alt_odd k) as E1. pose proof (alt_even (S k)) as E2. replace (2 * S k)%nat with (S (S (2 * k))) in * by lia.
  set (n := S (2 * k)) in *.
  assert (Y1 : y n = z1 (w n)) by (unfold y; rewrite var_out, E1; unfold n; rewrite imp_S; unfold w; ring).
  assert (A1 : z1 (w (S n)) = z2 (w n) - a1 d * z1 (w n)) by (unfold w at 1; rewrite var_z1, E1; fold y w; rewrite Y1; unfold n at 1; rewrite imp_S; ring).
  assert (A2 : z2 (w (S n)) = - a2 d * z1 (w n)) by (unfold w at 1; rewrite var_z2, E1; fold y w; rewrite Y1; unfold n at 1; rewrite imp_S; ring).
  assert (Y2 : y (S n) = z1 (w (S n))) by (unfold y; rewrite var_out, E2, imp_S; unfold w; ring).
  assert (B1 : z1 (w (S (S n))) = z2 (w (S n)) - a1 c * z1 (w (S n))) by (unfold w at 1; rewrite var_z1, E2; fold y w; rewrite Y2, imp_S; ring).
  assert (B2 : z2 (w (S (S n))) = - a2 c * z1 (w (S n))) by (unfold w at 1; rewrite var_z2, E2; fold y w; rewrite Y2, imp_S; ring).
  split; [|split; [now rewrite Y1|now rewrite B2, Y2]].
  unfold L. rewrite B1, B2, A1, A2. set (p := z1 (w n)). set (q := z2 (w n)).
  assert (E : l * (lam - a2 c) = a1 c) by (unfold l; field; lra).
  assert (F : (a1 c * a1 d - a2 d + l * a2 c * a1 d) = - lam).
  { apply Rmult_eq_reg_r with (lam - a2 c); [|lra].
    replace ((a1 c * a1 d - a2 d + l * a2 c * a1 d) * (lam - a2 c)) with ((a1 c * a1 d - a2 d) * (lam - a2 c) + l * (lam - a2 c) * a2 c * a1 d) by ring.
    rewrite E. lra. }
  replace (- a2 d * p - a1 c * (q - a1 d * p) + l * (- a2 c * (q - a1 d * p))) with ((a1 c * a1 d - a2 d + l * a2 c * a1 d) * p + (- (a1 c) - l * a2 c) * q) by ring.
  rewrite F. replace (- a1 c - l * a2 c) with (- lam * l) by lra. ring.
Qed.

Lemma alt_growth k : Rabs (L (w (S (2 * k)))) = lam ^ k * Rabs (L (w 1%nat)).
Proof.
  induction k as [|k IH]; [change (2 * 0)%nat with 0%nat; cbn [pow]; ring|]. destruct (alt_pair k) as [E _]. rewrite E, Rabs_mult, IH, Rabs_Ropp, (Rabs_pos_eq lam) by lra. cbn [pow]. ring.
Qed.

Lemma alt_unbounded : L (w 1%nat) <> 0 -> forall M, exists n, M < Rabs (y n).
Proof.
  intros N M. set (M1 := Rmax M 1). set (g := Rabs (L (w 1%nat))). assert (G0 : 0 < g) by (unfold g; now apply Rabs_pos_lt).
  destruct (Pow_x_infinity lam) with (b := (1 + Rabs l * Rabs (a2 c)) * M1 / g + 1) as [k0 Hk].
  { rewrite Rabs_pos_eq; lra. }
  specialize (Hk (S k0) ltac:(lia)). rewrite Rabs_pos_eq in Hk by (apply pow_le; lra).
  pose proof (alt_growth (S k0)) as Gr. fold g in Gr. destruct (alt_pair k0) as (_ & _ & Z2). destruct (alt_pair (S k0)) as (_ & Z1 & _).
  assert (Big : (1 + Rabs l * Rabs (a2 c)) * M1 < Rabs (L (w (S (2 * S k0))))).
  { rewrite Gr. apply Rlt_le_trans with (((1 + Rabs l * Rabs (a2 c)) * M1 / g + 1) * g); [|apply Rmult_le_compat_r; lra].
    replace (((1 + Rabs l * Rabs (a2 c)) * M1 / g + 1) * g) with ((1 + Rabs l * Rabs (a2 c)) * M1 + g) by (field; lra). lra. }
  assert (MM : M <= M1) by apply Rmax_l. assert (M1p : 1 <= M1) by apply Rmax_r.
  destruct (Rlt_or_le M (Rabs (y (S (2 * S k0))))) as [?|U1]; [eauto|].
  destruct (Rlt_or_le M (Rabs (y (2 * S k0)))) as [?|U2]; [eauto|].
  exfalso. apply (Rlt_not_le _ _ Big). unfold L. rewrite Z1, Z2. eapply Rle_trans; [apply Rabs_triang|].
  rewrite !Rabs_mult, Rabs_Ropp. pose proof (Rabs_pos l). pose proof (Rabs_pos (a2 c)). pose proof (Rabs_pos (y (2 * S k0))).
  assert (0 <= Rabs l * Rabs (a2 c)) by nra. nra.
Qed.
End Alternate.

(** The larger of the two growth factors exceeds 1. *)
Lemma alt_root T P : -1 < P -> 1 + P < T -> exists lam, 1 < lam /\ lam * lam - T * lam + P = 0.
Proof.
  intros HP HT. set (D := T * T - 4 * P). assert (T2 : (1 + P) * (1 + P) < T * T) by nra. assert (D0 : 0 < D) by (unfold D; pose proof (Rle_0_sqr (1 - P)) as Q; unfold Rsqr in Q; lra).
  pose proof (sqrt_sqrt D (Rlt_le _ _ D0)) as SD. pose proof (sqrt_lt_R0 D D0) as SP. exists ((T + sqrt D) / 2). split.
  - assert (2 - T < sqrt D); [|lra]. destruct (Rle_or_lt (2 - T) 0); [lra|]. apply Rsqr_incrst_0; [|lra|lra]. unfold Rsqr. rewrite SD. unfold D. nra.
  - replace ((T + sqrt D) / 2 * ((T + sqrt D) / 2) - T * ((T + sqrt D) / 2) + P) with ((sqrt D * sqrt D - T * T + 4 * P) / 4) by field. rewrite SD. unfold D. field.
Qed.
