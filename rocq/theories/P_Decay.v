(** * Proof library: how fast a comb filter dies away. *)

From Coq Require Import ZArith List Bool Reals Lia Lra Psatz.
From Verif Require Import Base F32 F32Lemmas F32Range Num M_Delay P_DelayNum S_Memory S_Delay S_Comb S_Decay P_Comb.
Import ListNotations.
Local Open Scope R_scope.

Lemma pow_anti rho i j : 0 < rho <= 1 -> (i <= j)%nat -> rho ^ j <= rho ^ i.
Proof.
  intros H L. replace j with (i + (j - i))%nat by lia. rewrite pow_add.
  assert (P : rho ^ (j - i) <= 1) by (rewrite <- (pow1 (j - i)); apply pow_incr; lra).
  pose proof (pow_lt rho i (proj1 H)). nra.
Qed.

(** ** The recurrence of a comb whose input has stopped *)
Section Free.
Variables (y s : nat -> R) (n : nat) (p g e rho K : R).
Hypothesis Hn : (0 < n)%nat.
Hypothesis Hp : 0 <= p < 1.
Hypothesis He : 0 < e < 1.
Hypothesis Hg : Rabs g <= e.
Hypothesis Hr : decay_rate n p e rho.
Hypothesis PK : 0 <= K.
Hypothesis HS : forall k, s (S k) = y k * (1 - p) + s k * p.
Hypothesis HY : forall k, y (k + n)%nat = s (S k) * g.
Hypothesis S0 : Rabs (s 0%nat) <= K.
Hypothesis Y0 : forall k, (k < n)%nat -> Rabs (y k) <= K.

Lemma rho_ok : 0 < rho <= 1.
Proof. destruct Hr as ((_ & A) & B & _). lra. Qed.

(** e |s (k+1)| <= K rho^k. *)
Lemma state_falls : forall k, e * Rabs (s (S k)) <= K * rho ^ k.
Proof.
  destruct Hr as ((R1 & R2) & R3 & R4).
  assert (Step : forall k, e * Rabs (y k) <= e * K * rho ^ (k - n) -> rho * (e * Rabs (s k)) <= K * rho ^ k -> e * Rabs (s (S k)) <= K * rho ^ k).
  { intros k Yk Sk. rewrite HS.
    assert (T : Rabs (y k * (1 - p) + s k * p) <= Rabs (y k) * (1 - p) + Rabs (s k) * p).
    { eapply Rle_trans; [apply Rabs_triang|]. rewrite !Rabs_mult, (Rabs_pos_eq p), (Rabs_pos_eq (1 - p)) by lra. lra. }
    assert (W : rho ^ n * rho ^ (k - n) <= rho ^ k).
    { rewrite <- pow_add. apply pow_anti; [lra|lia]. }
    pose proof (pow_lt rho (k - n) R3) as P1. pose proof (pow_lt rho k R3) as P2.
    assert (Q : 0 <= 1 - p / rho).
    { assert (p / rho < 1) by (apply Rmult_lt_reg_r with rho; [lra|]; unfold Rdiv; rewrite Rmult_assoc, Rinv_l by lra; lra). lra. }
    assert (A : e * Rabs (y k) * (1 - p) <= K * rho ^ k * (1 - p / rho)).
    { apply Rle_trans with (K * rho ^ (k - n) * (e * (1 - p))).
      - apply Rle_trans with (e * K * rho ^ (k - n) * (1 - p)); [apply Rmult_le_compat_r; lra|right; ring].
      - apply Rle_trans with (K * rho ^ (k - n) * (rho ^ n * (1 - p / rho))); [apply Rmult_le_compat_l; [nra|exact R4]|].
        replace (K * rho ^ (k - n) * (rho ^ n * (1 - p / rho))) with (K * (rho ^ n * rho ^ (k - n)) * (1 - p / rho)) by ring.
        apply Rmult_le_compat_r; [exact Q|]. apply Rmult_le_compat_l; lra. }
    assert (C : e * Rabs (s k) * p <= K * rho ^ k * (p / rho)).
    { replace (e * Rabs (s k) * p) with (rho * (e * Rabs (s k)) * (p / rho)) by (field; lra).
      apply Rmult_le_compat_r; [|exact Sk]. apply Rmult_le_pos; [lra|left; apply Rinv_0_lt_compat; lra]. }
    apply Rle_trans with (e * (Rabs (y k) * (1 - p) + Rabs (s k) * p)); [apply Rmult_le_compat_l; lra|]. nra. }
  induction k as [k IH] using (well_founded_induction lt_wf). apply Step.
  - destruct (Nat.lt_ge_cases k n) as [L|L].
    + replace (k - n)%nat with 0%nat by lia. cbn [pow]. pose proof (Y0 k L). nra.
    + replace k with ((k - n) + n)%nat at 1 by lia. rewrite HY, Rabs_mult.
      pose proof (IH (k - n)%nat ltac:(lia)) as I. pose proof (Rabs_pos (s (S (k - n)))).
      apply Rle_trans with (e * (Rabs (s (S (k - n))) * e)); [apply Rmult_le_compat_l; [lra|apply Rmult_le_compat_l; lra]|].
      nra.
  - destruct k as [|k].
    + cbn [pow]. pose proof (Rabs_pos (s 0%nat)). assert (rho * e <= 1) by nra. assert (rho * e * Rabs (s 0%nat) <= 1 * K) by (apply Rmult_le_compat; nra). lra.
    + cbn [pow]. pose proof (IH k ltac:(lia)). nra.
Qed.

Lemma output_falls k : Rabs (y k) <= K * rho ^ (k - n).
Proof.
  destruct (Nat.lt_ge_cases k n) as [L|L].
  - replace (k - n)%nat with 0%nat by lia. cbn [pow]. pose proof (Y0 k L). lra.
  - replace k with ((k - n) + n)%nat at 1 by lia. rewrite HY, Rabs_mult. pose proof (state_falls (k - n)).
    pose proof (Rabs_pos (s (S (k - n)))). nra.
Qed.
End Free.

(** ** No faster *)
Section Slow.
Variables (y s : nat -> R) (n : nat) (p g rho k0 : R).
Hypothesis Hn : (0 < n)%nat.
Hypothesis Hp : 0 <= p < 1.
Hypothesis Hg : 0 <= g.
Hypothesis Hr : 0 < rho <= 1.
Hypothesis Hq : rho ^ n * (1 - p / rho) <= g * (1 - p).
Hypothesis PK : 0 <= k0.
Hypothesis HS : forall k, s (S k) = y k * (1 - p) + s k * p.
Hypothesis HY : forall k, y (k + n)%nat = s (S k) * g.
Hypothesis S0 : 0 <= s 0%nat.
Hypothesis Y0 : forall k, (k < n)%nat -> k0 <= y k.

Lemma state_stays : forall k, (1 - p) * k0 * rho ^ k <= s (S k).
Proof.
  set (c := (1 - p) * k0). assert (PC : 0 <= c) by (apply Rmult_le_pos; lra).
  assert (PR : forall j, 0 < rho ^ j) by (intros j; apply pow_lt; lra).
  induction k as [k IH] using (well_founded_induction lt_wf).
  assert (Sk : 0 <= s k) by (destruct k as [|k]; [exact S0|]; eapply Rle_trans; [|apply IH; lia]; apply Rmult_le_pos; [exact PC|left; apply PR]).
  rewrite HS. destruct (Nat.lt_ge_cases k n) as [L|L].
  - pose proof (Y0 k L) as Yk. assert (rho ^ k <= 1) by (rewrite <- (pow1 k); apply pow_incr; lra).
    assert (c * rho ^ k <= c) by nra. assert (c <= y k * (1 - p)) by (unfold c; nra). assert (0 <= s k * p) by (apply Rmult_le_pos; lra). lra.
  - destruct k as [|k]; [lia|]. assert (I1 : c * rho ^ k <= s (S k)) by (apply IH; lia).
    assert (I2 : c * rho ^ (S k - n) <= s (S (S k - n))) by (apply IH; lia).
    replace (y (S k)) with (s (S (S k - n)) * g) by (rewrite <- HY; f_equal; lia).
    assert (A : c * rho ^ (S k - n) * (g * (1 - p)) <= s (S (S k - n)) * (g * (1 - p))) by (apply Rmult_le_compat_r; [apply Rmult_le_pos; lra|exact I2]).
    assert (D : c * rho ^ k * p <= s (S k) * p) by (apply Rmult_le_compat_r; lra).
    assert (E : c * rho ^ (S k - n) * (rho ^ n * (1 - p / rho)) <= c * rho ^ (S k - n) * (g * (1 - p))).
    { apply Rmult_le_compat_l; [apply Rmult_le_pos; [exact PC|left; apply PR]|exact Hq]. }
    assert (G : rho ^ (S k - n) * rho ^ n = rho ^ S k) by (rewrite <- pow_add; f_equal; lia).
    assert (J : c * rho ^ (S k - n) * (rho ^ n * (1 - p / rho)) = c * rho ^ S k - c * rho ^ k * p).
    { replace (c * rho ^ (S k - n) * (rho ^ n * (1 - p / rho))) with (c * (rho ^ (S k - n) * rho ^ n) * (1 - p / rho)) by ring.
      rewrite G. cbn [pow]. field. lra. }
    lra.
Qed.

Lemma output_stays k : (n <= k)%nat -> g * (1 - p) * k0 * rho ^ (k - n) <= y k.
Proof.
  intros L. replace k with ((k - n) + n)%nat at 2 by lia. rewrite HY. pose proof (state_stays (k - n)) as Q.
  replace (g * (1 - p) * k0 * rho ^ (k - n)) with ((1 - p) * k0 * rho ^ (k - n) * g) by ring. apply Rmult_le_compat_r; [exact Hg|exact Q].
Qed.
End Slow.

(** ** Every history of calls within bounds leaves the memory of the comb within bounds. *)
Lemma history_within K M f (ops : list (comb_op R)) : 0 <= K -> 0 <= f <= 1 -> M <= K * (1 - f) -> Forall (call_within M f) ops ->
  forall d m s p g, Forall (fun v => Rabs v <= K) d -> Rabs s <= K -> 0 <= p <= 1 -> Rabs g <= f ->
  exists d' m' s' p' g', (length d' + m = length d + m')%nat /\ Forall (fun v => Rabs v <= K) d' /\ Rabs s' <= K /\
    forall r, comb_spec d m s p g (ops ++ r) = comb_spec d m s p g ops ++ comb_spec d' m' s' p' g' r.
Proof.
  intros PK Hf HM. induction ops as [|op ops IH]; intros Ho d m s p g Hd Hs Hp Hg.
  - exists d, m, s, p, g. split; [lia|]. split; [exact Hd|]. split; [exact Hs|]. reflexivity.
  - inversion Ho as [|? ? H1 H2]; subst. destruct op as [x|v|v]; cbn [app comb_spec].
    + set (s1 := nadd (nmul (nth m d (nint 0)) (nsub (nint 1) p)) (nmul s p)).
      assert (Hy : Rabs (nth m d (nint 0)) <= K).
      { rewrite nint_R. clear - Hd PK. revert m. induction Hd as [|v d H _ IH]; intros [|m]; cbn [nth]; try exact H; try apply IH; rewrite Rabs_R0; exact PK. }
      assert (Hs1 : Rabs s1 <= K).
      { unfold s1. rewrite !nint_R in *. cbn [nadd nmul nsub num_R]. eapply Rle_trans; [apply Rabs_triang|].
        rewrite !Rabs_mult, (Rabs_pos_eq p), (Rabs_pos_eq (1 - p)) by lra. nra. }
      assert (Hw : Rabs (nadd x (nmul s1 g)) <= K).
      { cbn [nadd nmul num_R]. eapply Rle_trans; [apply Rabs_triang|]. rewrite Rabs_mult. cbn [call_within] in H1.
        assert (Rabs s1 * Rabs g <= K * f) by (apply Rmult_le_compat; try apply Rabs_pos; assumption). lra. }
      destruct (IH H2 (d ++ [nadd x (nmul s1 g)]) (S m) s1 p g) as (d' & m' & s' & p' & g' & L & D & S1 & E); try assumption.
      { apply Forall_app. split; [exact Hd|]. constructor; [exact Hw|constructor]. }
      exists d', m', s', p', g'. rewrite app_length in L. cbn [length] in L. split; [lia|]. split; [exact D|]. split; [exact S1|].
      intros r. cbv zeta. cbn [app]. f_equal. apply E.
    + apply IH; assumption.
    + apply IH; assumption.
Qed.

(** ** Rates *)
Lemma rate_exists n p e : (0 < n)%nat -> 0 <= p < 1 -> 0 < e < 1 -> decay_rate n p e (1 - / time_constant n p e).
Proof.
  intros Hn Hp He. unfold time_constant. pose proof (lt_INR 0 n Hn) as N0. cbn [INR] in N0. assert (N1 : 1 <= INR n) by (apply (le_INR 1); lia).
  assert (Q : 1 <= / (1 - p)) by (rewrite <- Rinv_1; apply Rinv_le_contravar; lra).
  set (D := INR n + / (1 - p)) in *.
  assert (PD : 0 < D) by (unfold D; lra).
  replace (/ (D / (1 - e))) with ((1 - e) / D) by (field; lra). set (dl := (1 - e) / D).
  assert (Dl : dl * D = 1 - e) by (unfold dl; field; lra).
  assert (P1 : 0 < dl) by (unfold dl; apply Rmult_lt_0_compat; [lra|apply Rinv_0_lt_compat; lra]).
  assert (X : / (1 - p) * (1 - p) = 1) by (field; lra).
  assert (Y : dl * (INR n * (1 - p) + 1) = (1 - e) * (1 - p)).
  { rewrite <- Dl. unfold D. rewrite Rmult_assoc, Rmult_plus_distr_r, X. ring. }
  assert (Z : dl < 1 - p).
  { assert (0 <= dl * (INR n * (1 - p))) by (apply Rmult_le_pos; [lra|apply Rmult_le_pos; lra]). assert (0 < e * (1 - p)) by (apply Rmult_lt_0_compat; lra). nra. }
  split; [lra|]. split; [lra|].
  assert (Bern : 1 - INR n * dl <= (1 - dl) ^ n).
  { clearbody dl. clear - P1 Z Hp. induction n as [|n IH]; [cbn; lra|]. rewrite S_INR. cbn [pow]. pose proof (pos_INR n). assert (0 <= INR n * (dl * dl)) by (apply Rmult_le_pos; [lra|apply Rmult_le_pos; lra]).
    apply Rle_trans with ((1 - dl) * (1 - INR n * dl)); [lra|]. apply Rmult_le_compat_l; [lra|apply IH]. }
  assert (U : 1 - p - dl <= 1 - p / (1 - dl)).
  { apply Rmult_le_reg_r with (1 - dl); [lra|]. replace ((1 - p / (1 - dl)) * (1 - dl)) with (1 - dl - p) by (field; lra). nra. }
  apply Rle_trans with ((1 - INR n * dl) * (1 - p - dl)); [nra|].
  apply Rle_trans with ((1 - dl) ^ n * (1 - p - dl)); [apply Rmult_le_compat_r; lra|].
  apply Rmult_le_compat_l; [apply pow_le; lra|exact U].
Qed.

(** Seven time constants are sixty decibels. *)
Lemma exp7 : 1000 <= exp 7.
Proof.
  assert (I : INR 448 = 448) by (rewrite INR_IZR_INZ; reflexivity). replace 7 with (INR 448 * (1 / 64)) by (rewrite I; lra). clear I.
  assert (P : exp (INR 448 * (1 / 64)) = exp (1 / 64) ^ 448).
  { generalize 448%nat. intros m. induction m as [|m IH]; [cbn; now rewrite Rmult_0_l, exp_0|]. rewrite S_INR, Rmult_plus_distr_r, Rmult_1_l, exp_plus, IH. cbn [pow]. ring. }
  rewrite P. pose proof (exp_ineq1 (1 / 64) ltac:(lra)) as E.
  apply Rle_trans with ((65 / 64) ^ 448); [|apply pow_incr; lra].
  assert (Sq : forall (u v : R) (m : nat), 0 <= u -> u <= (65 / 64) ^ m -> v <= u * u -> v <= (65 / 64) ^ (2 * m)).
  { intros u v m U H V. replace (2 * m)%nat with (m + m)%nat by lia. rewrite pow_add. eapply Rle_trans; [exact V|]. apply Rmult_le_compat; assumption. }
  assert (A : 1.1146 <= (65 / 64) ^ 7) by (cbn [pow]; lra).
  apply (Sq _ 1.2423) in A; [|lra|lra]. apply (Sq _ 1.5433) in A; [|lra|lra]. apply (Sq _ 2.3817) in A; [|lra|lra].
  apply (Sq _ 5.672) in A; [|lra|lra]. apply (Sq _ 32.17) in A; [|lra|lra]. apply (Sq _ 1000) in A; [|lra|lra]. exact A.
Qed.

Lemma sixty_db T k : 1 < T -> 7 * T <= INR k -> (1 - / T) ^ k <= 1 / 1000.
Proof.
  intros HT Hk. assert (P : 0 < / T < 1) by (split; [apply Rinv_0_lt_compat; lra|rewrite <- Rinv_1; apply Rinv_lt_contravar; lra]).
  assert (E : (1 - / T) ^ k <= exp (- (INR k * / T))).
  { clear Hk. induction k as [|k IH]; [cbn; rewrite Rmult_0_l, Ropp_0, exp_0; lra|].
    rewrite S_INR. replace (- ((INR k + 1) * / T)) with (- / T + - (INR k * / T)) by ring. rewrite exp_plus. cbn [pow].
    apply Rmult_le_compat; [lra|apply pow_le; lra| |exact IH]. pose proof (exp_ineq1 (- / T) ltac:(lra)). lra. }
  eapply Rle_trans; [exact E|]. rewrite exp_Ropp.
  assert (G : exp 7 <= exp (INR k * / T)).
  { assert (7 <= INR k * / T) by (apply Rmult_le_reg_r with T; [lra|]; rewrite Rmult_assoc, Rinv_l by lra; lra).
    destruct (Rle_lt_or_eq_dec _ _ H) as [L|L]; [left; now apply exp_increasing|rewrite <- L; lra]. }
  pose proof exp7. unfold Rdiv. rewrite Rmult_1_l. apply Rinv_le_contravar; lra.
Qed.
