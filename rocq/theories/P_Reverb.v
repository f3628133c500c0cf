(** * Proof library for C118: how fast a network of processors dies away. *)

From Coq Require Import ZArith List Bool Reals Lia Lra Psatz.
From Flocq Require Import Core.
From Verif Require Import Base F32 F32Lemmas F32Range Num M_Memory M_Delay M_Biquad S_Memory S_Delay S_Biquad S_BiquadF32 S_Network S_Decay S_Reverb
  P_DelayNum P_Comb P_Biquad P_BiquadF32 P_BiquadMore P_EndToEnd P_TailComb P_NetworkAcc P_NetworkTail P_Decay S_RingDown P_RingDown T_BiquadF32.
Import ListNotations.
Local Open Scope R_scope.

Section Falls.
Variables (rho : R) (N : nat).
Hypothesis Hr : 0 < rho <= 1.

Definition w (k : nat) : R := rho ^ (k - N).
Lemma w_pos k : 0 < w k.
Proof. apply pow_lt. lra. Qed.
Lemma w_add k n : rho ^ n * w k <= w (k + n).
Proof. unfold w. rewrite <- pow_add. apply pow_anti; [exact Hr|lia]. Qed.
Lemma w_first k n : (k <= n)%nat -> rho ^ n <= w k.
Proof. intros H. unfold w. apply pow_anti; [exact Hr|lia]. Qed.
Lemma w_le1 k : w k <= 1.
Proof. unfold w. rewrite <- (pow1 (k - N)). apply pow_incr. lra. Qed.

Lemma first_ok l B k : Forall (fun v => Rabs v <= B * rho ^ length l) l -> 0 <= B -> (k < length l)%nat -> Rabs (nth k l 0) <= B * w k.
Proof.
  intros H PB Hk. rewrite Forall_forall in H. eapply Rle_trans; [apply H, nth_In, Hk|]. apply Rmult_le_compat_l; [exact PB|]. apply w_first. lia.
Qed.

Lemma up C B k n : 0 <= B -> C <= B * rho ^ n -> C * w k <= B * w (k + n).
Proof.
  intros PB H. apply Rle_trans with (B * rho ^ n * w k); [apply Rmult_le_compat_r; [left; apply w_pos|exact H]|].
  rewrite Rmult_assoc. apply Rmult_le_compat_l; [exact PB|apply w_add].
Qed.

Lemma pos_of C B n : 0 <= C -> C <= B * rho ^ n -> 0 <= B.
Proof. intros P H. assert (0 < rho ^ n) by (apply pow_lt; lra). destruct (Rle_or_lt 0 B) as [?|L]; [assumption|]. exfalso. nra. Qed.

Lemma pos_in A (x : nat -> R) : (forall k, Rabs (x k) <= A * w k) -> 0 <= A.
Proof.
  intros Hx. pose proof (Hx 0%nat) as Q. pose proof (Rabs_pos (x 0%nat)). pose proof (w_pos 0). destruct (Rle_or_lt 0 A) as [?|L]; [assumption|]. exfalso. nra.
Qed.
Lemma pos_buf l B : l <> [] -> Forall (fun v => Rabs v <= B * rho ^ length l) l -> 0 <= B.
Proof. intros Ne Hl. destruct l as [|v l]; [congruence|]. inversion Hl as [|? ? Hv _]; subst. apply (pos_of (Rabs v) B (length (v :: l))); [apply Rabs_pos|exact Hv]. Qed.

(** The comb *)
Lemma comb_falls l p g A B T (x : nat -> R) : l <> [] -> 0 <= p <= 1 -> 0 <= T -> (1 - p) * B + p * (T / rho) <= T -> A + Rabs g * T <= B * rho ^ length l ->
  Forall (fun v => Rabs v <= B * rho ^ length l) l -> (forall k, Rabs (x k) <= A * w k) -> forall k, Rabs (fy l 0 (nint 0) p g x k) <= B * w k.
Proof.
  intros Ne Hp PT H1 H2 Hl Hx. assert (Hn : (0 < length l)%nat) by (destruct l; [congruence|cbn; lia]).
  pose proof (pos_in A x Hx) as PA. pose proof (pos_buf l B Ne Hl) as PB.
  set (y := fy l 0 (nint 0) p g x). set (s := fs l 0 (nint 0) p g x).
  assert (ES : forall k, s (S k) = y k * (1 - p) + s k * p) by (intros k; unfold s, y; rewrite fs_S, !nint_R; reflexivity).
  assert (S0 : s 0%nat = 0) by (unfold s, fs; cbn [fst_k snd]; apply nint_R).
  assert (EY : forall k, y (k + length l)%nat = x k + s (S k) * g) by (intros k; unfold y; rewrite fy_next with (n := length l) by lia; reflexivity).
  assert (EF : forall k, (k < length l)%nat -> y k = nth k l 0).
  { intros k Hk. unfold y, fy. rewrite (fst_stable l 0 (nint 0) p g x 0 k) by lia. cbn [fst_k fst Nat.add]. now rewrite nint_R. }
  assert (Both : forall k, Rabs (y k) <= B * w k /\ Rabs (s (S k)) <= T * w k).
  { induction k as [k IH] using (well_founded_induction lt_wf).
    assert (Yk : Rabs (y k) <= B * w k).
    { destruct (Nat.lt_ge_cases k (length l)) as [L|L]; [rewrite EF by exact L; now apply first_ok|].
      replace k with ((k - length l) + length l)%nat by lia. set (j := (k - length l)%nat). rewrite EY.
      destruct (IH j) as [_ Sj]; [unfold j; lia|]. apply Rle_trans with ((A + Rabs g * T) * w j); [|now apply up].
      eapply Rle_trans; [apply Rabs_triang|]. rewrite Rabs_mult. pose proof (Hx j). pose proof (Rabs_pos g).
      assert (Rabs (s (S j)) * Rabs g <= T * w j * Rabs g) by (apply Rmult_le_compat_r; assumption). lra. }
    split; [exact Yk|]. rewrite ES. pose proof (w_pos k) as Pw.
    assert (Sk : Rabs (s k) <= T / rho * w k).
    { destruct k as [|k]; [rewrite S0, Rabs_R0; apply Rmult_le_pos; [apply Rmult_le_pos; [lra|left; apply Rinv_0_lt_compat; lra]|lra]|].
      destruct (IH k ltac:(lia)) as [_ Sk]. eapply Rle_trans; [exact Sk|].
      pose proof (w_add k 1) as Wa. rewrite pow_1, Nat.add_1_r in Wa.
      replace (T * w k) with (T / rho * (rho * w k)) by (field; lra). apply Rmult_le_compat_l; [|exact Wa]. apply Rmult_le_pos; [lra|left; apply Rinv_0_lt_compat; lra]. }
    eapply Rle_trans; [apply Rabs_triang|]. rewrite !Rabs_mult, (Rabs_pos_eq p), (Rabs_pos_eq (1 - p)) by lra.
    apply Rle_trans with (((1 - p) * B + p * (T / rho)) * w k); [|apply Rmult_le_compat_r; lra].
    assert (Rabs (y k) * (1 - p) <= B * w k * (1 - p)) by (apply Rmult_le_compat_r; lra).
    assert (Rabs (s k) * p <= T / rho * w k * p) by (apply Rmult_le_compat_r; lra). lra. }
  intros k. apply Both.
Qed.

(** The all-pass *)
Lemma pass_falls l A B V (x : nat -> R) : l <> [] -> A + V / 2 <= V * rho ^ length l -> Forall (fun v => Rabs v <= V * rho ^ length l) l -> A + V <= B ->
  (forall k, Rabs (x k) <= A * w k) -> forall k, Rabs (- x k + pv l x k) <= B * w k.
Proof.
  intros Ne H1 Hl H2 Hx. assert (Hn : (0 < length l)%nat) by (destruct l; [congruence|cbn; lia]).
  pose proof (pos_in A x Hx) as PA. pose proof (pos_buf l V Ne Hl) as PV.
  assert (EV : forall k, pv l x (k + length l) = x k + pv l x k / 2).
  { intros k. rewrite pv_next by exact Hn. cbn [nadd nmul ndy num_R]. f_equal. cbn. lra. }
  assert (EF : forall k, (k < length l)%nat -> pv l x k = nth k l 0).
  { intros k Hk. unfold pv. rewrite (pst_stable l x 0 k) by lia. cbn [pst]. now rewrite nint_R. }
  assert (HV : forall k, Rabs (pv l x k) <= V * w k).
  { induction k as [k IH] using (well_founded_induction lt_wf). destruct (Nat.lt_ge_cases k (length l)) as [L|L]; [rewrite EF by exact L; now apply first_ok|].
    replace k with ((k - length l) + length l)%nat by lia. set (j := (k - length l)%nat). rewrite EV. specialize (IH j ltac:(unfold j; lia)).
    apply Rle_trans with ((A + V / 2) * w j); [|now apply up]. eapply Rle_trans; [apply Rabs_triang|]. unfold Rdiv at 1. rewrite Rabs_mult, (Rabs_pos_eq (/ 2)) by lra.
    pose proof (Hx j). lra. }
  intros k. eapply Rle_trans; [apply Rabs_triang|]. rewrite Rabs_Ropp. pose proof (Hx k). pose proof (HV k). pose proof (w_pos k). nra.
Qed.

(** The delay *)
Lemma delay_falls l A B (x : nat -> R) : A <= B * rho ^ length l -> Forall (fun v => Rabs v <= B * rho ^ length l) l ->
  (forall k, Rabs (x k) <= A * w k) -> forall k, Rabs (stream (PDelay l) x k) <= B * w k.
Proof.
  intros H1 Hl Hx k. pose proof (pos_in A x Hx) as PA. pose proof (pos_of A B _ PA H1) as PB. cbn [stream]. rewrite nint_R.
  destruct (Nat.ltb_spec k (length l)) as [L|L]; [now apply first_ok|].
  eapply Rle_trans; [apply Hx|]. replace k with ((k - length l) + length l)%nat at 2 by lia. now apply up.
Qed.

(** The filter *)
Lemma scaled_response (c : coeffs R) (x : nat -> R) t : forall n,
  z1 (after (bq_new (sped_up rho c)) (fun k => x k * t / rho ^ k) n) = z1 (after (bq_new c) x n) * t / rho ^ n /\
  z2 (after (bq_new (sped_up rho c)) (fun k => x k * t / rho ^ k) n) = z2 (after (bq_new c) x n) * t / rho ^ S n /\
  response (bq_new (sped_up rho c)) (fun k => x k * t / rho ^ k) n = response (bq_new c) x n * t / rho ^ n.
Proof.
  assert (NZ : forall k, rho ^ k <> 0) by (intros k; apply pow_nonzero; lra).
  assert (Fin : forall n, z1 (after (bq_new (sped_up rho c)) (fun k => x k * t / rho ^ k) n) = z1 (after (bq_new c) x n) * t / rho ^ n ->
    response (bq_new (sped_up rho c)) (fun k => x k * t / rho ^ k) n = response (bq_new c) x n * t / rho ^ n).
  { intros n E. rewrite !response_R, E. cbn [bq_coeffs bq_new sped_up b0]. field. apply NZ. }
  induction n as [|n (I1 & I2 & I3)].
  - destruct (z_rest c) as [Z1 Z2]. destruct (z_rest (sped_up rho c)) as [Y1 Y2]. assert (E : z1 (after (bq_new (sped_up rho c)) (fun k => x k * t / rho ^ k) 0) = z1 (after (bq_new c) x 0) * t / rho ^ 0).
    { cbn [after]. rewrite Z1, Y1. unfold Rdiv. ring. }
    split; [exact E|]. split; [|now apply Fin]. cbn [after]. rewrite Z2, Y2. unfold Rdiv. ring.
  - assert (E : z1 (after (bq_new (sped_up rho c)) (fun k => x k * t / rho ^ k) (S n)) = z1 (after (bq_new c) x (S n)) * t / rho ^ S n).
    { rewrite !z1_S, I2, I3. cbn [bq_coeffs bq_new sped_up b1 a1 pow]. field. split; [apply NZ|lra]. }
    split; [exact E|]. split; [|now apply Fin].
    rewrite !z2_S, I3. cbn [bq_coeffs bq_new sped_up b2 a2 pow]. field. split; [apply NZ|lra].
Qed.

Lemma filter_falls c A B G (x : nat -> R) : ringing (sped_up rho c) G -> forward_weight (sped_up rho c) * G * A <= B ->
  (forall k, Rabs (x k) <= A * w k) -> forall k, Rabs (response (bq_new c) x k) <= B * w k.
Proof.
  intros HG HB Hx n. pose proof (pos_in A x Hx) as PA. pose proof (w_pos n) as Pw.
  assert (NZ : forall k, 0 < rho ^ k) by (intros k; apply pow_lt; lra).
  destruct (scaled_response c x (rho ^ n) n) as (_ & _ & E).
  replace (response (bq_new c) x n) with (response (bq_new (sped_up rho c)) (fun k => x k * rho ^ n / rho ^ k) n) by (rewrite E; field; apply Rgt_not_eq, NZ).
  set (u := fun k => if (k <=? n)%nat then x k * rho ^ n / rho ^ k else 0).
  assert (EU : response (bq_new (sped_up rho c)) (fun k => x k * rho ^ n / rho ^ k) n = response (bq_new (sped_up rho c)) u n).
  { unfold response. replace (u n) with (x n * rho ^ n / rho ^ n) by (unfold u; now rewrite Nat.leb_refl). do 2 f_equal. apply after_ext. intros k Hk. unfold u. now rewrite (proj2 (Nat.leb_le k n)) by lia. }
  rewrite EU. apply Rle_trans with (forward_weight (sped_up rho c) * (A * w n) * G).
  - apply output_size; [exact HG|apply Rmult_le_pos; lra|]. intros k. unfold u. destruct (Nat.leb_spec k n) as [L|L]; [|rewrite Rabs_R0; apply Rmult_le_pos; lra].
    unfold Rdiv. rewrite !Rabs_mult, Rabs_inv, (Rabs_pos_eq (rho ^ n)), (Rabs_pos_eq (rho ^ k)) by (left; apply NZ).
    assert (P : rho ^ n * / rho ^ k = rho ^ (n - k)).
    { replace n with ((n - k) + k)%nat at 1 by lia. rewrite pow_add. field. apply Rgt_not_eq, NZ. }
    rewrite Rmult_assoc, P. apply Rle_trans with (A * w k * rho ^ (n - k)); [apply Rmult_le_compat_r; [left; apply NZ|apply Hx]|].
    rewrite Rmult_assoc. apply Rmult_le_compat_l; [exact PA|]. unfold w. rewrite <- pow_add. apply pow_anti; [exact Hr|lia].
  - apply Rle_trans with (forward_weight (sped_up rho c) * G * A * w n); [right; ring|]. apply Rmult_le_compat_r; lra.
Qed.

Lemma falls_sound p A B : falls rho p A B -> forall x, (forall k, Rabs (x k) <= A * w k) -> forall k, Rabs (stream p x k) <= B * w k.
Proof.
  induction 1 as [l A B H1 H2|l p g A B T Ne Hp PS H1 H2 Hl|l A B V Ne H1 Hl H2|c A B G HG HB|g A B H1|p q A B C F1 I1 F2 I2|p q A B C D F1 I1 F2 I2 H]; intros x Hx k.
  - now apply delay_falls with A.
  - cbn [stream]. now apply comb_falls with A T.
  - cbn [stream nadd nneg num_R]. now apply pass_falls with A V.
  - cbn [stream]. now apply filter_falls with A G.
  - cbn [stream nmul num_R]. rewrite Rabs_mult. pose proof (w_pos k). pose proof (Rabs_pos g).
    apply Rle_trans with (A * w k * Rabs g); [apply Rmult_le_compat_r; [assumption|apply Hx]|].
    replace (A * w k * Rabs g) with (Rabs g * A * w k) by ring. apply Rmult_le_compat_r; lra.
  - cbn [stream]. now apply I2, I1.
  - cbn [stream nadd num_R]. eapply Rle_trans; [apply Rabs_triang|]. pose proof (I1 x Hx k). pose proof (I2 x Hx k). pose proof (w_pos k).
    apply Rle_trans with ((B + C) * w k); [lra|]. apply Rmult_le_compat_r; lra.
Qed.
End Falls.

(** ** Every network of stable parts falls at some rate *)
Lemma buf_max (l : list R) : exists K, 0 <= K /\ Forall (fun v => Rabs v <= K) l.
Proof.
  induction l as [|v l (K & P & H)]; [exists 0; split; [lra|constructor]|]. exists (K + Rabs v). pose proof (Rabs_pos v). split; [lra|].
  constructor; [lra|]. revert H. apply Forall_impl. intros u Hu. lra.
Qed.

Lemma bern n d : 0 <= d <= 1 -> 1 - INR n * d <= (1 - d) ^ n.
Proof.
  intros Hd. induction n as [|n IH]; [cbn; lra|]. rewrite S_INR. cbn [pow]. pose proof (pos_INR n). assert (0 <= INR n * (d * d)) by (apply Rmult_le_pos; nra).
  apply Rle_trans with ((1 - d) * (1 - INR n * d)); [lra|]. apply Rmult_le_compat_l; lra.
Qed.

Lemma div_le a b c : 0 < c -> a <= b * c -> a / c <= b.
Proof. intros H L. apply Rmult_le_reg_r with c; [exact H|]. unfold Rdiv. rewrite Rmult_assoc, Rinv_l by lra. lra. Qed.

Definition has_rate (p : plan R) (r0 : R) : Prop := forall rho, r0 <= rho <= 1 -> forall A, 0 <= A -> exists B, 0 <= B /\ falls rho p A B.

Lemma has_rate_up p r0 r1 : r0 <= r1 -> has_rate p r0 -> has_rate p r1.
Proof. intros L H rho Hr. apply H. lra. Qed.

Lemma delay_rate l : has_rate (PDelay l) (1 / 2).
Proof.
  intros rho Hr A PA. destruct (buf_max l) as (K & PK & HK). set (q := rho ^ length l). assert (Q : 0 < q) by (apply pow_lt; lra).
  exists ((A + K) / q). assert (E : (A + K) / q * q = A + K) by (field; lra). split; [apply Rmult_le_pos; [lra|left; apply Rinv_0_lt_compat; lra]|].
  constructor; fold q; rewrite E; [lra|]. revert HK. apply Forall_impl. intros v Hv. lra.
Qed.

Lemma pass_rate l : l <> [] -> exists r0, 0 < r0 < 1 /\ has_rate (PPass l) r0.
Proof.
  intros Ne. set (n := length l). assert (Hn : (0 < n)%nat) by (unfold n; destruct l; [congruence|cbn; lia]).
  assert (N1 : 1 <= INR n) by (apply (le_INR 1); lia). set (d := / (4 * INR n)).
  assert (D : INR n * d = 1 / 4) by (unfold d; field; lra). assert (PD : 0 < d) by (apply Rinv_0_lt_compat; lra). assert (D4 : d <= 1 / 4) by nra.
  exists (1 - d). split; [lra|]. intros rho Hr A PA. destruct (buf_max l) as (K & PK & HK). set (q := rho ^ n).
  assert (Q : 3 / 4 <= q). { pose proof (bern n d ltac:(lra)). assert ((1 - d) ^ n <= rho ^ n) by (apply pow_incr; lra). unfold q. lra. }
  exists (A + 4 * (A + K)). split; [lra|]. apply falls_pass with (4 * (A + K)); [exact Ne| | |lra]; fold n; fold q.
  - nra.
  - revert HK. apply Forall_impl. intros v Hv. nra.
Qed.

Lemma comb_rate l p g : l <> [] -> 0 <= p < 1 -> Rabs g < 1 -> exists r0, 0 < r0 < 1 /\ has_rate (PComb l p g) r0.
Proof.
  intros Ne Hp Hg. set (n := length l). assert (Hn : (0 < n)%nat) by (unfold n; destruct l; [congruence|cbn; lia]).
  pose proof (Rabs_pos g) as G0. set (e := (1 + Rabs g) / 2). assert (He : 0 < e < 1) by (unfold e; lra). assert (Ge : Rabs g < e) by (unfold e; lra).
  pose proof (rate_exists n p e Hn Hp He) as DR. set (r0 := 1 - / time_constant n p e) in *.
  assert (R01 : r0 < 1).
  { assert (TC : 0 < time_constant n p e).
    { unfold time_constant. assert (0 < / (1 - p)) by (apply Rinv_0_lt_compat; lra). pose proof (pos_INR n). apply Rmult_lt_0_compat; [lra|apply Rinv_0_lt_compat; lra]. }
    apply Rinv_0_lt_compat in TC. unfold r0. lra. }
  destruct DR as ((D1 & _) & D2 & D3). exists r0. split; [lra|]. intros rho Hr A PA. destruct (buf_max l) as (K & PK & HK).
  set (q := 1 - p / rho). assert (PR : 0 < rho) by lra.
  assert (IL : / rho <= / r0) by (apply Rinv_le_contravar; lra). assert (I0 : 0 < / rho) by (apply Rinv_0_lt_compat; lra).
  assert (Q0 : 0 < 1 - p / r0) by (assert (p / r0 < 1); [apply Rmult_lt_reg_r with r0; [lra|]; unfold Rdiv; rewrite Rmult_assoc, Rinv_l by lra; lra|lra]).
  assert (Q1 : 1 - p / r0 <= q <= 1) by (unfold q, Rdiv; split; nra).
  set (t := rho ^ n). assert (PT : 0 < t) by (apply pow_lt; lra). assert (T0 : r0 ^ n <= t) by (apply pow_incr; lra). assert (PR0 : 0 < r0 ^ n) by (apply pow_lt; lra).
  assert (QT : e * (1 - p) <= t * q) by (eapply Rle_trans; [exact D3|]; apply Rmult_le_compat; lra).
  set (m := (e - Rabs g) * (1 - p)). assert (PM : 0 < m) by (apply Rmult_lt_0_compat; lra).
  set (B := A / m + K / t). assert (PAm : 0 <= A / m) by (apply Rmult_le_pos; [lra|left; apply Rinv_0_lt_compat; lra]). assert (PKt : 0 <= K / t) by (apply Rmult_le_pos; [lra|left; apply Rinv_0_lt_compat; lra]).
  assert (PB : 0 <= B) by (unfold B; lra).
  assert (BA : A <= B * m) by (unfold B; replace A with (A / m * m) at 1 by (field; lra); apply Rmult_le_compat_r; lra).
  assert (BK : K <= B * t) by (unfold B; replace K with (K / t * t) at 1 by (field; lra); apply Rmult_le_compat_r; lra).
  set (T := (1 - p) * B / q). assert (ET : T * q = (1 - p) * B) by (unfold T; field; lra).
  exists B. split; [exact PB|]. apply falls_comb with T; fold n; fold t; try assumption; try lra.
  - unfold T. apply Rmult_le_pos; [apply Rmult_le_pos; lra|left; apply Rinv_0_lt_compat; lra].
  - rewrite <- ET. unfold q. right. field. lra.
  - apply Rmult_le_reg_r with q; [lra|]. replace ((A + Rabs g * T) * q) with (A * q + Rabs g * (T * q)) by ring. rewrite ET.
    assert (B * (e * (1 - p)) <= B * (t * q)) by (apply Rmult_le_compat_l; assumption).
    assert (A * q <= A * 1) by (apply Rmult_le_compat_l; lra).
    assert (B * m = B * (e * (1 - p)) - Rabs g * ((1 - p) * B)) by (unfold m; ring). lra.
  - revert HK. apply Forall_impl. intros v Hv. lra.
Qed.

Lemma filter_rate c : poles_inside c -> exists r0, 0 < r0 < 1 /\ has_rate (PFilter c) r0.
Proof.
  intros Hc. destruct (within_coeffs 1 c ltac:(lra)) as [H1 H2]; [intros u v E1 E2; rewrite Rmult_1_l; exact (Hc u v E1 E2)|].
  rewrite Rmult_1_r in H2. rewrite !Rmult_1_l in *. pose proof (Rabs_pos (a1 c)) as PA1.
  set (m := Rmin (1 - a2 c) (1 + a2 c - Rabs (a1 c))). assert (PM : 0 < m) by (unfold m; apply Rmin_glb_lt; lra).
  assert (M1 : m <= 1 - a2 c) by apply Rmin_l. assert (M2 : m <= 1 + a2 c - Rabs (a1 c)) by apply Rmin_r. clearbody m.
  set (d := m / (2 * (1 + m))). assert (D : d * (1 + m) = m / 2) by (unfold d; field; lra).
  assert (PD : 0 < d) by (apply Rmult_lt_0_compat; [lra|apply Rinv_0_lt_compat; lra]). assert (D1 : 2 * d < m) by nra. assert (D2 : d < 1 / 2) by nra.
  exists (1 - d). split; [lra|]. intros rho Hr A PA. assert (R2 : 0 < rho * rho) by nra. assert (R3 : 1 - 2 * d <= rho * rho) by nra.
  assert (J1 : a2 c < rho * rho) by lra. assert (J2 : Rabs (a1 c) * rho < rho * rho + a2 c) by nra.
  assert (J : jury (sped_up rho c)).
  { assert (E : forall u, u / (rho * rho) * (rho * rho) = u) by (intros u; field; lra). pose proof (E (a2 c)) as E2.
    assert (E1 : a1 c / rho * (rho * rho) = a1 c * rho) by (field; lra).
    assert (L : - (Rabs (a1 c) * rho) <= a1 c * rho <= Rabs (a1 c) * rho).
    { pose proof (Rle_abs (a1 c)). pose proof (Rle_abs (- a1 c)) as Q. rewrite Rabs_Ropp in Q. split; nra. }
    assert (0 <= Rabs (a1 c) * rho) by (apply Rmult_le_pos; lra).
    unfold jury, sped_up. cbn [a1 a2]. repeat split; apply Rmult_lt_reg_r with (rho * rho); try exact R2; rewrite ?Rmult_plus_distr_r, ?Ropp_mult_distr_l_reverse, ?Rmult_plus_distr_r, ?E1, ?E2; lra. }
  destruct (proj2 (proj2 (C95_ringing (sped_up rho c))) (jury_poles _ J)) as [G HG].
  exists (forward_weight (sped_up rho c) * G * A). split; [|apply falls_filter with G; [exact HG|lra]].
  repeat apply Rmult_le_pos; [apply forward_pos|now apply (ringing_pos (sped_up rho c))|exact PA].
Qed.

Lemma stable_rate p : stable p -> exists r0, 0 < r0 < 1 /\ has_rate p r0.
Proof.
  induction 1 as [l|l p g Ne Hp Hg|l Ne|c Hc|g|p q _ (r1 & R1 & I1) _ (r2 & R2 & I2)|p q _ (r1 & R1 & I1) _ (r2 & R2 & I2)].
  - exists (1 / 2). split; [lra|apply delay_rate].
  - now apply comb_rate.
  - now apply pass_rate.
  - now apply filter_rate.
  - exists (1 / 2). split; [lra|]. intros rho Hr A PA. exists (Rabs g * A). split; [apply Rmult_le_pos; [apply Rabs_pos|exact PA]|]. constructor. lra.
  - exists (Rmax r1 r2). pose proof (Rmax_l r1 r2). pose proof (Rmax_r r1 r2). split; [split; [lra|apply Rmax_lub_lt; lra]|]. intros rho Hr A PA.
    destruct (I1 rho ltac:(lra) A PA) as (B & PB & F1). destruct (I2 rho ltac:(lra) B PB) as (C & PC & F2). exists C. split; [exact PC|]. now apply falls_series with B.
  - exists (Rmax r1 r2). pose proof (Rmax_l r1 r2). pose proof (Rmax_r r1 r2). split; [split; [lra|apply Rmax_lub_lt; lra]|]. intros rho Hr A PA.
    destruct (I1 rho ltac:(lra) A PA) as (B & PB & F1). destruct (I2 rho ltac:(lra) A PA) as (C & PC & F2). exists (B + C). split; [lra|]. apply falls_mix with B C; auto. lra.
Qed.
