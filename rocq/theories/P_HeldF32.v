(** * Proofs: the gain of a schedule that holds its settings (C110). *)

From Coq Require Import ZArith List Bool Reals Lia Lra Psatz.
From Flocq Require Import Core.
From Verif Require Import Base F32 Num M_Biquad S_Biquad S_BiquadF32 S_Sweep S_SweepF32 P_Biquad P_Sweep P_SlowSweep P_BiquadF32 T_BiquadF32 T_Sweep.
Local Open Scope R_scope.

(** The impulse response of the recursive part. *)
Definition imp (c : coeffs R) : nat -> R := response (bq_new (recursive c)) unit_impulse.

Lemma ringing_decays c G : ringing c G -> forall eps, 0 < eps -> exists N, forall n, (N <= n)%nat -> Rabs (imp c n) <= eps.
Proof.
  intros H eps He. set (s := sum_f_R0 (fun n => Rabs (imp c n))).
  assert (Gr : Un_growing s) by (intros n; unfold s; rewrite tech5; pose proof (Rabs_pos (imp c (S n))); lra).
  assert (Ub : has_ub s) by (exists G; intros y [n ->]; apply H).
  destruct (growing_cv s Gr Ub) as [l Hl]. destruct (Hl (eps / 2) ltac:(lra)) as [N HN]. exists (S N). intros n Hn.
  destruct n as [|n]; [lia|]. pose proof (HN (S n) ltac:(lia)) as A. pose proof (HN n ltac:(lia)) as B. unfold R_dist in A, B.
  assert (E : Rabs (imp c (S n)) = s (S n) - s n) by (unfold s; rewrite tech5; ring).
  apply Rabs_def2 in A, B. lra.
Qed.

Lemma list_decays (l : list (coeffs R)) G : (forall c, In c l -> ringing c G) -> forall eps, 0 < eps ->
  exists N, forall c, In c l -> forall n, (N <= n)%nat -> Rabs (imp c n) <= eps.
Proof.
  intros H eps He. induction l as [|d l IH]; [exists O; intros c []|].
  destruct IH as [N HN]; [intros c Hc; apply H; now right|]. destruct (ringing_decays d G (H d (or_introl eq_refl)) eps He) as [N' HN'].
  exists (Nat.max N N'). intros c [<-|Hc] n Hn; [apply HN'|apply HN; [exact Hc|]]; lia.
Qed.

Section Held.
Variable l : list (coeffs R).
Variables G P p1 p2 : R.
Let W := p1 + 2 * p2.
Hypothesis HP : 0 <= P.
Hypothesis HG : 0 <= G.
Hypothesis Hl : forall d, In d l -> ringing d G /\ peak d P /\ Rabs (a1 d) <= p1 /\ Rabs (a2 d) <= p2.
Variable N : nat.
Hypothesis HN : forall d, In d l -> forall n, (N <= n)%nat -> Rabs (imp d n) <= / (W * (G + 1) + 1).
Variable c : nat -> coeffs R.
Hypothesis Hc : forall n, In (c n) l.
Hypothesis Hh : held (N + 3) c.
Variable u : nat -> R.
Variable S0 : R.
Hypothesis Hu : forall k, Rabs (u k) <= S0.

Let y := response_var (bq_new (recursive (c 0%nat))) (fun k => recursive (c k)) u.
Let Z1 s := - ago 1 (fun i => a1 (c i) * y i) s - ago 2 (fun i => a2 (c i) * y i) s.
Let Z2 s := - ago 1 (fun i => a2 (c i) * y i) s.
Let F s := response (bq_new (recursive (c s))) (fun k => u (s + k)%nat).

Lemma y_rec n : y n = u n - ago 1 (fun i => a1 (c i) * y i) n - ago 2 (fun i => a2 (c i) * y i) n.
Proof.
  unfold y at 1. rewrite (C110_coefficients_in_force (fun i => recursive (c i)) u n). cbn [recursive b0 b1 b2 a1 a2]. fold y.
  unfold ago. destruct (n <? 1)%nat; destruct (n <? 2)%nat; ring.
Qed.

Lemma imp_rec d n : imp d n = unit_impulse n - a1 d * ago 1 (imp d) n - a2 d * ago 2 (imp d) n.
Proof.
  unfold imp at 1. rewrite response_rest. cbn [recursive b0 b1 b2 a1 a2]. fold (imp d). ring.
Qed.

(** A segment: the answer to its own input from rest, plus what the state at its start rings on. *)
Lemma segment s j : (forall i, (s <= i < s + j)%nat -> c i = c s) -> y (s + j)%nat = F s j + Z1 s * imp (c s) j + Z2 s * ago 1 (imp (c s)) j.
Proof.
  induction j as [j IH] using (well_founded_induction Wf_nat.lt_wf). intros H.
  assert (FR : forall k, F s k = u (s + k)%nat - a1 (c s) * ago 1 (F s) k - a2 (c s) * ago 2 (F s) k).
  { intros k. unfold F at 1. rewrite response_rest. cbn [recursive b0 b1 b2 a1 a2]. fold (F s). ring. }
  rewrite FR, (imp_rec (c s) j). rewrite y_rec. destruct j as [|[|j]].
  - rewrite Nat.add_0_r. unfold ago at 3 4 5 6 7. cbn [Nat.ltb Nat.leb unit_impulse]. unfold Z1. ring.
  - assert (I1 : imp (c s) 0 = 1) by (rewrite imp_rec; unfold ago; cbn [Nat.ltb Nat.leb unit_impulse]; ring).
    pose proof (IH 0%nat ltac:(lia) ltac:(intros; lia)) as I0. rewrite Nat.add_0_r, I1 in I0.
    assert (A1 : forall v, ago 1 v (s + 1)%nat = v s) by (intros v; unfold ago; destruct (Nat.ltb_spec (s + 1) 1); [lia|f_equal; lia]).
    assert (A2 : forall v, ago 2 v (s + 1)%nat = ago 1 v s) by (intros v; unfold ago; destruct (Nat.ltb_spec (s + 1) 2); destruct (Nat.ltb_spec s 1); try lia; [reflexivity|f_equal; lia]).
    assert (B1 : forall v : nat -> R, ago 1 v 1 = v 0%nat) by reflexivity. assert (B2 : forall v : nat -> R, ago 2 v 1 = 0) by reflexivity. assert (B0 : forall v : nat -> R, ago 1 v 0 = 0) by reflexivity.
    rewrite A1, A2, !B1, !B2, I0, I1, B0. unfold Z2. cbn [unit_impulse]. ring.
  - assert (A1 : forall v, ago 1 v (s + S (S j))%nat = v (s + S j)%nat) by (intros v; unfold ago; destruct (Nat.ltb_spec (s + S (S j)) 1); [lia|f_equal; lia]).
    assert (A2 : forall v, ago 2 v (s + S (S j))%nat = v (s + j)%nat) by (intros v; unfold ago; destruct (Nat.ltb_spec (s + S (S j)) 2); [lia|f_equal; lia]).
    assert (B1 : forall k (v : nat -> R), ago 1 v (S k) = v k) by (intros; unfold ago; cbn [Nat.ltb Nat.leb Nat.sub]; now rewrite Nat.sub_0_r).
    assert (B2 : forall (v : nat -> R), ago 2 v (S (S j)) = v j) by (intros; unfold ago; cbn [Nat.ltb Nat.leb Nat.sub]; now rewrite Nat.sub_0_r).
    assert (B3 : forall (v : nat -> R), ago 2 v (S j) = ago 1 v j) by (intros; destruct j as [|k]; reflexivity).
    rewrite A1, A2, !B1, !B2. rewrite (H (s + S j)%nat), (H (s + j)%nat) by lia.
    rewrite (IH (S j)) by (try lia; intros i Hi; apply H; lia). rewrite (IH j) by (try lia; intros i Hi; apply H; lia).
    rewrite !B1. rewrite (imp_rec (c s) (S j)), !B1, B3. cbn [unit_impulse]. ring.
Qed.

Lemma S0_pos : 0 <= S0.
Proof. pose proof (Rabs_pos (u 0%nat)). pose proof (Hu 0%nat). lra. Qed.

Lemma forced s j : Rabs (F s j) <= G * S0.
Proof.
  unfold F. eapply Rle_trans; [apply superpose with (S := S0); [apply S0_pos|intros; apply Hu]|]. rewrite Rmult_comm.
  apply Rmult_le_compat_r; [apply S0_pos|]. apply (Hl (c s) (Hc s)).
Qed.

(** Where a setting begins, the last two outputs are within (G + 1) S0. *)
Definition low s := Rabs (ago 1 y s) <= (G + 1) * S0 /\ Rabs (ago 2 y s) <= (G + 1) * S0.

Lemma state s : low s -> Rabs (Z1 s) + Rabs (Z2 s) <= W * ((G + 1) * S0).
Proof.
  intros [B1 B2]. set (K := (G + 1) * S0) in *. assert (K0 : 0 <= K) by (pose proof (Rabs_pos (ago 1 y s)); lra).
  assert (P0 : 0 <= p1 /\ 0 <= p2) by (destruct (Hl (c 0%nat) (Hc 0%nat)) as (_ & _ & L1 & L2); pose proof (Rabs_pos (a1 (c 0%nat))); pose proof (Rabs_pos (a2 (c 0%nat))); lra).
  assert (A11 : Rabs (ago 1 (fun i => a1 (c i) * y i) s) <= p1 * K).
  { unfold ago in *. destruct (s <? 1)%nat; [rewrite Rabs_R0; apply Rmult_le_pos; tauto|]. rewrite Rabs_mult. apply Rmult_le_compat; try apply Rabs_pos; [apply (Hl _ (Hc _))|exact B1]. }
  assert (A21 : Rabs (ago 1 (fun i => a2 (c i) * y i) s) <= p2 * K).
  { unfold ago in *. destruct (s <? 1)%nat; [rewrite Rabs_R0; apply Rmult_le_pos; tauto|]. rewrite Rabs_mult. apply Rmult_le_compat; try apply Rabs_pos; [apply (Hl _ (Hc _))|exact B1]. }
  assert (A22 : Rabs (ago 2 (fun i => a2 (c i) * y i) s) <= p2 * K).
  { unfold ago in *. destruct (s <? 2)%nat; [rewrite Rabs_R0; apply Rmult_le_pos; tauto|]. rewrite Rabs_mult. apply Rmult_le_compat; try apply Rabs_pos; [apply (Hl _ (Hc _))|exact B2]. }
  unfold Z1, Z2. rewrite Rabs_Ropp. unfold Rminus. eapply Rle_trans; [apply Rplus_le_compat_r, Rabs_triang|]. rewrite !Rabs_Ropp. unfold W. lra.
Qed.

Lemma W_pos : 0 <= W.
Proof. destruct (Hl (c 0%nat) (Hc 0%nat)) as (_ & _ & L1 & L2). pose proof (Rabs_pos (a1 (c 0%nat))). pose proof (Rabs_pos (a2 (c 0%nat))). unfold W. lra. Qed.

(** With the impulse response within [e] at the two samples in question. *)
Lemma seg_bound s j e : 0 <= e -> low s -> (forall i, (s <= i < s + j)%nat -> c i = c s) -> Rabs (imp (c s) j) <= e -> Rabs (ago 1 (imp (c s)) j) <= e ->
  Rabs (y (s + j)%nat) <= G * S0 + e * (W * ((G + 1) * S0)).
Proof.
  intros He Hlow H I1 I2. rewrite (segment s j H). pose proof (state s Hlow) as ST. pose proof (forced s j) as FO.
  eapply Rle_trans; [apply Rabs_triang|]. eapply Rle_trans; [apply Rplus_le_compat_r, Rabs_triang|]. rewrite !Rabs_mult.
  pose proof (Rmult_le_compat_l _ _ _ (Rabs_pos (Z1 s)) I1). pose proof (Rmult_le_compat_l _ _ _ (Rabs_pos (Z2 s)) I2).
  pose proof (Rmult_le_compat_r _ _ _ He ST). lra.
Qed.

Lemma start_low j : (forall i, (i < j)%nat -> c i = c 0%nat) -> Rabs (y j) <= G * S0.
Proof.
  intros H. replace (y j) with (y (0 + j)%nat) by reflexivity. rewrite segment by (intros; apply H; lia).
  replace (Z1 0) with 0 by (unfold Z1, ago; cbn [Nat.ltb Nat.leb]; ring). replace (Z2 0) with 0 by (unfold Z2, ago; cbn [Nat.ltb Nat.leb]; ring).
  rewrite !Rmult_0_l, !Rplus_0_r. apply forced.
Qed.

Lemma segments n : exists s, (s <= n)%nat /\ (forall i, (s <= i <= n)%nat -> c i = c s) /\ low s /\ (s = 0%nat \/ exists p, s = S p /\ c (S p) <> c p).
Proof.
  pose proof S0_pos as PS. assert (PK : 0 <= (G + 1) * S0) by (apply Rmult_le_pos; lra).
  induction n as [|n (s & Ls & E & Lo & O)].
  - exists 0%nat. split; [lia|]. split; [intros i Hi; f_equal; lia|]. split; [|now left]. unfold low, ago. cbn [Nat.ltb Nat.leb]. rewrite Rabs_R0. auto.
  - destruct (coeffs_eq_dec (c (S n)) (c n)) as [Q|Q].
    + exists s. split; [lia|]. split; [|auto]. intros i Hi. destruct (Nat.eq_dec i (S n)) as [->|]; [rewrite Q|]; apply E; lia.
    + exists (S n). split; [lia|]. split; [intros i Hi; f_equal; lia|]. split; [|right; exists n; auto].
      destruct O as [->|(p & -> & Hp)].
      * assert (B : forall k, (k <= n)%nat -> Rabs (y k) <= (G + 1) * S0).
        { intros k Hk. eapply Rle_trans; [apply start_low; intros i Hi; apply E; lia|]. apply Rmult_le_compat_r; lra. }
        unfold low, ago. split.
        -- destruct (Nat.ltb_spec (S n) 1); [lia|]. apply B. lia.
        -- destruct (Nat.ltb_spec (S n) 2); [rewrite Rabs_R0; exact PK|]. apply B. lia.
      * assert (LN : (S p + (N + 3) <= S n)%nat).
        { destruct (Nat.le_gt_cases (S p + (N + 3)) (S n)) as [X|X]; [exact X|exfalso]. apply Q.
          pose proof (Hh p Hp (S n - S p)%nat ltac:(lia)) as T. replace (S p + (S n - S p))%nat with (S n) in T by lia. rewrite T. symmetry. apply E. lia. }
        assert (PD : 0 < W * (G + 1) + 1) by (pose proof (Rmult_le_pos W (G + 1) W_pos ltac:(lra)); lra).
        assert (B : forall k, (S p + N + 1 <= k <= n)%nat -> Rabs (y k) <= (G + 1) * S0).
        { intros k Hk. replace k with (S p + (k - S p))%nat by lia. eapply Rle_trans.
          - apply (seg_bound (S p) (k - S p) (/ (W * (G + 1) + 1))).
            + left. now apply Rinv_0_lt_compat.
            + exact Lo.
            + intros i Hi. apply E. lia.
            + apply HN; [apply Hc|lia].
            + unfold ago. destruct (Nat.ltb_spec (k - S p) 1); [lia|]. apply HN; [apply Hc|lia].
          - assert (X : / (W * (G + 1) + 1) * (W * ((G + 1) * S0)) <= S0); [|lra].
            replace (/ (W * (G + 1) + 1) * (W * ((G + 1) * S0))) with (S0 * (W * (G + 1) * / (W * (G + 1) + 1))) by ring.
            rewrite <- (Rmult_1_r S0) at 2. apply Rmult_le_compat_l; [exact PS|]. apply Rmult_le_reg_r with (W * (G + 1) + 1); [exact PD|].
            rewrite Rmult_assoc, Rinv_l by lra. lra. }
        unfold low, ago. destruct (Nat.ltb_spec (S n) 1); [lia|]. destruct (Nat.ltb_spec (S n) 2); [lia|]. split; apply B; lia.
Qed.

Lemma held_gain n : Rabs (y n) <= (G + P * W * (G + 1)) * S0.
Proof.
  destruct (segments n) as (s & Ls & E & Lo & _). replace n with (s + (n - s))%nat by lia.
  eapply Rle_trans; [apply (seg_bound s (n - s) P HP Lo)|right; ring].
  - intros i Hi. apply E. lia.
  - apply (Hl _ (Hc s)).
  - unfold ago. destruct (n - s <? 1)%nat; [rewrite Rabs_R0; exact HP|]. apply (Hl _ (Hc s)).
Qed.
End Held.

(** How high a filter peaks: 1 / (1 - sqrt a2) for a complex pair of poles, 1 / (1 - |u|) for real ones. *)
Lemma peak_sum c r Q : 0 <= r < 1 -> 0 <= Q <= 1 -> (forall n, Rabs (imp c (S n)) <= r * Rabs (imp c n) + Q ^ S n) -> peak c (/ (1 - r)).
Proof.
  intros Hr HQ H n. change (Rabs (imp c n) <= / (1 - r)). assert (I : 0 < / (1 - r)) by (apply Rinv_0_lt_compat; lra).
  assert (E : 1 + r * / (1 - r) = / (1 - r)) by (field; lra).
  induction n as [|n IH].
  - unfold imp. rewrite response_rest. unfold ago. cbn [Nat.ltb Nat.leb recursive b0 b1 b2 a1 a2 unit_impulse]. replace (1 * 1 + 0 * 0 + 0 * 0 - a1 c * 0 - a2 c * 0) with 1 by ring. rewrite Rabs_R1.
    pose proof (Rmult_le_pos r (/ (1 - r)) ltac:(lra) ltac:(lra)). lra.
  - eapply Rle_trans; [apply H|]. assert (Q ^ S n <= 1) by (rewrite <- (pow1 (S n)); apply pow_incr; lra).
    pose proof (Rmult_le_compat_l r _ _ (proj1 Hr) IH). lra.
Qed.
