(** * Proof library for C120: how fast a network dies away while its settings are moved. *)

From Coq Require Import ZArith List Bool Reals Lia Lra Psatz.
From Flocq Require Import Core.
From Verif Require Import Base F32 F32Lemmas F32Range Num M_Memory M_Delay M_Biquad S_Memory S_Delay S_Biquad S_BiquadF32 S_Network S_SweepF32 S_Live S_Reverb S_LiveReverb
  P_DelayNum P_Comb P_NetworkLin P_NetworkAcc P_NetworkTail P_Decay P_SweepF32 P_Live P_Reverb P_LiveAcc T_Sweep T_SweepTrack.
Import ListNotations.
Local Open Scope R_scope.

Section Falls.
Variables (rho : R) (N : nat).
Hypothesis Hr : 0 < rho <= 1.
Notation w := (w rho N).

(** All samples of a list are within [A] and fall by [rho] from sample [N] on. *)
Definition under (A : R) (xs : list R) : Prop := forall k, Rabs (nth k xs 0) <= A * w k.

Lemma under_pos A xs : under A xs -> 0 <= A.
Proof. intros H. apply (pos_in rho N Hr A (fun k => nth k xs 0)), H. Qed.

Lemma list_seq (xs : list R) : xs = map (fun k => nth k xs 0) (seq 0 (length xs)).
Proof.
  apply nth_ext with 0 (nth (length xs) xs 0); [now rewrite map_length, seq_length|]. intros i Hi.
  rewrite (nth_indep (map _ _) _ (nth 0 xs 0)) by (now rewrite map_length, seq_length).
  rewrite (map_nth (fun k => nth k xs 0)), seq_nth by exact Hi. reflexivity.
Qed.

Lemma under_map A (y : nat -> R) n : 0 <= A -> (forall k, Rabs (y k) <= A * w k) -> under A (map y (seq 0 n)).
Proof.
  intros P H k. destruct (Nat.lt_ge_cases k n) as [L|L].
  - rewrite (nth_indep _ 0 (y 0%nat)) by (now rewrite map_length, seq_length). rewrite (map_nth y), seq_nth by exact L. apply H.
  - rewrite nth_overflow by (now rewrite map_length, seq_length). rewrite Rabs_R0. apply Rmult_le_pos; [exact P|left; now apply w_pos].
Qed.

(** Parts without settings *)
Lemma still_under p A B xs : falls rho p A B -> 0 <= B -> under A xs -> under B (signal p xs).
Proof.
  intros F PB H. rewrite (list_seq xs), signal_stream. apply under_map; [exact PB|]. intros k. now apply (falls_sound rho N Hr p A B F).
Qed.

(** The comb *)
Lemma level_above B T P : P < 1 -> 0 <= P -> 0 <= T -> (1 - P) * B + P * (T / rho) <= T -> B <= T.
Proof.
  intros H1 H0 PT H. assert (I : 1 <= / rho) by (rewrite <- Rinv_1; apply Rinv_le_contravar; lra).
  assert (T <= T / rho) by (unfold Rdiv; rewrite <- (Rmult_1_r T) at 1; apply Rmult_le_compat_l; assumption).
  assert (P * T <= P * (T / rho)) by (apply Rmult_le_compat_l; assumption). assert ((1 - P) * B <= (1 - P) * T) by lra. apply Rmult_le_reg_l with (1 - P); lra.
Qed.

Lemma comb_live n A B T P f : (0 < n)%nat -> 0 <= A -> 0 <= B -> 0 <= P -> P < 1 -> 0 <= T -> (1 - P) * B + P * (T / rho) <= T -> A + f * T <= B * rho ^ n ->
  forall evs u, length u = length (inputs evs) -> Forall (comb_within P f) evs ->
  forall d m s p g, 0 <= p <= P -> Rabs g <= f -> length d = (m + n)%nat ->
    (forall i, (m <= i < m + n)%nat -> Rabs (nth i d 0) <= B * w i) -> Rabs s <= T / rho * w m -> (forall i, Rabs (nth i u 0) <= A * w (m + i)) ->
    forall i, Rabs (nth i (combR d m s p g (comb_events (feed evs u))) 0) <= B * w (m + i).
Proof.
  intros Hn PA PB P0 P1 PT H1 H2. pose proof (level_above B T P P1 P0 PT H1) as BT.
  assert (Nil : forall m i, Rabs (nth i [] 0) <= B * w (m + i)).
  { intros m i. destruct i; cbn [nth]; rewrite Rabs_R0; apply Rmult_le_pos; try exact PB; left; now apply w_pos. }
  induction evs as [|ev evs IH]; intros u LU Hm d m s p g Hp Hg Ld Hd Hs Hu; [exact (Nil m)|].
  inversion Hm as [|? ? Hev Hm']; subst. destruct ev as [x|v k]; cbn [inputs feed] in *.
  - destruct u as [|a u]; [cbn in LU; discriminate|]. cbn [comb_events comb_spec]. rewrite nint_0. cbv zeta. replace (nint 1 : R) with 1 by (now rewrite nint_R). cbn [nadd nsub nmul num_R].
    set (y := nth m d 0). assert (Y : Rabs y <= B * w m) by (apply Hd; lia). set (s' := y * (1 - p) + s * p). pose proof (w_pos rho N Hr m) as Pw.
    assert (S' : Rabs s' <= T * w m).
    { unfold s'. eapply Rle_trans; [apply Rabs_triang|]. rewrite !Rabs_mult, (Rabs_pos_eq p), (Rabs_pos_eq (1 - p)) by lra.
      assert (Q1 : Rabs y * (1 - p) <= B * w m * (1 - p)) by (apply Rmult_le_compat_r; lra).
      assert (Q2 : Rabs s * p <= T / rho * w m * p) by (apply Rmult_le_compat_r; lra).
      apply Rle_trans with (((1 - p) * B + p * (T / rho)) * w m); [lra|]. apply Rmult_le_compat_r; [lra|].
      assert (TR : B <= T / rho).
      { assert (I : 1 <= / rho) by (rewrite <- Rinv_1; apply Rinv_le_contravar; lra). apply Rle_trans with T; [exact BT|]. unfold Rdiv. rewrite <- (Rmult_1_r T) at 1. apply Rmult_le_compat_l; assumption. }
      assert (p * (T / rho - B) <= P * (T / rho - B)) by (apply Rmult_le_compat_r; lra). lra. }
    intros [|i]; [cbn [nth]; rewrite Nat.add_0_r; exact Y|]. cbn [nth]. rewrite Nat.add_succ_r, <- Nat.add_succ_l. cbn [length] in LU. injection LU as LU. apply IH; auto.
    + rewrite app_length, Ld. cbn. lia.
    + intros j Hj. destruct (Nat.lt_ge_cases j (m + n)) as [L|L].
      * rewrite app_nth1 by lia. apply Hd. lia.
      * replace j with (m + n)%nat by lia. rewrite app_nth2, Ld, Nat.sub_diag by lia. cbn [nth].
        apply Rle_trans with ((A + f * T) * w m); [|now apply up].
        eapply Rle_trans; [apply Rabs_triang|]. rewrite Rabs_mult. pose proof (Hu 0%nat) as H0. cbn [nth] in H0. rewrite Nat.add_0_r in H0.
        assert (Rabs s' * Rabs g <= T * w m * f) by (apply Rmult_le_compat; auto using Rabs_pos). lra.
    + apply Rle_trans with (T * w m); [exact S'|]. pose proof (w_add rho N Hr m 1) as Wa. rewrite pow_1, Nat.add_1_r in Wa.
      replace (T * w m) with (T / rho * (rho * w m)) by (field; lra). apply Rmult_le_compat_l; [|exact Wa]. apply Rmult_le_pos; [lra|left; apply Rinv_0_lt_compat; lra].
    + intros j. specialize (Hu (S j)). cbn [nth] in Hu. now rewrite Nat.add_succ_r, <- Nat.add_succ_l in Hu.
  - destruct v as [|t v]; [destruct k|]; cbn [comb_events comb_spec]; apply IH; auto.
Qed.

(** The filter *)
Lemma scaled_var (c : nat -> coeffs R) (x : nat -> R) t : forall n,
  response_var (bq_new (sped_up rho (c 0%nat))) (fun k => sped_up rho (c k)) (fun k => x k * t / rho ^ k) n = response_var (bq_new (c 0%nat)) c x n * t / rho ^ n.
Proof.
  assert (NZ : forall k, rho ^ k <> 0) by (intros k; apply pow_nonzero; lra).
  pose proof (C110_coefficients_in_force c x) as E. cbv zeta in E.
  pose proof (C110_coefficients_in_force (fun k => sped_up rho (c k)) (fun k => x k * t / rho ^ k)) as E'. cbv zeta in E'.
  set (y := response_var (bq_new (c 0%nat)) c x) in *. set (y' := response_var (bq_new (sped_up rho (c 0%nat))) (fun k => sped_up rho (c k)) (fun k => x k * t / rho ^ k)) in *.
  clearbody y y'. induction n as [n IH] using (well_founded_induction lt_wf). rewrite E, E'. unfold ago.
  destruct n as [|[|n]]; cbn [Nat.ltb Nat.leb Nat.sub sped_up b0 b1 b2 a1 a2].
  - cbn [pow]. field.
  - rewrite (IH 0%nat) by lia. cbn [pow]. field. lra.
  - rewrite Nat.sub_0_r, (IH n), (IH (S n)) by lia. cbn [pow]. field. split; [apply NZ|lra].
Qed.

Lemma filter_live (c : nat -> coeffs R) m A B G (x : nat -> R) : (forall k, within_limits m (sped_up rho (c k))) -> sweep_gain (fun k => sped_up rho (c k)) G ->
  forward_weight m * G * A <= B -> (forall k, Rabs (x k) <= A * w k) -> forall k, Rabs (response_var (bq_new (c 0%nat)) c x k) <= B * w k.
Proof.
  intros Hm HG HB Hx n. pose proof (pos_in rho N Hr A x Hx) as PA. pose proof (w_pos rho N Hr n) as Pw.
  assert (NZ : forall k, 0 < rho ^ k) by (intros k; apply pow_lt; lra).
  replace (response_var (bq_new (c 0%nat)) c x n) with (response_var (bq_new (sped_up rho (c 0%nat))) (fun k => sped_up rho (c k)) (fun k => x k * rho ^ n / rho ^ k) n)
    by (rewrite scaled_var; field; apply Rgt_not_eq, NZ).
  set (u := fun k => if (k <=? n)%nat then x k * rho ^ n / rho ^ k else 0).
  rewrite (var_ext _ _ _ u) by (intros k Hk; unfold u; now rewrite (proj2 (Nat.leb_le k n))).
  assert (Z : forall k, response_var (bq_new (sped_up rho (c 0%nat))) (fun k => sped_up rho (c k)) (fun _ => 0) k = 0).
  { pose proof (C110_coefficients_in_force (fun k => sped_up rho (c k)) (fun _ => 0)) as E. cbv zeta in E. set (y := response_var _ _ _) in *. clearbody y.
    induction k as [k IH] using (well_founded_induction lt_wf). rewrite E. unfold ago.
    assert (Q1 : (if Nat.ltb k 1 then 0 else b1 (sped_up rho (c (k - 1)%nat)) * 0 - a1 (sped_up rho (c (k - 1)%nat)) * y (k - 1)%nat) = 0) by (destruct (Nat.ltb_spec k 1); [reflexivity|rewrite IH by lia; ring]).
    assert (Q2 : (if Nat.ltb k 2 then 0 else b2 (sped_up rho (c (k - 2)%nat)) * 0 - a2 (sped_up rho (c (k - 2)%nat)) * y (k - 2)%nat) = 0) by (destruct (Nat.ltb_spec k 2); [reflexivity|rewrite IH by lia; ring]).
    rewrite Q1, Q2. ring. }
  pose proof (var_lip (fun k => sped_up rho (c k)) m G (A * w n) u (fun _ => 0) Hm HG ltac:(apply Rmult_le_pos; lra)) as V. cbv beta in V.
  match goal with |- Rabs ?y <= _ => replace y with (y - response_var (bq_new (sped_up rho (c 0%nat))) (fun k => sped_up rho (c k)) (fun _ => 0) n) by (rewrite Z; ring) end. eapply Rle_trans; [apply V|].
  - intros k. rewrite Rminus_0_r. unfold u. destruct (Nat.leb_spec k n) as [L|L]; [|rewrite Rabs_R0; apply Rmult_le_pos; lra].
    unfold Rdiv. rewrite !Rabs_mult, Rabs_inv, (Rabs_pos_eq (rho ^ n)), (Rabs_pos_eq (rho ^ k)) by (left; apply NZ).
    assert (P : rho ^ n * / rho ^ k = rho ^ (n - k)).
    { replace n with ((n - k) + k)%nat at 1 by lia. rewrite pow_add. field. apply Rgt_not_eq, NZ. }
    rewrite Rmult_assoc, P. apply Rle_trans with (A * w k * rho ^ (n - k)); [apply Rmult_le_compat_r; [left; apply NZ|apply Hx]|].
    rewrite Rmult_assoc. apply Rmult_le_compat_l; [exact PA|]. unfold P_Reverb.w. rewrite <- pow_add. apply pow_anti; [exact Hr|lia].
  - apply Rle_trans with (forward_weight m * G * A * w n); [right; ring|]. apply Rmult_le_compat_r; lra.
Qed.

Lemma added_under B C : forall xs ys, under B xs -> under C ys -> under (B + C) (added xs ys).
Proof.
  intros xs ys H1 H2 k. pose proof (under_pos _ _ H1). pose proof (under_pos _ _ H2).
  assert (Q : nth k (added xs ys) 0 = nth k xs 0 + nth k ys 0 \/ nth k (added xs ys) 0 = 0).
  { clear. revert ys k. induction xs as [|x xs IH]; intros ys k; [right; destruct k; reflexivity|]. destruct ys as [|y ys]; [right; destruct k; reflexivity|]. destruct k as [|k]; [left; reflexivity|]. exact (IH ys k). }
  destruct Q as [-> | ->].
  - eapply Rle_trans; [apply Rabs_triang|]. pose proof (H1 k). pose proof (H2 k). lra.
  - rewrite Rabs_R0. apply Rmult_le_pos; [lra|left; now apply w_pos].
Qed.

Lemma live_falls_sound p evs A B : live_falls rho p evs A B -> forall u, length u = length (inputs evs) -> under A u -> under B (live_signal p (feed evs u)).
Proof.
  induction 1 as [l evs A B H1 H2|l p g evs A B T P f Ne Hp HP Hg Hm PT H1 H2 Hl|l evs A B V Ne H1 Hl H2|d evs A B c m G Hc Hm HG HB|g evs A B K Hg Hm HB|p q evs A B C F1 I1 F2 I2|p q evs A B C D F1 I1 F2 I2 H]; intros u LU Hu; pose proof (under_pos A u Hu) as PA; cbn [live_signal].
  - rewrite feed_inputs by exact LU. apply (still_under (PDelay l) A B); [now constructor| |exact Hu]. exact (pos_of rho Hr A B _ PA H1).
  - pose proof (pos_buf rho Hr l B Ne Hl) as PB. assert (Hn : (0 < length l)%nat) by (destruct l; [congruence|cbn; lia]). intros k. rewrite nint_0.
    apply (comb_live (length l) A B T P f Hn PA PB ltac:(lra) HP PT H1 H2 evs u LU Hm l 0 0 p g Hp Hg); auto.
    + intros i Hi. apply first_ok; auto. lia.
    + rewrite Rabs_R0. apply Rmult_le_pos; [apply Rmult_le_pos; [exact PT|left; apply Rinv_0_lt_compat; lra]|left; now apply w_pos].
  - rewrite feed_inputs by exact LU. apply (still_under (PPass l) A B); [now apply falls_pass with V| |exact Hu]. pose proof (pos_buf rho Hr l V Ne Hl). lra.
  - rewrite (live_filter_runs c 0 (fun n => nth n u 0) (bq_new (c 0%nat)) (feed evs u) (bq_new d) 0); try reflexivity.
    + apply under_map; [|now apply filter_live with m A G]. eapply Rle_trans; [|exact HB]. repeat apply Rmult_le_pos; [apply forward_pos| |exact PA]. apply sweep_1 in HG. lra.
    + cbn [bq_new bq_coeffs]. rewrite in_force_feed by exact LU. exact Hc.
    + intros i _. now rewrite feed_inputs.
  - assert (PK : 0 <= K) by (pose proof (Rabs_pos g); lra). assert (PB : 0 <= B) by (pose proof (Rmult_le_pos _ _ PK PA); lra).
    assert (G : forall evs u m g, Rabs g <= K -> Forall (gain_within K) evs -> length u = length (inputs evs) -> (forall i, Rabs (nth i u 0) <= A * w (m + i)) ->
      forall i, Rabs (nth i (live_gain g (feed evs u)) 0) <= B * w (m + i)).
    { assert (Nil : forall m i, Rabs (nth i [] 0) <= B * w (m + i)) by (intros m i; destruct i; cbn [nth]; rewrite Rabs_R0; apply Rmult_le_pos; try exact PB; left; now apply w_pos).
      clear evs u g LU Hu Hg Hm. induction evs as [|ev evs IH]; intros u m g Hg Hm LU Hu; [exact (Nil m)|]. inversion Hm as [|? ? Hev Hm']; subst. destruct ev as [x|v k]; cbn [inputs feed] in *.
      - destruct u as [|a u]; [cbn in LU; discriminate|]. cbn [live_gain]. intros [|i].
        + cbn [nth nmul num_R]. rewrite Nat.add_0_r. pose proof (Hu 0%nat) as H0. cbn [nth] in H0. rewrite Nat.add_0_r in H0. pose proof (w_pos rho N Hr m) as Pw. rewrite Rabs_mult.
          apply Rle_trans with (A * w m * K); [apply Rmult_le_compat; auto using Rabs_pos|]. replace (A * w m * K) with (K * A * w m) by ring. apply Rmult_le_compat_r; lra.
        + cbn [nth]. rewrite Nat.add_succ_r, <- Nat.add_succ_l. cbn [length] in LU. injection LU as LU. apply IH; auto.
          intros j. specialize (Hu (S j)). cbn [nth] in Hu. now rewrite Nat.add_succ_r, <- Nat.add_succ_l in Hu.
      - destruct v as [|t v]; [destruct k|]; cbn [live_gain]; apply IH; auto. }
    exact (G evs u 0%nat g Hg Hm LU Hu).
  - rewrite !branch_feed, (feed_feed _ u) by (rewrite branch_inputs; exact LU).
    assert (LB : length u = length (inputs (branch true evs))) by (rewrite branch_inputs; exact LU).
    apply I2; [|now apply I1]. rewrite live_signal_length, feed_inputs by exact LB. rewrite branch_inputs. exact LU.
  - rewrite !branch_feed. intros k. apply Rle_trans with ((B + C) * w k).
    + apply added_under; [apply I1|apply I2]; auto; now rewrite branch_inputs.
    + apply Rmult_le_compat_r; [left; now apply w_pos|exact H].
Qed.
End Falls.

(** ** One rate for all histories within the limits *)
Lemma in_force_mild s W : forall evs d, mild s W d -> Forall (filter_within s W) evs -> forall c, In c (in_force d evs) -> mild s W c.
Proof.
  induction evs as [|ev evs IH]; intros d Hd Hm c Hc; [destruct Hc|]. inversion Hm as [|? ? Hev Hm']; subst.
  destruct ev as [x|v k]; cbn [in_force] in Hc.
  - destruct Hc as [<-|Hc]; [exact Hd|exact (IH d Hd Hm' c Hc)].
  - destruct v as [|t v]; [destruct k|]; cbn [in_force] in Hc; try (exact (IH d Hd Hm' c Hc)). exact (IH _ Hev Hm' c Hc).
Qed.

Lemma mild_filter_falls s W : 0 < s < 1 -> forall rho, (1 + s) / 2 <= rho <= 1 -> forall A, 0 <= A -> exists B, 0 <= B /\
  forall d evs, mild s W d -> Forall (filter_within s W) evs -> live_falls rho (PFilter d) evs A B.
Proof.
  intros Hs rho Hr A PA. set (i := / rho). assert (I0 : 0 < i) by (apply Rinv_0_lt_compat; lra). assert (EI : rho * i = 1) by (unfold i; field; lra).
  set (t := s * i). assert (Ht : 0 < t < 1) by (unfold t; split; [apply Rmult_lt_0_compat; lra|]; rewrite <- EI; apply Rmult_lt_compat_r; lra).
  set (m := BC W (W / rho) (W / (rho * rho)) (1 / rho) (1 / (rho * rho))). set (G := 1 + / (t * (1 - t))).
  assert (PG : 0 <= G) by (unfold G; assert (0 < / (t * (1 - t))) by (apply Rinv_0_lt_compat, Rmult_lt_0_compat; lra); lra).
  exists (forward_weight m * G * A). split; [repeat apply Rmult_le_pos; auto; apply forward_pos|].
  intros d evs Hd Hm. set (c := fun k => nth k (in_force d evs) d).
  assert (C : forall k, mild s W (c k)).
  { intros k. unfold c. destruct (Nat.lt_ge_cases k (length (in_force d evs))) as [L|L]; [eapply in_force_mild; eauto using nth_In|rewrite nth_overflow by exact L; exact Hd]. }
  assert (Q : 0 < rho * rho) by (apply Rmult_lt_0_compat; lra).
  assert (DV : forall x y z, 0 < z -> Rabs x <= y -> Rabs (x / z) <= y / z).
  { intros x y z Z H. unfold Rdiv. rewrite Rabs_mult, (Rabs_pos_eq (/ z)) by (left; now apply Rinv_0_lt_compat). apply Rmult_le_compat_r; [left; now apply Rinv_0_lt_compat|exact H]. }
  apply lfalls_filter with c m G; [reflexivity| | |lra].
  - intros k. destruct (C k) as [C1 C2]. unfold forward_weight in C2.
    pose proof (Rabs_pos (b0 (c k))). pose proof (Rabs_pos (b1 (c k))). pose proof (Rabs_pos (b2 (c k))). pose proof (Rabs_pos (a1 (c k))). pose proof (Rabs_pos (a2 (c k))).
    assert (s * s <= 1) by nra. unfold within_limits, m, sped_up. cbn [b0 b1 b2 a1 a2]. repeat split; try apply DV; lra.
  - apply small_gain_var; [exact Ht|]. intros k. destruct (C k) as [C1 _]. unfold sped_up. cbn [a1 a2].
    unfold Rdiv. rewrite !Rabs_mult, !Rabs_inv, !Rabs_mult, (Rabs_pos_eq rho) by lra. rewrite Rinv_mult. fold i.
    pose proof (Rabs_pos (a1 (c k))) as P1.
    assert (J : 1 <= i) by (apply Rmult_le_reg_l with rho; lra).
    assert (Rabs (a1 (c k)) * i <= Rabs (a1 (c k)) * (i * i)) by (apply Rmult_le_compat_l; [exact P1|]; rewrite <- (Rmult_1_r i) at 1; apply Rmult_le_compat_l; lra).
    apply Rle_trans with ((Rabs (a1 (c k)) + Rabs (a2 (c k))) * (i * i)); [lra|]. apply Rle_trans with (s * s * (i * i)); [|right; unfold t; ring].
    apply Rmult_le_compat_r; [apply Rmult_le_pos; lra|exact C1].
Qed.

Lemma live_rate P f s W K : 0 <= P < 1 -> 0 <= f < 1 -> 0 < s < 1 -> forall p, moves_within P f s W K p [] ->
  exists r0, 0 < r0 < 1 /\ forall rho, r0 <= rho <= 1 -> forall A, 0 <= A -> exists B, 0 <= B /\ forall evs, moves_within P f s W K p evs -> live_falls rho p evs A B.
Proof.
  intros HP Hf Hs. induction p as [l|l d g|l|c|g|p I1 q I2|p I1 q I2]; cbn [moves_within branch]; intros H0.
  - exists (1 / 2). split; [lra|]. intros rho Hr A PA. destruct (delay_rate l rho Hr A PA) as (B & PB & F). exists B. split; [exact PB|]. intros evs _. inversion F; subst. now constructor.
  - destruct H0 as (Ne & _). destruct (comb_rate l P f Ne HP ltac:(rewrite Rabs_pos_eq; lra)) as (r0 & R0 & HR). exists r0. split; [exact R0|]. intros rho Hr A PA.
    destruct (HR rho Hr A PA) as (B & PB & F). exists B. split; [exact PB|]. intros evs (_ & Hd & Hg & Hm). inversion F; subst.
    rewrite (Rabs_pos_eq f) in * by lra. eapply lfalls_comb with (P := P) (f := f); eauto; lra.
  - destruct (pass_rate l H0) as (r0 & R0 & HR). exists r0. split; [exact R0|]. intros rho Hr A PA.
    destruct (HR rho Hr A PA) as (B & PB & F). exists B. split; [exact PB|]. intros evs _. inversion F; subst. eapply lfalls_pass; eauto.
  - exists ((1 + s) / 2). split; [lra|]. intros rho Hr A PA. destruct (mild_filter_falls s W Hs rho Hr A PA) as (B & PB & F). exists B. split; [exact PB|]. intros evs [H1 H2]. now apply F.
  - exists (1 / 2). split; [lra|]. intros rho Hr A PA. destruct H0 as [H0 _]. exists (K * A). split; [apply Rmult_le_pos; [pose proof (Rabs_pos g); lra|exact PA]|].
    intros evs [H1 H2]. apply lfalls_scale with K; auto. lra.
  - destruct H0 as [H1 H2]. destruct (I1 H1) as (r1 & R1 & J1). destruct (I2 H2) as (r2 & R2 & J2).
    exists (Rmax r1 r2). pose proof (Rmax_l r1 r2). pose proof (Rmax_r r1 r2). split; [split; [lra|apply Rmax_lub_lt; lra]|]. intros rho Hr A PA.
    destruct (J1 rho ltac:(lra) A PA) as (B & PB & F1). destruct (J2 rho ltac:(lra) B PB) as (C & PC & F2). exists C. split; [exact PC|]. intros evs [M1 M2]. apply lfalls_series with B; auto.
  - destruct H0 as [H1 H2]. destruct (I1 H1) as (r1 & R1 & J1). destruct (I2 H2) as (r2 & R2 & J2).
    exists (Rmax r1 r2). pose proof (Rmax_l r1 r2). pose proof (Rmax_r r1 r2). split; [split; [lra|apply Rmax_lub_lt; lra]|]. intros rho Hr A PA.
    destruct (J1 rho ltac:(lra) A PA) as (B & PB & F1). destruct (J2 rho ltac:(lra) A PA) as (C & PC & F2). exists (B + C). split; [lra|]. intros evs [M1 M2]. apply lfalls_mix with B C; auto. lra.
Qed.
