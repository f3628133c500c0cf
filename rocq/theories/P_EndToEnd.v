(** * Proofs: a filter under small changes of its coefficients (C107). *)

From Coq Require Import ZArith List Bool Reals Lia Lra Psatz.
From Flocq Require Import Core.
From Verif Require Import Base F32 F32Lemmas F32Range Num M_FloatMath M_Biquad S_Biquad S_BiquadF32 S_DesignF32 S_EndToEnd
  P_DelayNum P_Biquad P_BiquadF32 P_DesignF32.
Local Open Scope R_scope.

(** ** The recursive part: bounded in sum as well as in size *)
Lemma sum_ago (g : nat -> R) : forall k N, (0 < k)%nat ->
  sum_f_R0 (fun n => Rabs (ago k g n)) N <= sum_f_R0 (fun n => Rabs (g n)) N.
Proof.
  assert (Z : forall N, 0 <= sum_f_R0 (fun n => Rabs (g n)) N) by (intros; apply cond_pos_sum; intros; apply Rabs_pos).
  assert (E : forall k N, sum_f_R0 (fun n => Rabs (ago k g n)) N = if (N <? k)%nat then 0 else sum_f_R0 (fun n => Rabs (g n)) (N - k)).
  { intros k. induction N as [|N IH].
    - cbn [sum_f_R0]. unfold ago. destruct (Nat.ltb_spec 0 k); [apply Rabs_R0|]. reflexivity.
    - rewrite tech5, IH. unfold ago. destruct (Nat.ltb_spec N k), (Nat.ltb_spec (S N) k); try lia.
      + rewrite Rabs_R0. ring.
      + replace (S N - k)%nat with 0%nat by lia. cbn [sum_f_R0]. ring.
      + replace (S N - k)%nat with (S (N - k)) by lia. rewrite tech5. reflexivity. }
  intros k N Hk. rewrite E. destruct (Nat.ltb_spec N k) as [|L]; [apply Z|].
  assert (M : forall a b, (a <= b)%nat -> sum_f_R0 (fun n => Rabs (g n)) a <= sum_f_R0 (fun n => Rabs (g n)) b).
  { intros a b H. induction H; [lra|]. rewrite tech5. pose proof (Rabs_pos (g (S m))). lra. }
  apply M. lia.
Qed.

Lemma sum_response (c : coeffs R) G : (forall N, sum_f_R0 (fun n => Rabs (response (bq_new c) unit_impulse n)) N <= G) ->
  forall N (s : nat -> R), sum_f_R0 (fun n => Rabs (response (bq_new c) s n)) N <= G * sum_f_R0 (fun n => Rabs (s n)) N.
Proof.
  intros HG. induction N as [|N IH]; intros s.
  - cbn [sum_f_R0]. rewrite (response_ext _ s (fun i => s 0%nat * unit_impulse i + 0 * unit_impulse i) 0).
    + rewrite response_linear, Rmult_0_l, Rplus_0_r, Rabs_mult. pose proof (HG 0%nat) as H. cbn [sum_f_R0] in H. pose proof (Rabs_pos (s 0%nat)). nra.
    + intros k Hk. replace k with 0%nat by lia. cbn. ring.
  - set (s' := fun j => s (S j)).
    assert (E : forall n, response (bq_new c) s n = s 0%nat * response (bq_new c) unit_impulse n + ago 1 (response (bq_new c) s') n).
    { intros n. rewrite (response_ext _ s (fun i => s 0%nat * unit_impulse i + 1 * ago 1 s' i) n).
      - rewrite response_linear, response_delay. ring.
      - intros [|k] _; unfold ago, s'; cbn; [ring|rewrite Nat.sub_0_r; ring]. }
    apply Rle_trans with (sum_f_R0 (fun n => Rabs (s 0%nat) * Rabs (response (bq_new c) unit_impulse n)) (S N) + sum_f_R0 (fun n => Rabs (ago 1 (response (bq_new c) s') n)) (S N)).
    + rewrite <- sum_plus. apply sum_Rle. intros n _. rewrite E. eapply Rle_trans; [apply Rabs_triang|]. rewrite Rabs_mult. apply Rle_refl.
    + assert (Q : sum_f_R0 (fun n => Rabs (s 0%nat) * Rabs (response (bq_new c) unit_impulse n)) (S N) <= Rabs (s 0%nat) * G).
      { rewrite (sum_eq _ (fun n => Rabs (response (bq_new c) unit_impulse n) * Rabs (s 0%nat))) by (intros; ring). rewrite <- scal_sum.
        apply Rmult_le_compat_l; [apply Rabs_pos|apply HG]. }
      assert (Q2 : sum_f_R0 (fun n => Rabs (ago 1 (response (bq_new c) s') n)) (S N) = sum_f_R0 (fun n => Rabs (response (bq_new c) s' n)) N).
      { rewrite decomp_sum by lia. unfold ago at 1. cbn [Nat.ltb Nat.leb Nat.pred]. rewrite Rabs_R0, Rplus_0_l. apply sum_eq. intros i _.
        unfold ago. cbn [Nat.ltb Nat.leb Nat.sub]. rewrite Nat.sub_0_r. reflexivity. }
      rewrite Q2. pose proof (IH s') as I.
      assert (Q3 : sum_f_R0 (fun n => Rabs (s n)) (S N) = Rabs (s 0%nat) + sum_f_R0 (fun n => Rabs (s' n)) N) by (rewrite decomp_sum by lia; reflexivity).
      rewrite Q3. lra.
Qed.

Lemma sum_impulse N : sum_f_R0 (fun n => Rabs (unit_impulse n)) N = 1.
Proof. induction N as [|N IH]; [cbn; apply Rabs_R1|]. rewrite tech5, IH. cbn. rewrite Rabs_R0. ring. Qed.

(** ** Ringing under a change of the coefficients *)
Lemma ringing_moved (c d : coeffs R) e G : ringing d G -> Rabs (a1 c - a1 d) <= e -> Rabs (a2 c - a2 d) <= e -> 2 * e * G < 1 ->
  ringing c (G / (1 - 2 * e * G)).
Proof.
  intros HG H1 H2 HE N. set (g := response (bq_new (BC 1 0 0 (a1 c) (a2 c))) unit_impulse).
  set (w := fun n => unit_impulse n - (a1 c - a1 d) * ago 1 g n - (a2 c - a2 d) * ago 2 g n).
  assert (E : forall n, g n = response (bq_new (BC 1 0 0 (a1 d) (a2 d))) w n).
  { apply recurrence_unique. intros n. unfold g at 1. rewrite response_rest. cbn [b0 b1 b2 a1 a2]. fold g. unfold w. ring. }
  set (T := sum_f_R0 (fun n => Rabs (g n)) N).
  assert (B : T <= G * sum_f_R0 (fun n => Rabs (w n)) N).
  { unfold T. rewrite (sum_eq _ (fun n => Rabs (response (bq_new (BC 1 0 0 (a1 d) (a2 d))) w n))) by (intros; now rewrite E).
    apply sum_response. exact HG. }
  assert (e0 : 0 <= e) by (pose proof (Rabs_pos (a1 c - a1 d)); lra).
  assert (W : sum_f_R0 (fun n => Rabs (w n)) N <= 1 + 2 * e * T).
  { apply Rle_trans with (sum_f_R0 (fun n => Rabs (unit_impulse n)) N + e * sum_f_R0 (fun n => Rabs (ago 1 g n)) N + e * sum_f_R0 (fun n => Rabs (ago 2 g n)) N).
    - rewrite !scal_sum, <- !sum_plus. apply sum_Rle. intros n _. unfold w, Rminus.
      eapply Rle_trans; [apply Rabs_triang|]. eapply Rle_trans; [apply Rplus_le_compat_r, Rabs_triang|]. rewrite !Rabs_Ropp, !Rabs_mult.
      fold (a1 c - a1 d) (a2 c - a2 d). pose proof (Rabs_pos (ago 1 g n)). pose proof (Rabs_pos (ago 2 g n)).
      assert (Rabs (a1 c - a1 d) * Rabs (ago 1 g n) <= e * Rabs (ago 1 g n)) by (apply Rmult_le_compat_r; assumption).
      assert (Rabs (a2 c - a2 d) * Rabs (ago 2 g n) <= e * Rabs (ago 2 g n)) by (apply Rmult_le_compat_r; assumption). lra.
    - assert (I : sum_f_R0 (fun n => Rabs (unit_impulse n)) N = 1).
      { apply sum_impulse. }
      rewrite I. pose proof (sum_ago g 1 N ltac:(lia)) as S1. pose proof (sum_ago g 2 N ltac:(lia)) as S2. fold T in S1, S2.
      assert (e * sum_f_R0 (fun n => Rabs (ago 1 g n)) N <= e * T) by (apply Rmult_le_compat_l; assumption).
      assert (e * sum_f_R0 (fun n => Rabs (ago 2 g n)) N <= e * T) by (apply Rmult_le_compat_l; assumption). lra. }
  assert (G0 : 0 <= G) by (eapply Rle_trans; [|apply (HG 0%nat)]; apply Rabs_pos).
  assert (B2 : T <= G * (1 + 2 * e * T)) by (eapply Rle_trans; [exact B|]; now apply Rmult_le_compat_l).
  apply Rmult_le_reg_r with (1 - 2 * e * G); [lra|]. replace (G / (1 - 2 * e * G) * (1 - 2 * e * G)) with G by (field; lra). fold g. fold T. lra.
Qed.

(** ** The output under a change of the coefficients *)
Lemma recursive_bound (d : coeffs R) G (y s : nat -> R) S : ringing d G -> 0 <= S ->
  (forall n, y n = s n - a1 d * ago 1 y n - a2 d * ago 2 y n) -> (forall n, Rabs (s n) <= S) -> forall n, Rabs (y n) <= S * G.
Proof.
  intros HG HS Hy Hs n. rewrite (recurrence_unique _ _ y s Hy n). eapply Rle_trans; [apply superpose with (S := S); [exact HS|intros; apply Hs]|].
  apply Rmult_le_compat_l; [exact HS|apply (HG n)].
Qed.

Lemma ago_le k (x : nat -> R) M : 0 <= M -> (forall n, Rabs (x n) <= M) -> forall n, Rabs (ago k x n) <= M.
Proof. intros H0 H n. unfold ago. destruct (n <? k)%nat; [now rewrite Rabs_R0|apply H]. Qed.

Lemma prod_le x y a b : Rabs x <= a -> Rabs y <= b -> Rabs (x * y) <= a * b.
Proof. intros. rewrite Rabs_mult. apply Rmult_le_compat; auto using Rabs_pos. Qed.

Lemma tri5 a b c d e : Rabs (a + b + c - d - e) <= Rabs a + Rabs b + Rabs c + Rabs d + Rabs e.
Proof. unfold Rabs. repeat destruct Rcase_abs; lra. Qed.

Lemma output_size (c : coeffs R) G M x : ringing c G -> 0 <= M -> (forall n, Rabs (x n) <= M) ->
  forall n, Rabs (response (bq_new c) x n) <= forward_weight c * M * G.
Proof.
  intros HG HM Hx. apply (recursive_bound c G _ (fun n => b0 c * x n + b1 c * ago 1 x n + b2 c * ago 2 x n)); [exact HG| | |].
  - unfold forward_weight. pose proof (Rabs_pos (b0 c)). pose proof (Rabs_pos (b1 c)). pose proof (Rabs_pos (b2 c)). apply Rmult_le_pos; lra.
  - intros n. now rewrite response_rest at 1.
  - intros n. unfold forward_weight. eapply Rle_trans; [apply Rabs_triang|]. eapply Rle_trans; [apply Rplus_le_compat_r, Rabs_triang|].
    pose proof (prod_le (b0 c) (x n) _ M (Rle_refl _) (Hx n)). pose proof (prod_le (b1 c) _ _ M (Rle_refl _) (ago_le 1 x M HM Hx n)).
    pose proof (prod_le (b2 c) _ _ M (Rle_refl _) (ago_le 2 x M HM Hx n)). lra.
Qed.

Lemma output_moved (c d : coeffs R) e G M Y x : ringing d G -> 0 <= M -> 0 <= Y -> 0 <= e ->
  Rabs (b0 c - b0 d) <= e -> Rabs (b1 c - b1 d) <= e -> Rabs (b2 c - b2 d) <= e -> Rabs (a1 c - a1 d) <= e -> Rabs (a2 c - a2 d) <= e ->
  (forall n, Rabs (x n) <= M) -> (forall n, Rabs (response (bq_new c) x n) <= Y) ->
  forall n, Rabs (response (bq_new c) x n - response (bq_new d) x n) <= e * (3 * M + 2 * Y) * G.
Proof.
  intros HG HM HY He D0 D1 D2 D3 D4 Hx Hy.
  set (y := response (bq_new c) x) in *. set (z := response (bq_new d) x).
  apply (recursive_bound d G (fun n => y n - z n)
    (fun n => (b0 c - b0 d) * x n + (b1 c - b1 d) * ago 1 x n + (b2 c - b2 d) * ago 2 x n - (a1 c - a1 d) * ago 1 y n - (a2 c - a2 d) * ago 2 y n)); [exact HG| | |].
  - apply Rmult_le_pos; lra.
  - intros n.
    assert (A : forall k, ago k (fun n => y n - z n) n = ago k y n - ago k z n) by (intros k; unfold ago; destruct (n <? k)%nat; ring).
    rewrite !A. unfold y at 1, z at 1. rewrite (response_rest c), (response_rest d). fold y z. ring.
  - intros n. eapply Rle_trans; [apply tri5|].
    pose proof (prod_le _ _ _ _ D0 (Hx n)). pose proof (prod_le _ _ _ _ D1 (ago_le 1 x M HM Hx n)). pose proof (prod_le _ _ _ _ D2 (ago_le 2 x M HM Hx n)).
    pose proof (prod_le _ _ _ _ D3 (ago_le 1 y Y HY Hy n)). pose proof (prod_le _ _ _ _ D4 (ago_le 2 y Y HY Hy n)). lra.
Qed.

Lemma ringing_1 c G : ringing c G -> 1 <= G.
Proof.
  intros HG. pose proof (HG 0%nat) as H. cbn [sum_f_R0] in H. rewrite response_rest in H. unfold ago in H. cbn in H.
  replace (1 * 1 + 0 * 0 + 0 * 0 - a1 c * 0 - a2 c * 0) with 1 in H by ring. rewrite Rabs_R1 in H. exact H.
Qed.

(** ** The ringing of the designs *)
Lemma textbook_ringing S K c : 0 < S -> 0 < K -> S * S <= 4 * K ->
  a1 c = 2 * (K - 1) / (1 + S + K) -> a2 c = (1 - S + K) / (1 + S + K) ->
  a1 c * a1 c <= 4 * a2 c /\ a2 c < 1 /\ / ((1 - sqrt (a2 c)) * (1 - sqrt (a2 c))) <= design_ringing S K.
Proof.
  intros HS HK HSK E1 E2. rewrite E1, E2. set (D := 1 + S + K). assert (PD : 0 < D) by (unfold D; lra).
  assert (PI : 0 < / D) by (now apply Rinv_0_lt_compat).
  split; [|split].
  - replace (4 * ((1 - S + K) / D)) with (4 * ((1 - S + K) * D) * (/ D * / D)) by (field; lra).
    replace (2 * (K - 1) / D * (2 * (K - 1) / D)) with (4 * ((K - 1) * (K - 1)) * (/ D * / D)) by (field; lra).
    apply Rmult_le_compat_r; [apply Rmult_le_pos; lra|]. unfold D. nra.
  - apply Rmult_lt_reg_r with D; [exact PD|]. unfold Rdiv. rewrite Rmult_assoc, Rinv_l by lra. unfold D. lra.
  - set (r := (1 - S + K) / D).
    assert (N0 : 0 <= 1 - S + K) by (destruct (Rle_or_lt S (1 + K)); [lra|exfalso; pose proof (Rle_0_sqr (K - 1)); unfold Rsqr in *; nra]).
    assert (R0 : 0 <= r) by (apply Rmult_le_pos; lra).
    assert (R2 : sqrt r <= (1 + r) / 2).
    { rewrite <- (sqrt_square ((1 + r) / 2)) by lra. clearbody r. pose proof (Rle_0_sqr (r - 1)) as Q. unfold Rsqr in Q. apply sqrt_le_1; [lra|apply Rmult_le_pos; lra|lra]. }
    assert (P : 0 < S / D) by (apply Rdiv_lt_0_compat; lra).
    assert (R3 : S / D <= 1 - sqrt r).
    { assert ((1 - r) / 2 = S / D) by (unfold r, D; field; fold D; lra). lra. }
    unfold design_ringing. fold D. rewrite Rmin_left by lra. replace (D * D / (S * S)) with (/ (S / D * (S / D))) by (field; lra).
    apply Rinv_le_contravar; [nra|]. apply Rmult_le_compat; lra.
Qed.

Lemma design_ringing_1 S K : 0 < S -> 0 < K -> 1 <= design_ringing S K.
Proof.
  intros HS HK. unfold design_ringing. set (m := Rmin _ _).
  assert (P : 0 < m <= S * S) by (unfold m; split; [apply Rmin_glb_lt; nra|apply Rmin_l]).
  apply Rmult_le_reg_r with m; [lra|]. unfold Rdiv. rewrite Rmult_assoc, Rinv_l by lra. nra.
Qed.

(** With 4 K < S^2 the poles are real: (1 - p) / (1 + p) for the two p with sum S and product K. *)
Lemma pole_place p : 0 < p -> Rabs ((1 - p) / (1 + p)) < 1 /\ 2 * p / ((1 + p) * (1 + p)) <= 1 - Rabs ((1 - p) / (1 + p)).
Proof.
  intros H. assert (I : 0 < / (1 + p)) by (apply Rinv_0_lt_compat; lra). unfold Rdiv at 1 3. rewrite Rabs_mult, (Rabs_pos_eq (/ (1 + p))) by lra.
  assert (A : Rabs (1 - p) * (1 + p) <= 1 + p * p) by (unfold Rabs; destruct Rcase_abs; nra).
  split.
  - apply Rmult_lt_reg_r with (1 + p); [lra|]. rewrite Rmult_assoc, Rinv_l by lra. unfold Rabs; destruct Rcase_abs; lra.
  - apply Rmult_le_reg_r with ((1 + p) * (1 + p)); [nra|].
    replace (2 * p / ((1 + p) * (1 + p)) * ((1 + p) * (1 + p))) with (2 * p) by (field; lra).
    replace ((1 - Rabs (1 - p) * / (1 + p)) * ((1 + p) * (1 + p))) with ((1 + p) * (1 + p) - Rabs (1 - p) * (1 + p)) by (field; lra). lra.
Qed.
Lemma textbook_real_poles S K c : 0 < S -> 0 < K -> 4 * K < S * S ->
  a1 c = 2 * (K - 1) / (1 + S + K) -> a2 c = (1 - S + K) / (1 + S + K) ->
  exists u v, u + v = - a1 c /\ u * v = a2 c /\ Rabs u < 1 /\ Rabs v < 1 /\ / ((1 - Rabs u) * (1 - Rabs v)) <= design_ringing S K.
Proof.
  intros HS HK HSK E1 E2. set (r := sqrt (S * S - 4 * K)). assert (R2 : r * r = S * S - 4 * K) by (apply sqrt_sqrt; lra).
  assert (R0 : 0 <= r) by apply sqrt_pos. set (p := (S + r) / 2). set (o := (S - r) / 2).
  assert (PO : p + o = S /\ p * o = K) by (unfold p, o; split; [lra|nra]). destruct PO as [Sm Pr].
  assert (Pp : 0 < p) by (unfold p; lra). assert (Po : 0 < o) by (destruct (Rle_or_lt o 0); [exfalso; nra|assumption]).
  clearbody r p o. clear R2 R0 r. assert (ED : 1 + S + K = (1 + p) * (1 + o)) by (rewrite <- Sm, <- Pr; ring).
  destruct (pole_place p Pp) as [U1 U2]. destruct (pole_place o Po) as [V1 V2].
  exists ((1 - p) / (1 + p)), ((1 - o) / (1 + o)). rewrite E1, E2, ED. split; [|split; [|split; [exact U1|split; [exact V1|]]]].
  - rewrite <- Pr. field. lra.
  - rewrite <- Pr, <- Sm. field. lra.
  - unfold design_ringing. rewrite Rmin_right, ED by lra.
    replace ((1 + p) * (1 + o) * ((1 + p) * (1 + o)) / (4 * K)) with (/ (2 * p / ((1 + p) * (1 + p)) * (2 * o / ((1 + o) * (1 + o))))) by (rewrite <- Pr; field; lra).
    assert (0 < 2 * p / ((1 + p) * (1 + p))) by (apply Rdiv_lt_0_compat; nra). assert (0 < 2 * o / ((1 + o) * (1 + o))) by (apply Rdiv_lt_0_compat; nra).
    apply Rinv_le_contravar; [now apply Rmult_lt_0_compat|]. apply Rmult_le_compat; lra.
Qed.
