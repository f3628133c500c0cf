(** * Lemmas for C119: accuracy of f32 networks with moving settings. *)

From Coq Require Import ZArith List Bool Reals Lia Lra Psatz.
From Flocq Require Import Core.
From Verif Require Import Base F32 F32Lemmas F32Exact F32Range Num M_Memory M_Delay M_Biquad S_Memory S_Delay S_Biquad S_BiquadF32 S_Comb S_Network S_NetworkF32 S_NetworkLin S_NetworkAcc S_SweepF32 S_Live S_LiveAcc
  P_Delay P_DelayNum P_Comb P_Biquad P_BiquadF32 P_SweepF32 P_NetworkLin P_NetworkAcc P_Live T_BiquadF32 T_Network T_Sweep T_SweepTrack T_Live.
Import ListNotations.
Local Open Scope R_scope.

(** ** Histories and their inputs *)
Section Feeding.
Context {F : Type}.
Lemma feed_self (evs : list (event F)) : feed evs (inputs evs) = evs.
Proof. induction evs as [|[x|w k] evs IH]; cbn; now rewrite ?IH. Qed.
Lemma branch_feed s (evs : list (event F)) : forall u, branch s (feed evs u) = feed (branch s evs) u.
Proof.
  induction evs as [|[x|[|b w] k] evs IH]; intros u; cbn; try reflexivity.
  - destruct u; cbn; [reflexivity|]. now rewrite IH.
  - apply IH.
  - destruct (Bool.eqb b s); cbn; now rewrite IH.
Qed.
Lemma feed_feed (evs : list (event F)) : forall u v, length u = length (inputs evs) -> feed (feed evs u) v = feed evs v.
Proof.
  induction evs as [|[x|w k] evs IH]; intros u v E; cbn in *; try reflexivity.
  - destruct u; cbn in *; [discriminate|]. destruct v; [reflexivity|]. rewrite IH by lia. reflexivity.
  - now rewrite IH.
Qed.

Lemma live_filter_runs {NF : Num F} (c : nat -> coeffs F) (x0 : F) (x : nat -> F) b0 : forall evs b k,
  z1 b = z1 (after_var b0 c x k) -> z2 b = z2 (after_var b0 c x k) ->
  (forall i, (i < length (in_force (bq_coeffs b) evs))%nat -> nth i (in_force (bq_coeffs b) evs) (bq_coeffs b) = c (k + i)%nat) ->
  (forall i, (i < length (inputs evs))%nat -> nth i (inputs evs) x0 = x (k + i)%nat) ->
  live_filter b evs = map (response_var b0 c x) (seq k (length (inputs evs))).
Proof.
  assert (ND : forall evs d d' i (e : coeffs F), (i < length (in_force e evs))%nat -> nth i (in_force e evs) d = nth i (in_force e evs) d') by (intros; now apply nth_indep).
  induction evs as [|ev evs IH]; intros b k E1 E2 Hc Hx; [reflexivity|]. destruct ev as [v|w q].
  - cbn [live_filter inputs length seq map]. cbn [in_force length] in Hc. cbn [inputs length] in Hx.
    pose proof (Hc 0%nat ltac:(lia)) as C0. cbn [nth] in C0. rewrite Nat.add_0_r in C0.
    pose proof (Hx 0%nat ltac:(lia)) as X0. cbn [nth] in X0. rewrite Nat.add_0_r in X0.
    assert (EB : b = bq_set_coeffs (after_var b0 c x k) (c k)) by (unfold bq_set_coeffs; rewrite <- E1, <- E2, <- C0; destruct b; reflexivity).
    f_equal; [unfold response_var; now rewrite <- EB, X0|].
    assert (EA : fst (bq_process b v) = after_var b0 c x (S k)) by (cbn [after_var]; now rewrite <- EB, X0).
    assert (EC : bq_coeffs (fst (bq_process b v)) = bq_coeffs b) by reflexivity.
    apply IH.
    + now rewrite EA.
    + now rewrite EA.
    + rewrite EC. intros i Hi. specialize (Hc (S i) ltac:(lia)). cbn [nth] in Hc. rewrite Hc. f_equal. lia.
    + intros i Hi. specialize (Hx (S i) ltac:(lia)). cbn [nth] in Hx. rewrite Hx. f_equal. lia.
  - cbn [inputs] in *. destruct w as [|t w]; [destruct q as [d|d|d|d]|]; try (apply IH; assumption).
    cbn [live_filter]. apply IH; try assumption. cbn [bq_set_coeffs bq_coeffs]. cbn [in_force] in Hc.
    intros i Hi. rewrite (ND evs d (bq_coeffs b) i d Hi). apply Hc, Hi.
Qed.
Lemma in_force_feed (evs : list (event F)) : forall u d, length u = length (inputs evs) -> in_force d (feed evs u) = in_force d evs.
Proof.
  induction evs as [|[x|w k] evs IH]; intros u d E; cbn in *; try reflexivity.
  - destruct u; cbn in *; [discriminate|]. now rewrite IH by lia.
  - destruct w as [|t w]; [destruct k|]; now rewrite ?IH.
Qed.
End Feeding.

(** The same history in exact arithmetic. *)
Notation xe := (map exact_event).
Lemma xe_inputs evs : inputs (xe evs) = map val (inputs evs).
Proof. induction evs as [|[x|w k] evs IH]; cbn; now rewrite ?IH. Qed.
Lemma xe_branch s evs : branch s (xe evs) = xe (branch s evs).
Proof. induction evs as [|[x|[|b w] k] evs IH]; cbn; rewrite ?IH; try reflexivity. destruct (Bool.eqb b s); reflexivity. Qed.
Lemma xe_feed evs : forall u, xe (feed evs u) = feed (xe evs) (map val u).
Proof. induction evs as [|[x|w k] evs IH]; intros u; cbn; try reflexivity; [|now rewrite IH]. destruct u; cbn; [reflexivity|]. now rewrite IH. Qed.
Lemma xe_force evs : forall d, in_force (exact_coeffs d) (xe evs) = map exact_coeffs (in_force d evs).
Proof. induction evs as [|[x|[|b w] k] evs IH]; intros d; cbn; rewrite ?IH; try reflexivity. destruct k; cbn; now rewrite ?IH. Qed.
Lemma xe_comb evs : comb_events (xe evs) = map real_op (comb_events evs).
Proof. induction evs as [|[x|[|b w] k] evs IH]; cbn; rewrite ?IH; try reflexivity. destruct k; cbn; now rewrite ?IH. Qed.

(** ** Enlarging an error *)
Definition like_ops (D f : R) (a b : comb_op R) : Prop :=
  match a, b with
  | CTick x, CTick y => Rabs (x - y) <= D
  | CDamp v, CDamp v' => v = v' /\ 0 <= v <= 1
  | CFeedback v, CFeedback v' => v = v' /\ Rabs v <= f
  | _, _ => False
  end.
Lemma comb_lip_ops D K f : 0 <= D -> D <= K * (1 - f) -> f < 1 -> forall us vs, Forall2 (like_ops D f) us vs -> forall damp fb d d' m s s',
  0 <= damp <= 1 -> Rabs fb <= f -> close K d d' -> Rabs (s - s') <= K -> close K (combR d m s damp fb us) (combR d' m s' damp fb vs).
Proof.
  intros P HK Hf1. assert (PK : 0 <= K). { destruct (Rle_or_lt 0 K); [assumption|]. nra. }
  induction 1 as [|a b us vs H1 _ IH]; intros damp fb d d' m s s' Hd Hf Cd Cs; cbn [comb_spec]; [constructor|].
  destruct a as [a|v|v], b as [b|v'|v']; cbn [like_ops] in H1; try (destruct H1; fail).
  - rewrite nint_0. pose proof (close_nth K d d' PK Cd m) as Cy. cbv zeta. constructor; [exact Cy|].
    set (y := nth m d 0) in *. set (y' := nth m d' 0) in *. replace (nint 1 : R) with 1 by (now rewrite nint_R). cbn [nadd nsub nmul num_R].
    assert (S : Rabs ((y * (1 - damp) + s * damp) - (y' * (1 - damp) + s' * damp)) <= K).
    { replace ((y * (1 - damp) + s * damp) - (y' * (1 - damp) + s' * damp)) with ((y - y') * (1 - damp) + (s - s') * damp) by ring.
      eapply Rle_trans; [apply Rabs_triang|]. rewrite !Rabs_mult, (Rabs_pos_eq damp), (Rabs_pos_eq (1 - damp)) by lra. nra. }
    apply IH; try assumption. apply close_app; [exact Cd|]. constructor; [|constructor].
    set (t := y * (1 - damp) + s * damp) in *. set (t' := y' * (1 - damp) + s' * damp) in *.
    replace (a + t * fb - (b + t' * fb)) with ((a - b) + (t - t') * fb) by ring. eapply Rle_trans; [apply Rabs_triang|]. rewrite Rabs_mult.
    assert (Rabs (t - t') * Rabs fb <= K * f) by (apply Rmult_le_compat; auto using Rabs_pos). lra.
  - destruct H1 as [<- H1]. now apply IH.
  - destruct H1 as [<- H1]. now apply IH.
Qed.

Lemma limits_pos m c : within_limits m c -> 0 <= b0 m /\ 0 <= b1 m /\ 0 <= b2 m.
Proof. intros (H0 & H1 & H2 & _). pose proof (Rabs_pos (b0 c)). pose proof (Rabs_pos (b1 c)). pose proof (Rabs_pos (b2 c)). lra. Qed.

Lemma var_lip (c : nat -> coeffs R) m G D (x x' : nat -> R) : (forall n, within_limits m (c n)) -> sweep_gain c G -> 0 <= D -> (forall k, Rabs (x k - x' k) <= D) ->
  forall n, Rabs (response_var (bq_new (c 0%nat)) c x n - response_var (bq_new (c 0%nat)) c x' n) <= forward_weight m * G * D.
Proof.
  intros Hm HG PD Hx n. set (y := response_var (bq_new (c 0%nat)) c x). set (y' := response_var (bq_new (c 0%nat)) c x').
  pose proof (C110_coefficients_in_force c x) as E. cbv zeta in E. fold y in E. pose proof (C110_coefficients_in_force c x') as E'. cbv zeta in E'. fold y' in E'.
  set (s := fun k => b0 (c k) * (x k - x' k) + ago 1 (fun i => b1 (c i) * (x i - x' i)) k + ago 2 (fun i => b2 (c i) * (x i - x' i)) k).
  rewrite (var_unique c (fun k => y k - y' k) s).
  - replace (forward_weight m * G * D) with (G * (forward_weight m * D)) by ring. apply HG. intros k.
    destruct (limits_pos m _ (Hm 0%nat)) as (P0 & P1 & P2). unfold forward_weight. rewrite (Rabs_pos_eq (b0 m)), (Rabs_pos_eq (b1 m)), (Rabs_pos_eq (b2 m)) by assumption.
    assert (Q : forall (i : nat) (b mb : R), Rabs b <= mb -> Rabs (b * (x i - x' i)) <= mb * D) by (intros; rewrite Rabs_mult; apply Rmult_le_compat; auto using Rabs_pos).
    assert (Q0 := Q k (b0 (c k)) (b0 m) ltac:(apply (Hm k))).
    assert (Q1 : Rabs (ago 1 (fun i => b1 (c i) * (x i - x' i)) k) <= b1 m * D).
    { unfold ago. destruct (Nat.ltb k 1); [rewrite Rabs_R0; now apply Rmult_le_pos|]. apply Q. apply (Hm (k - 1)%nat). }
    assert (Q2 : Rabs (ago 2 (fun i => b2 (c i) * (x i - x' i)) k) <= b2 m * D).
    { unfold ago. destruct (Nat.ltb k 2); [rewrite Rabs_R0; now apply Rmult_le_pos|]. apply Q. apply (Hm (k - 2)%nat). }
    unfold s. eapply Rle_trans; [apply Rabs_triang|]. eapply Rle_trans; [apply Rplus_le_compat_r, Rabs_triang|]. lra.
  - intros k. cbv beta. rewrite (E k), (E' k). unfold s, ago. destruct (Nat.ltb k 1), (Nat.ltb k 2); ring.
Qed.

Section Acc.
Context {NP : NanPolicy}.

Lemma sweep_1 c G : sweep_gain c G -> 1 <= G.
Proof.
  intros HG. pose proof (HG (fun _ => 1) 1 ltac:(intros ?; cbv beta; rewrite Rabs_R1; lra) 0%nat) as H.
  rewrite (C110_coefficients_in_force (fun k => recursive (c k)) (fun _ => 1) 0) in H. unfold ago in H. cbn [Nat.ltb Nat.leb recursive b0] in H.
  replace (1 * 1 + 0 + 0) with 1 in H by ring. rewrite Rabs_R1 in H. lra.
Qed.

Lemma live_acc_pos p evs e E G : live_accuracy p evs e E G -> 0 <= E /\ 0 <= G.
Proof.
  induction 1 as [l evs e|l damp fb evs e j|l evs e|d evs e c m G Hc Fc HG HA HB|g evs e k|p q evs e e1 E1 G1 E2 G2 L A1 [I1 J1] A2 [I2 J2]|p q evs e e1 E1 G1 E2 G2 M L1 L2 A1 [I1 J1] A2 [I2 J2]];
    try (split; [|try apply bpow_ge_0; try lra]); try apply bpow_ge_0; try lra; try (apply Rmult_le_pos; [apply bpow_ge_0|lra]).
  - pose proof (sweep_1 _ _ HG). pose proof (forward_pos m). assert (0 <= feedback_weight m) by (unfold feedback_weight; pose proof (Rabs_pos (a1 m)); pose proof (Rabs_pos (a2 m)); lra).
    apply Rmult_le_pos; [|lra]. repeat apply Rmult_le_pos; auto using bpow_ge_0; lra.
  - apply Rmult_le_pos; [apply forward_pos|]. apply sweep_1 in HG. lra.
  - apply Rplus_le_le_0_compat; [assumption|]. now apply Rmult_le_pos.
  - now apply Rmult_le_pos.
  - pose proof (bpow_ge_0 radix2 (e1 - 22)). lra.
Qed.

(** The exact live filter as a response. *)
Lemma exact_live_filter d evs (c : nat -> coeffs f32) u : length u = length (inputs evs) ->
  (forall k, (k < length (in_force d evs))%nat -> nth k (in_force d evs) d = c k) ->
  live_filter (bq_new (exact_coeffs d)) (feed (xe evs) u) =
  map (response_var (bq_new (exact_coeffs (c 0%nat))) (fun k => exact_coeffs (c k)) (fun n => nth n u 0)) (seq 0 (length u)).
Proof.
  intros L Hc. assert (LX : length u = length (inputs (xe evs))) by (rewrite xe_inputs, map_length; exact L).
  rewrite (live_filter_runs (fun k => exact_coeffs (c k)) 0 (fun n => nth n u 0) (bq_new (exact_coeffs (c 0%nat))) (feed (xe evs) u) (bq_new (exact_coeffs d)) 0); try reflexivity.
  - now rewrite feed_inputs.
  - cbn [bq_new bq_coeffs]. rewrite in_force_feed, xe_force by exact LX. intros i Hi. rewrite map_length in Hi. rewrite map_nth. cbn [Nat.add]. now rewrite Hc.
  - intros i Hi. now rewrite feed_inputs.
Qed.

Lemma live_lip p evs e E G : live_accuracy p evs e E G -> forall D u v, 0 <= D -> length u = length (inputs evs) -> close D u v ->
  close (G * D) (live_signal (exact_plan p) (feed (xe evs) u)) (live_signal (exact_plan p) (feed (xe evs) v)).
Proof.
  induction 1 as [l evs e|l damp fb evs e j Hj He He' Hl Hd Hf Hm|l evs e Ne He Hl|d evs e c m G Hc Fc HG HA HB|g evs e k He Hg Hm|p q evs e e1 E1 G1 E2 G2 L A1 I1 A2 I2|p q evs e e1 E1 G1 E2 G2 M L1 L2 A1 I1 A2 I2]; intros D u v P LU H;
    assert (LV : length v = length (inputs evs)) by (rewrite <- LU; symmetry; exact (close_length _ _ _ H));
    assert (LX : length u = length (inputs (xe evs)) /\ length v = length (inputs (xe evs))) by (rewrite xe_inputs, map_length; auto); destruct LX as [XU XV]; cbn [exact_plan live_signal].
  - rewrite Rmult_1_l. rewrite !feed_inputs by assumption. now apply delay_lip.
  - rewrite nint_0. assert (PJ := bpow_gt_0 radix2 j). destruct Hd as [_ Hd]. destruct Hf as [_ Hf].
    assert (PD : 0 <= pow2 j * D) by (apply Rmult_le_pos; lra).
    apply comb_lip_ops with D (1 - pow2 (- j)); auto; try lra.
    + replace (pow2 j * D * (1 - (1 - pow2 (- j)))) with (pow2 j * pow2 (- j) * D) by ring. rewrite <- bpow_plus. replace (j + - j)%Z with 0%Z by lia. cbn. lra.
    + assert (0 < pow2 (- j)) by apply bpow_gt_0. lra.
    + clear - H Hm LU. revert u v H LU. induction Hm as [|ev evs Ev Hm IH]; intros u v H LU; [constructor|].
      destruct ev as [x|w k]; cbn [map exact_event feed inputs] in *.
      * destruct H as [|a b u v H1 H2]; [constructor|]. cbn [comb_events]. constructor; [exact H1|]. apply IH; [exact H2|]. cbn in LU. lia.
      * destruct w as [|t w]; [destruct k|]; cbn [exact_knob comb_events]; try (now apply IH); (constructor; [|now apply IH]); cbn [like_ops comb_moves] in *; (split; [reflexivity|]); destruct Ev as [_ Ev]; [lra|exact Ev].
    + now apply close_refl.
    + now rewrite Rminus_eq_0, Rabs_R0.
  - rewrite !feed_inputs by assumption. apply pass_lip; auto. apply close_refl. lra.
  - rewrite (exact_live_filter d evs c u LU Hc), (exact_live_filter d evs c v LV Hc). rewrite LV, <- LU.
    generalize (seq 0 (length u)). intros s. induction s as [|n s IH]; cbn [map]; constructor; [|exact IH].
    apply (var_lip (fun k => exact_coeffs (c k)) m G D); auto; [intros i; apply Fc|]. intros i. now apply close_nth.
  - clear - P H Hg Hm LU. destruct Hg as [_ Hg]. revert g Hg u v H LU. induction Hm as [|ev evs Ev Hm IH]; intros g Hg u v H LU; [constructor|].
    destruct ev as [x|w q]; cbn [map exact_event feed inputs] in *.
    + destruct H as [|a b u v H1 H2]; [constructor|]. cbn [live_gain]. constructor.
      * cbn [nmul num_R]. replace (a * val g - b * val g) with (val g * (a - b)) by ring. rewrite Rabs_mult. apply Rmult_le_compat; auto using Rabs_pos.
      * apply IH; [exact Hg|exact H2|]. cbn in LU. lia.
    + destruct w as [|t w]; [destruct q|]; cbn [exact_knob live_gain]; apply IH; auto. apply Ev.
  - rewrite !branch_feed, !xe_branch.
    assert (K : forall w : list R, length w = length (inputs evs) -> length w = length (inputs (xe (branch false evs)))) by (intros w Hw; rewrite xe_inputs, branch_inputs, map_length; exact Hw).
    rewrite (feed_feed _ u) by now apply K. rewrite (feed_feed _ v) by now apply K.
    rewrite Rmult_assoc. apply I2.
    + apply Rmult_le_pos; [|exact P]. now apply live_acc_pos in A1.
    + rewrite live_signal_length, feed_inputs by (rewrite xe_inputs, branch_inputs, map_length; exact LU). rewrite branch_inputs. exact LU.
    + apply I1; [exact P| |exact H]. now rewrite branch_inputs.
  - rewrite !branch_feed, !xe_branch. specialize (I1 D u v P ltac:(now rewrite branch_inputs) H). specialize (I2 D u v P ltac:(now rewrite branch_inputs) H).
    rewrite !added_blend. rewrite Rmult_plus_distr_r. revert I1 I2.
    generalize (live_signal (exact_plan p) (feed (xe (branch true evs)) u)), (live_signal (exact_plan p) (feed (xe (branch true evs)) v)), (live_signal (exact_plan q) (feed (xe (branch false evs)) u)), (live_signal (exact_plan q) (feed (xe (branch false evs)) v)). clear.
    induction l as [|a l IH]; intros l1 l2 l3 K1 K2; inversion K1; subst; cbn [blend]; [destruct l3; constructor|]. inversion K2; subst; cbn [blend]; constructor; [|apply IH; assumption].
    match goal with |- Rabs (1 * ?a + 1 * ?b - (1 * ?c + 1 * ?d)) <= _ => replace (1 * a + 1 * b - (1 * c + 1 * d)) with ((a - c) + (b - d)) by ring end.
    eapply Rle_trans; [apply Rabs_triang|]. lra.
Qed.

(** ** Adding an error *)
Lemma live_sound p evs e E G : live_accuracy p evs e E G -> forall xs, length xs = length (inputs evs) -> Forall (bounded (pow2 e)) xs ->
  close E (map val (live_signal p (feed evs xs))) (live_signal (exact_plan p) (feed (xe evs) (map val xs))).
Proof.
  induction 1 as [l evs e|l damp fb evs e j Hj He He' Hl Hd Hf Hm|l evs e Ne He Hl|d evs e c m G Hc Fc HG HA HB|g evs e k He Hg Hm|p q evs e e1 E1 G1 E2 G2 L A1 I1 A2 I2|p q evs e e1 E1 G1 E2 G2 M L1 L2 A1 I1 A2 I2]; intros xs LU Hx;
    assert (XU : length (map val xs) = length (inputs (xe evs))) by (rewrite xe_inputs, !map_length; exact LU).
  - cbn [exact_plan live_signal]. rewrite !feed_inputs by assumption. rewrite map_length, <- map_app, firstn_map. apply close_refl. lra.
  - cbn [exact_plan live_signal]. rewrite <- xe_feed, xe_comb.
    set (f := 1 - pow2 (- j)) in *. set (K := pow2 (e + j + 1)) in *. set (M := pow2 e).
    assert (Pj : pow2 (-10) <= pow2 (- j) <= pow2 (-1)) by (split; apply bpow_le; lia).
    replace (pow2 (-10)) with (/ 1024) in Pj by (cbn; lra). replace (pow2 (-1)) with (/ 2) in Pj by (cbn; lra).
    assert (HK : pow2 (-90) <= K <= pow2 100) by (unfold mid in *; split; apply bpow_le; lia).
    assert (Hf1 : 0 <= f <= 1023 / 1024) by (unfold f; lra).
    assert (M0 : 0 < M) by apply bpow_gt_0.
    assert (EK : K * (1 - f) = 2 * M). { unfold K, f, M. replace (1 - (1 - pow2 (- j))) with (pow2 (- j)) by ring. rewrite <- bpow_plus. replace (e + j + 1 + - j)%Z with (1 + e)%Z by lia. rewrite bpow_plus. reflexivity. }
    assert (HM : 101 / 100 * M <= K * (1 - f)) by lra.
    set (E := K / (131072 * (1 - f))). assert (HE : E * (1 - f) = K / 131072) by (unfold E; field; lra).
    pose proof (K_pos K HK) as PK. assert (PE : 0 <= E) by (unfold E; apply Rmult_le_pos; [lra|left; apply Rinv_0_lt_compat; lra]).
    assert (EE : E = pow2 (e + 2 * j + 1) / 131072).
    { unfold E, f, K. replace (1 - (1 - pow2 (- j))) with (pow2 (- j)) by ring. replace (e + 2 * j + 1)%Z with ((e + j + 1) + j)%Z by lia. rewrite (bpow_plus _ (e + j + 1) j).
      assert (X : pow2 j * pow2 (- j) = 1) by (rewrite <- bpow_plus; replace (j + - j)%Z with 0%Z by lia; reflexivity). pose proof (bpow_gt_0 radix2 (- j)). replace (pow2 j) with (/ pow2 (- j)) by (apply Rmult_eq_reg_r with (pow2 (- j)); [rewrite X; field; lra|lra]). field. lra. }
    rewrite <- EE.
    destruct (of_int_exact 0 ltac:(lia)) as [F0 V0].
    assert (T : Forall2 (near_y K E) (comb_spec l 0 (of_int 0) damp fb (comb_events (feed evs xs))) (comb_spec (map val l) 0 (val (of_int 0)) (val damp) (val fb) (map real_op (comb_events (feed evs xs))))).
    { apply comb_tracks with M f; try assumption.
      - clear - Hl PE. induction Hl as [|y l [Fy By] _ IH]; cbn [map]; constructor; [|exact IH]. split; [exact Fy|]. split; [exact By|]. rewrite Rminus_eq_0, Rabs_R0. exact PE.
      - split; [exact F0|]. rewrite V0, Rminus_0_r, Rabs_R0. split; lra.
      - clear - Hx Hm LU. revert xs Hx LU. induction Hm as [|ev evs Ev Hm IH]; intros xs Hx LU; [constructor|].
        destruct ev as [x|w k]; cbn [feed inputs] in *.
        + destruct Hx as [|a xs H1 H2]; [constructor|]. cbn [comb_events]. constructor; [exact H1|]. apply IH; [exact H2|]. cbn in LU. lia.
        + destruct w as [|t w]; [destruct k|]; cbn [comb_events]; try (now apply IH); (constructor; [exact Ev|now apply IH]). }
    rewrite V0 in T. rewrite nint_0. change (nint 0 : f32) with (of_int 0).
    eapply Forall2_val; [|exact T]. intros y z (_ & _ & Q). exact Q.
  - cbn [exact_plan live_signal]. rewrite !feed_inputs by assumption. assert (PM := bpow_gt_0 radix2 e). eapply Forall2_val; [|apply (ap_tracks (pow2 e))].
    + intros y z [_ Q]. exact Q.
    + unfold mid in He. split; apply bpow_le; lia.
    + assert (E2 : pow2 (e + 1) <= 201 / 100 * pow2 e) by (rewrite bpow_plus; change (pow2 1) with 2; lra).
      clear - Hl PM E2. induction Hl as [|y l [Fy By] _ IH]; cbn [map]; constructor; [|exact IH]. split; [exact Fy|]. split; [lra|]. rewrite Rminus_eq_0, Rabs_R0. lra.
    + exact Hx.
  - cbn [exact_plan live_signal]. rewrite (exact_live_filter d evs c (map val xs)) by (try assumption; rewrite map_length; exact LU).
    rewrite (live_filter_runs c (of_int 0) (fun n => nth n xs (of_int 0)) (bq_new (c 0%nat)) (feed evs xs) (bq_new d) 0); try reflexivity.
    + rewrite feed_inputs, map_length, map_map by exact LU.
      assert (Hn : forall k, fin (nth k xs (of_int 0)) = true /\ Rabs (val (nth k xs (of_int 0))) <= pow2 e).
      { intros k. destruct (Nat.lt_ge_cases k (length xs)) as [L|L].
        * rewrite Forall_forall in Hx. exact (Hx _ (nth_In xs (of_int 0) L)).
        * rewrite nth_overflow by lia. destruct (of_int_exact 0 ltac:(lia)) as [F0 V0]. split; [exact F0|]. rewrite V0, Rabs_R0. apply bpow_ge_0. }
      pose proof (C110_f32_tracks NP c m G (pow2 e) (fun n => nth n xs (of_int 0)) Fc HG HA HB Hn) as T. cbv zeta in T.
      generalize (seq 0 (length xs)). intros s. induction s as [|n s IH]; cbn [map]; constructor; [|exact IH]. destruct (T n) as (_ & Q & _).
      rewrite (var_ext _ _ _ (fun k => val (nth k xs (of_int 0)))); [exact Q|]. intros k _. destruct (of_int_exact 0 ltac:(lia)) as [F0 V0]. rewrite <- V0. apply map_nth.
    + cbn [bq_new bq_coeffs]. rewrite in_force_feed by exact LU. exact Hc.
    + intros i _. now rewrite feed_inputs.
  - cbn [exact_plan live_signal]. assert (E : pow2 (e + k) = pow2 e * pow2 k) by apply bpow_plus. clear - Hx He Hg Hm E LU. revert g Hg xs Hx LU. induction Hm as [|ev evs Ev Hm IH]; intros g Hg xs Hx LU; [constructor|].
    destruct ev as [z|w q]; cbn [map exact_event feed inputs] in *.
    + destruct Hx as [|x xs [Fx Bx] H2]; [constructor|]. cbn [live_gain map]. constructor.
      * destruct Hg as [Fg Hg]. assert (A : Rabs (val x * val g) <= pow2 (e + k)) by (rewrite E, Rabs_mult; apply Rmult_le_compat; auto using Rabs_pos).
        assert (A' : Rabs (rnd (val x * val g)) <= pow2 (e + k)) by (apply rnd_abs_le; [now apply mid_repr|exact A]).
        destruct (fmul_spec x g Fx Fg) as [F V].
        -- eapply Rle_lt_trans; [exact A'|]. apply mid_big. unfold mid in He. lia.
        -- cbn [nmul num_f32 num_R]. rewrite V. now apply round_mid.
      * apply IH; [exact Hg|exact H2|]. cbn in LU. lia.
    + destruct w as [|t w]; [destruct q|]; cbn [exact_knob live_gain]; apply IH; auto.
  - assert (ES : forall F (NF : Num F) (p q : plan F) evs u, length u = length (inputs evs) ->
      live_signal (PSeries p q) (feed evs u) = live_signal q (feed (branch false evs) (live_signal p (feed (branch true evs) u)))).
    { intros. cbn [live_signal]. rewrite !branch_feed, (feed_feed _ u) by (rewrite branch_inputs; assumption). reflexivity. }
    cbn [exact_plan]. rewrite !ES by assumption. rewrite !xe_branch. set (ys := live_signal p (feed (branch true evs) xs)).
    assert (LB : length xs = length (inputs (branch true evs))) by (rewrite branch_inputs; exact LU).
    assert (LY : length ys = length (inputs (branch false evs))) by (unfold ys; rewrite live_signal_length, feed_inputs by exact LB; rewrite branch_inputs; exact LU).
    assert (Hy : Forall (bounded (pow2 e1)) ys).
    { apply (live_level_signal p (branch true evs) e e1 L); [now apply feed_alike|]. now rewrite feed_inputs. }
    eapply close_trans; [exact (I2 _ LY Hy)|]. apply (live_lip q (branch false evs) e1 E2 G2 A2); [now apply live_acc_pos in A1| |].
    + now rewrite map_length.
    + now apply I1.
  - cbn [exact_plan live_signal]. rewrite !branch_feed, !xe_branch.
    assert (LB : forall s, length xs = length (inputs (branch s evs))) by (intros s; rewrite branch_inputs; exact LU).
    assert (Hy : Forall (bounded (pow2 e1)) (live_signal p (feed (branch true evs) xs))) by (apply (live_level_signal p (branch true evs) e e1 L1); [now apply feed_alike|rewrite feed_inputs; auto]).
    assert (Hz : Forall (bounded (pow2 e1)) (live_signal q (feed (branch false evs) xs))) by (apply (live_level_signal q (branch false evs) e e1 L2); [now apply feed_alike|rewrite feed_inputs; auto]).
    specialize (I1 xs (LB true) Hx). specialize (I2 xs (LB false) Hx).
    pose proof (live_acc_pos _ _ _ _ _ A1) as [P1 _]. pose proof (live_acc_pos _ _ _ _ _ A2) as [P2 _]. revert I1 I2 Hy Hz.
    generalize (live_signal p (feed (branch true evs) xs)), (live_signal q (feed (branch false evs) xs)), (live_signal (exact_plan p) (feed (xe (branch true evs)) (map val xs))), (live_signal (exact_plan q) (feed (xe (branch false evs)) (map val xs))). clear - M P1 P2.
    assert (EE : pow2 (e1 + 1) = pow2 e1 + pow2 e1) by (rewrite bpow_plus; change (pow2 1) with 2; lra).
    induction l as [|a l IH]; intros l1 l2 l3 K1 K2 Hy Hz; cbn [map] in K1; inversion K1; subst; cbn [added]; [constructor|].
    destruct l1 as [|b l1]; cbn [map] in K2; inversion K2; subst; cbn [added]; [constructor|]. inversion Hy as [|? ? [Fa Ba]]; subst. inversion Hz as [|? ? [Fb Bb]]; subst. cbn [map]. constructor; [|now apply IH].
    cbn [nadd num_f32 num_R].
    assert (S : Rabs (val a + val b) <= pow2 (e1 + 1)) by (rewrite EE; eapply Rle_trans; [apply Rabs_triang|]; lra).
    assert (R : Rabs (rnd (val a + val b)) <= pow2 (e1 + 1)) by (apply rnd_abs_le; [apply repr_bpow; unfold mid in M; lia|exact S]).
    destruct (fadd_spec a b Fa Fb) as [F V]; [eapply Rle_lt_trans; [exact R|]; apply mid_big; unfold mid in M; lia|]. rewrite V.
    assert (Q : Rabs (rnd (val a + val b) - (val a + val b)) <= pow2 (e1 - 22)).
    { eapply Rle_trans; [apply rnd_err|]. assert (X : pow2 (e1 - 22) = pow2 (e1 + 1) * pow2 (-24) + pow2 (e1 - 23)).
      { replace (e1 - 23)%Z with (e1 + -23)%Z by lia. rewrite <- bpow_plus. replace (e1 + 1 + -24)%Z with (e1 + -23)%Z by lia. replace (e1 - 22)%Z with (1 + (e1 + -23))%Z by lia. rewrite (bpow_plus _ 1). change (pow2 1) with 2. lra. }
      rewrite X. assert (pow2 (-150) <= pow2 (e1 - 23)) by (apply bpow_le; unfold mid in M; lia). pose proof (bpow_ge_0 radix2 (-24)). nra. }
    match goal with H1 : Rabs (val a - ?u) <= _, H2 : Rabs (val b - ?v) <= _ |- Rabs (?r - _) <= _ => replace (r - (u + v)) with ((r - (val a + val b)) + ((val a - u) + (val b - v))) by ring end.
    eapply Rle_trans; [apply Rabs_triang|]. eapply Rle_trans; [apply Rplus_le_compat_l, Rabs_triang|]. lra.
Qed.
End Acc.
