(** * C115: changing settings of a network while it runs. *)

From Coq Require Import ZArith List Bool Reals Lia Lra Psatz.
From Flocq Require Import Core.
From Verif Require Import Base F32 F32Lemmas F32Exact F32Range Num M_Memory M_Delay M_Biquad S_Memory S_Delay S_Biquad S_BiquadF32 S_Comb S_Rack S_Network S_NetworkF32 S_Sweep S_SweepF32 S_Live
  P_Memory P_Delay P_DelayNum P_Comb P_Rack P_Network P_Live T_BiquadF32 T_Network T_SweepTrack Examples.
Import ListNotations.
Open Scope Z_scope.

(** Whatever settings of whatever parts are changed between samples, the program computes the composition of its parts,
    each of which sees its own input and only the calls made to itself.  No history panics, and only the network's own
    buffers are written. *)
Theorem C115_live_is_composition : forall (F : Type) (NF : Num F) (B : Build) (h : heap F) n p ss (evs : list (event F)),
  fresh h n p ss -> apart ss ->
  exists h' n', live_run h n evs = Ret (h', n', live_signal p evs) /\ same_except (in_any ss) h h' /\ length (live_signal p evs) = length (inputs evs).
Proof.
  intros F NF B h n p ss evs FR HA. destruct (does_run evs h n ss (live_signal p) (fresh_does h n p ss FR) HA) as (h' & n' & E & S & _).
  exists h', n'. split; [exact E|]. split; [exact S|]. apply live_signal_length.
Qed.
Print Assumptions C115_live_is_composition.

(** Without calls this is the network of C111. *)
Theorem C115_still_network : forall (F : Type) (NF : Num F) (p : plan F) xs, live_signal p (map Tick xs) = signal p xs.
Proof. intros F NF p xs. apply live_still. Qed.
Print Assumptions C115_still_network.

Section Levels.
Context {NP : NanPolicy}.
Local Open Scope R_scope.

Lemma live_filter_response (c : nat -> coeffs f32) (x : nat -> f32) b0 : forall evs b k,
  z1 b = z1 (after_var b0 c x k) -> z2 b = z2 (after_var b0 c x k) ->
  (forall i, (i < length (in_force (bq_coeffs b) evs))%nat -> nth i (in_force (bq_coeffs b) evs) (bq_coeffs b) = c (k + i)%nat) ->
  (forall i, (i < length (inputs evs))%nat -> nth i (inputs evs) (of_int 0) = x (k + i)%nat) ->
  live_filter b evs = map (response_var b0 c x) (seq k (length (inputs evs))).
Proof.
  assert (ND : forall evs d d' i (e : coeffs f32), (i < length (in_force e evs))%nat -> nth i (in_force e evs) d = nth i (in_force e evs) d') by (intros; now apply nth_indep).
  induction evs as [|ev evs IH]; intros b k E1 E2 Hc Hx; [reflexivity|]. destruct ev as [v|w q].
  - cbn [live_filter inputs length seq map]. cbn [in_force length] in Hc. cbn [inputs length] in Hx.
    pose proof (Hc 0%nat ltac:(lia)) as C0. cbn [nth] in C0. rewrite Nat.add_0_r in C0.
    pose proof (Hx 0%nat ltac:(lia)) as X0. cbn [nth] in X0. rewrite Nat.add_0_r in X0.
    assert (EB : b = bq_set_coeffs (after_var b0 c x k) (c k)) by (unfold bq_set_coeffs; rewrite <- E1, <- E2, <- C0; destruct b; reflexivity).
    f_equal; [unfold response_var; now rewrite <- EB, X0|].
    assert (EA : fst (bq_process b v) = after_var b0 c x (S k)) by (cbn [after_var]; now rewrite <- EB, X0).
    assert (EC : bq_coeffs (fst (bq_process b v)) = bq_coeffs b) by reflexivity.
    apply IH.
    + now rewrite EA.
    + now rewrite EA.
    + rewrite EC. intros i Hi. specialize (Hc (S i) ltac:(lia)). cbn [nth] in Hc. rewrite Hc. f_equal. lia.
    + intros i Hi. specialize (Hx (S i) ltac:(lia)). cbn [nth] in Hx. rewrite Hx. f_equal. lia.
  - cbn [inputs] in *. destruct w as [|t w]; [destruct q as [d|d|d|d]|]; try (apply IH; assumption).
    cbn [live_filter]. apply IH; try assumption. cbn [bq_set_coeffs bq_coeffs]. cbn [in_force] in Hc.
    intros i Hi. rewrite (ND evs d (bq_coeffs b) i d Hi). apply Hc, Hi.
Qed.

Lemma in_force_length (evs : list (event f32)) : forall c, length (in_force c evs) = length (inputs evs).
Proof. induction evs as [|[x|[|t w] [v|v|e|g]] evs IH]; intros; cbn; auto. Qed.

Lemma live_level_signal p evs e e' : live_level p evs e e' -> forall evs', Forall2 alike evs evs' ->
  Forall (bounded (pow2 e)) (inputs evs') -> Forall (bounded (pow2 e')) (live_signal p evs').
Proof.
  induction 1 as [l evs e Hl|l damp fb evs e j Hj He He' Hl Hd Hf Hm|l evs e Ne He Hl|d evs e e' c m G Hc Fc HG HA HB HM|g evs e k He Hg Hm|p q evs e e1 e2 L1 I1 L2 I2|p q evs e e1 He L1 I1 L2 I2|p evs e e1 e2 L I Le]; intros evs' AL Hx; cbn [live_signal].
  - exact (level_signal (PDelay l) e e (level_delay l e Hl) (inputs evs') Hx).
  - set (f := 1 - pow2 (- j)) in *. set (K := pow2 (e + j + 1)) in *. set (M := pow2 e) in *.
    assert (Pj : pow2 (-10) <= pow2 (- j) <= pow2 (-1)) by (split; apply bpow_le; lia).
    replace (pow2 (-10)) with (/ 1024) in Pj by (cbn; lra). replace (pow2 (-1)) with (/ 2) in Pj by (cbn; lra).
    assert (HK : pow2 (-90) <= K <= pow2 100) by (unfold mid in *; split; apply bpow_le; lia).
    assert (Hf1 : 0 <= f <= 1023 / 1024) by (unfold f; lra).
    assert (M0 : 0 < M) by apply bpow_gt_0.
    assert (EK : K * (1 - f) = 2 * M). { unfold K, f, M. replace (1 - (1 - pow2 (- j))) with (pow2 (- j)) by ring. rewrite <- bpow_plus. replace (e + j + 1 + - j)%Z with (1 + e)%Z by lia. rewrite bpow_plus. reflexivity. }
    assert (HM : 101 / 100 * M <= K * (1 - f)) by lra.
    set (E := K / (131072 * (1 - f))). assert (HE : E * (1 - f) = K / 131072) by (unfold E; field; lra).
    pose proof (K_pos K HK) as PK. assert (PE : 0 <= E) by (unfold E; apply Rmult_le_pos; [lra|left; apply Rinv_0_lt_compat; lra]).
    destruct (of_int_exact 0 ltac:(lia)) as [F0 V0].
    assert (T : Forall2 (near_y K E) (comb_spec l 0 (of_int 0) damp fb (comb_events evs')) (comb_spec (map val l) 0 (val (of_int 0)) (val damp) (val fb) (map real_op (comb_events evs')))).
    { apply comb_tracks with M f; try assumption.
      - clear - Hl PE. induction Hl as [|y l [Fy By] _ IH]; cbn [map]; constructor; [|exact IH]. split; [exact Fy|]. split; [exact By|]. rewrite Rminus_eq_0, Rabs_R0. exact PE.
      - split; [exact F0|]. rewrite V0, Rminus_0_r, Rabs_R0. split; lra.
      - clear - Hx Hm AL. induction AL as [|a b evs evs' Eab AL IH]; [constructor|]. inversion Hm as [|a' evs1 Ha Hm']; subst.
        destruct a as [v|w q], b as [v'|w' q']; cbn in Eab; try discriminate.
        + cbn [inputs comb_events] in *. inversion Hx; subst. constructor; [assumption|auto].
        + injection Eab as <- <-. cbn [inputs] in Hx. destruct w as [|t w]; [destruct q as [u|u|u|u]|]; cbn [comb_events]; auto; constructor; auto. }
    clear - T. change (nint 0 : f32) with (of_int 0). induction T as [|y z ys zs (Fy & By & Ey) _ IH]; constructor; [|exact IH]. split; assumption.
  - exact (level_signal (PPass l) e (e + 2) (level_pass l e Ne He Hl) (inputs evs') Hx).
  - set (x := fun n => nth n (inputs evs') (of_int 0)).
    rewrite (live_filter_response c x (bq_new (c 0%nat)) evs' (bq_new d) 0); try reflexivity.
    + apply Forall_forall. intros y Hy. apply in_map_iff in Hy. destruct Hy as (n & <- & _).
      destruct (C110_f32_tracks NP c m G (pow2 e) x Fc HG HA HB) with (n := n) as (F & _ & Y).
      * intros k. unfold x. destruct (Nat.lt_ge_cases k (length (inputs evs'))) as [L|L].
        -- rewrite Forall_forall in Hx. exact (Hx _ (nth_In _ (of_int 0) L)).
        -- rewrite nth_overflow by lia. destruct (of_int_exact 0 ltac:(lia)) as [F0 V0]. split; [exact F0|]. rewrite V0, Rabs_R0. apply bpow_ge_0.
      * split; [exact F|]. lra.
    + cbn [bq_new bq_coeffs]. rewrite <- (alike_in_force evs evs' AL). exact Hc.
  - assert (E : pow2 (e + k) = pow2 e * pow2 k) by apply bpow_plus.
    assert (ST : forall v h, bounded (pow2 e) v -> gain_ok k h -> bounded (pow2 (e + k)) (fmul v h)).
    { intros v h [Fv Bv] [Fh Bh]. assert (A : Rabs (val v * val h) <= pow2 (e + k)) by (rewrite E, Rabs_mult; apply Rmult_le_compat; auto using Rabs_pos).
      assert (A' : Rabs (rnd (val v * val h)) <= pow2 (e + k)) by (apply rnd_abs_le; [now apply mid_repr|exact A]).
      destruct (fmul_spec v h Fv Fh) as [F V].
      - eapply Rle_lt_trans; [exact A'|]. apply mid_big. unfold mid in He. lia.
      - split; [exact F|]. now rewrite V. }
    clear - Hx Hm AL Hg ST. revert g Hg. induction AL as [|a b evs evs' Eab AL IH]; intros g Hg; [constructor|]. inversion Hm as [|a' evs1 Ha Hm']; subst.
    destruct a as [v|w q], b as [v'|w' q']; cbn in Eab; try discriminate.
    + cbn [inputs live_gain] in *. inversion Hx; subst. constructor; [now apply ST|auto].
    + injection Eab as <- <-. cbn [inputs] in Hx. destruct w as [|t w]; [destruct q as [u|u|u|u]|]; cbn [live_gain]; auto.
  - pose proof (I1 _ (alike_branch true _ _ AL)) as J1. rewrite branch_inputs in J1. specialize (J1 Hx).
    assert (LE : length (live_signal p (branch true evs')) = length (inputs (branch false evs'))) by (now rewrite live_signal_length, !branch_inputs).
    apply I2.
    + apply alike_trans with (branch false evs'); [now apply alike_branch|now apply feed_alike].
    + now rewrite feed_inputs.
  - pose proof (I1 _ (alike_branch true _ _ AL)) as J1. rewrite branch_inputs in J1. specialize (J1 Hx).
    pose proof (I2 _ (alike_branch false _ _ AL)) as J2. rewrite branch_inputs in J2. specialize (J2 Hx).
    revert J1 J2. generalize (live_signal p (branch true evs')), (live_signal q (branch false evs')). clear - He.
    assert (E : pow2 (e1 + 1) = pow2 e1 + pow2 e1) by (rewrite bpow_plus; cbn; lra).
    induction l as [|x l IH]; intros [|y l'] H1 H2; cbn [added]; try constructor.
    + inversion H1; inversion H2; subst. cbn [nadd num_f32]. rewrite E. apply add_bounded; auto; rewrite <- E; [apply repr_bpow|apply mid_big]; unfold mid in He; lia.
    + inversion H1; inversion H2; subst. now apply IH.
  - apply (all_le (pow2 e1)); [now apply bpow_le|auto].
Qed.
End Levels.

(** As long as every setting in every history respects its limits, no sample is an infinity or a NaN or exceeds its level. *)
Theorem C115_live_bounded : forall (NP : NanPolicy) (B : Build) (h : heap f32) n p ss (evs : list (event f32)) e e',
  fresh h n p ss -> apart ss -> live_level p evs e e' -> Forall (bounded (pow2 e)) (inputs evs) ->
  exists h' n' ys, live_run h n evs = Ret (h', n', ys) /\ length ys = length (inputs evs) /\ Forall (bounded (pow2 e')) ys.
Proof.
  intros NP B h n p ss evs e e' FR HA HL Hx. destruct (C115_live_is_composition f32 _ B h n p ss evs FR HA) as (h' & n' & E & _ & L).
  exists h', n', (live_signal p evs). split; [exact E|]. split; [exact L|]. apply (live_level_signal p evs e e' HL); [apply alike_refl|exact Hx].
Qed.
Print Assumptions C115_live_bounded.

(** ** A comb, a filter and a gain whose settings are moved at will. *)
Definition stage_net {NP : NanPolicy} : net f32 := NSeries (room_comb (MS (PAt 0 0) 3)) (NSeries (NFilter (bq_new plus_setting)) (NScale (of_int 1))).
Definition stage_plan {NP : NanPolicy} : plan f32 := PSeries (PComb (zeros 3) room_damp room_feedback) (PSeries (PFilter plus_setting) (PScale (of_int 1))).
(** Samples within 1, any dampening up to 15/16, any feedback and gain up to 1/2 and 1, either of two filter settings. *)
Definition stage_event {NP : NanPolicy} (ev : event f32) : Prop :=
  match ev with
  | Tick x => bounded 1 x
  | Turn [true] (KDamp v) => damp_ok v
  | Turn [true] (KFeedback v) => fb_ok (1 / 2) v
  | Turn [false; true] (KCoeffs c) => c = plus_setting \/ c = minus_setting
  | Turn [false; false] (KGain g) => gain_ok 0 g
  | _ => False
  end.

Lemma setting_ok (NP : NanPolicy) d : d = plus_setting \/ d = minus_setting ->
  finite_coeffs d /\ within_limits (BC 1%R 0%R 0%R (1 / 4)%R (1 / 2)%R) (exact_coeffs d) /\ (Rabs (a1 (exact_coeffs d)) + Rabs (a2 (exact_coeffs d)) <= 9 / 10 * (9 / 10))%R.
Proof.
  destruct (lit_exact 1 (-2) ltac:(lia) ltac:(lia)) as [F1 V1]. destruct (lit_exact 1 (-1) ltac:(lia) ltac:(lia)) as [F2 V2].
  destruct (lit_exact (-1) (-2) ltac:(lia) ltac:(lia)) as [F3 V3]. destruct (lit_exact (-1) (-1) ltac:(lia) ltac:(lia)) as [F4 V4].
  destruct (of_int_exact 0 ltac:(lia)) as [F5 V5]. destruct (of_int_exact 1 ltac:(lia)) as [F6 V6].
  replace (IZR 1 * pow2 (-2))%R with (1 / 4)%R in V1 by (cbn; lra). replace (IZR 1 * pow2 (-1))%R with (1 / 2)%R in V2 by (cbn; lra).
  replace (IZR (-1) * pow2 (-2))%R with (- (1 / 4))%R in V3 by (cbn; lra). replace (IZR (-1) * pow2 (-1))%R with (- (1 / 2))%R in V4 by (cbn; lra).
  assert (E1 : exact_coeffs plus_setting = BC 1%R 0%R 0%R (1 / 4)%R (1 / 2)%R) by (unfold exact_coeffs, plus_setting; cbn [b0 b1 b2 a1 a2]; now rewrite V1, V2, V5, V6).
  assert (E2 : exact_coeffs minus_setting = BC 1%R 0%R 0%R (- (1 / 4))%R (- (1 / 2))%R) by (unfold exact_coeffs, minus_setting; cbn [b0 b1 b2 a1 a2]; now rewrite V3, V4, V5, V6).
  intros [->| ->]; [rewrite E1|rewrite E2]; (split; [repeat split; assumption|]);
    unfold within_limits; cbn [b0 b1 b2 a1 a2]; rewrite ?Rabs_Ropp, Rabs_R0, Rabs_R1, !Rabs_pos_eq by lra; repeat split; lra.
Qed.

Lemma stage_level (NP : NanPolicy) evs : Forall stage_event evs -> live_level stage_plan evs 0 7.
Proof.
  intros H. destruct (of_int_exact 0 ltac:(lia)) as [F0 V0]. destruct (of_int_exact 1 ltac:(lia)) as [F1 V1].
  destruct (lit_exact 1 (-2) ltac:(lia) ltac:(lia)) as [Fd Vd]. destruct (lit_exact 1 (-1) ltac:(lia) ltac:(lia)) as [Ff Vf].
  unfold stage_plan. apply live_series with 2%Z; [|apply live_series with 7%Z].
  - apply (live_comb _ _ _ _ 0 1); unfold mid; try lia.
    + unfold zeros. apply Forall_forall. intros x Hx. apply repeat_spec in Hx. subst x. change (nint 0 : f32) with (of_int 0). split; [exact F0|]. rewrite V0, Rabs_R0. apply bpow_ge_0.
    + split; [exact Fd|]. change (room_damp : f32) with (lit 1 (-2)). rewrite Vd. cbn. lra.
    + split; [exact Ff|]. change (room_feedback : f32) with (lit 1 (-1)). rewrite Vf. rewrite Rabs_pos_eq; cbn; lra.
    + replace (1 - pow2 (- (1)))%R with (1 / 2)%R by (cbn; lra).
      induction H as [|ev evs E _ IH]; [constructor|]. destruct ev as [x|[|[|] w] k]; cbn [branch Bool.eqb]; try (constructor; [exact I|exact IH]); try exact IH.
      constructor; [|exact IH]. destruct w as [|t w]; [destruct k; cbn in *; try exact E; exact I|destruct k; exact I].
  - set (b := branch true (branch false evs)).
    assert (IN : forall d, In d (in_force plus_setting b) -> d = plus_setting \/ d = minus_setting).
    { unfold b. clear b. assert (G : forall c0, (c0 = plus_setting \/ c0 = minus_setting) -> forall d, In d (in_force c0 (branch true (branch false evs))) -> d = plus_setting \/ d = minus_setting).
      { induction H as [|ev evs E _ IH]; intros c0 H0 d Hd; [destruct Hd|]. destruct ev as [x|[|[|] [|[|] w]] k]; cbn [branch Bool.eqb] in Hd; try (exact (IH c0 H0 d Hd)).
        - cbn [in_force] in Hd. destruct Hd as [<-|Hd]; [exact H0|exact (IH c0 H0 d Hd)].
        - destruct w as [|t w]; cbn [in_force] in Hd; [|exact (IH c0 H0 d Hd)]. destruct k as [v|v|c|g]; try (exact (IH c0 H0 d Hd)). exact (IH c E d Hd). }
      apply G. now left. }
    set (c := fun k => nth k (in_force plus_setting b) plus_setting).
    assert (C : forall k, c k = plus_setting \/ c k = minus_setting).
    { intros k. unfold c. destruct (Nat.lt_ge_cases k (length (in_force plus_setting b))) as [L|L]; [apply IN, nth_In, L|left; now apply nth_overflow]. }
    assert (FW : forward_weight (BC 1%R 0%R 0%R (1 / 4)%R (1 / 2)%R) = 1%R) by (unfold forward_weight; cbn [b0 b1 b2]; rewrite Rabs_R0, Rabs_R1; ring).
    apply (live_filtered plus_setting b 2 7 c (BC 1%R 0%R 0%R (1 / 4)%R (1 / 2)%R) (1 + / (9 / 10 * (1 - 9 / 10)))).
    + reflexivity.
    + intros k. destruct (setting_ok NP (c k) (C k)) as (Q1 & Q2 & _). auto.
    + apply small_gain_var; [lra|]. intros k. apply (setting_ok NP (c k) (C k)).
    + unfold feedback_weight. cbn [a1 a2]. rewrite !Rabs_pos_eq by lra. lra.
    + rewrite FW, Rmult_1_l. split; apply bpow_le; lia.
    + rewrite FW. replace (pow2 2) with 4%R by (cbn; lra). replace (pow2 7) with 128%R by (cbn; lra). lra.
  - apply (live_scale _ _ 7 0); [unfold mid; lia|split; [exact F1|rewrite V1, Rabs_R1; cbn; lra]|].
    induction H as [|ev evs E _ IH]; [constructor|]. destruct ev as [x|[|[|] [|[|] w]] k]; cbn [branch Bool.eqb]; try (constructor; [exact I|exact IH]); try exact IH.
    constructor; [|exact IH]. destruct w as [|t w]; [destruct k; cbn in *; try exact E; exact I|destruct k; exact I].
Qed.

Example C115_met : forall (NP : NanPolicy) (B : Build) evs, Forall stage_event evs ->
  exists h' n' ys, live_run room_heap stage_net evs = Ret (h', n', ys) /\ length ys = length (inputs evs) /\ Forall (bounded 128%R) ys.
Proof.
  intros NP B evs H. replace 128%R with (pow2 7) by (cbn; lra).
  apply (C115_live_bounded NP B room_heap stage_net stage_plan ([MS (PAt 0 0) 3] ++ ([] ++ [])) evs 0 7).
  - apply fresh_series; [apply fresh_comb; [|cbn; lia]|apply fresh_series; constructor]. exact (room_covers f32 _ B 0 0 3 ltac:(lia) eq_refl).
  - intros i j s t b o Hi Hj _ _. destruct i as [|[|i]]; cbn in Hi; try discriminate. destruct j as [|[|j]]; cbn in Hj; try discriminate. reflexivity.
  - now apply stage_level.
  - clear - H. induction H as [|ev evs E _ IH]; [constructor|]. destruct ev as [x|w k]; cbn [inputs]; [constructor; [exact E|exact IH]|exact IH].
Qed.

(** Eight samples of an impulse with the feedback turned up, the filter switched and the gain halved on the way. *)
Example C115_runs (NP : NanPolicy) : let B := dbg32 in
  match live_run (room_heap (F := f32)) stage_net
     [Tick (of_int 1); Tick (of_int 0); Tick (of_int 0); Turn [true] (KFeedback (lit (-1) (-1))); Tick (of_int 0); Turn [false; true] (KCoeffs minus_setting); Tick (of_int 0);
      Turn [false; false] (KGain (lit 1 (-1))); Tick (of_int 0); Turn [true] (KDamp (of_int 0)); Tick (of_int 0); Tick (of_int 0)] with
  | Ret (_, _, ys) => map to_bits ys = map (fun z => to_bits (lit z (-10))) [0; 0; 0; 1024; -256; -288; -328; -274]
  | _ => False
  end.
Proof. intros B. vm_compute. reflexivity. Qed.
