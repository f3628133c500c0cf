(** * C120: how fast a network dies away while its settings are moved. *)

From Coq Require Import ZArith List Bool Reals Lia Lra.
From Flocq Require Import Core.
From Verif Require Import Base F32 F32Lemmas F32Exact F32Range Num M_Memory M_Delay M_Biquad S_Memory S_Delay S_Biquad S_BiquadF32 S_Comb S_Rack S_Network S_NetworkF32 S_NetworkAcc S_Sweep S_SweepF32 S_Live S_LiveAcc S_Reverb S_LiveReverb
  P_Network P_NetworkLin P_NetworkAcc P_Live P_LiveAcc P_Reverb P_LiveReverb T_BiquadF32 T_Network T_SweepTrack T_Live T_LiveAcc.
Import ListNotations.
Local Open Scope R_scope.

Lemma signal_falls (rho M L : R) (p : plan R) (evs : list (event R)) (xs silence : list R) : 0 < rho <= 1 -> live_falls rho p evs M L -> 0 <= M ->
  inputs evs = xs ++ silence -> Forall (fun x => Rabs x <= M) xs -> Forall (fun x => x = 0) silence ->
  forall i, Rabs (nth (length xs + i) (live_signal p evs) 0) <= L * rho ^ i.
Proof.
  intros Hr HF PM HI Hx H0 i. rewrite <- (feed_self evs). replace (rho ^ i) with (w rho (length xs) (length xs + i)) by (unfold w; f_equal; lia).
  apply (live_falls_sound rho (length xs) Hr p evs M L HF); [reflexivity|]. intros k. rewrite HI. unfold w. destruct (Nat.lt_ge_cases k (length xs)) as [Lk|Lk].
  - replace (k - length xs)%nat with 0%nat by lia. cbn [pow]. rewrite Rmult_1_r, app_nth1 by exact Lk. rewrite Forall_forall in Hx. apply Hx, nth_In, Lk.
  - rewrite app_nth2 by exact Lk. assert (E : nth (k - length xs) silence 0 = 0).
    { destruct (Nat.lt_ge_cases (k - length xs) (length silence)) as [Q|Q]; [rewrite Forall_forall in H0; apply H0, nth_In, Q|now apply nth_overflow]. }
    rewrite E, Rabs_R0. apply Rmult_le_pos; [exact PM|apply pow_le; lra].
Qed.

(** In exact arithmetic, for any history of samples and calls: once the samples are silent the outputs fall by [rho]
    every sample, whatever calls are still made. *)
Theorem C120_live_falls : forall (B : Build) (h : heap R) n p ss (evs : list (event R)) (xs silence : list R) (rho M L : R),
  fresh h n p ss -> apart ss -> 0 < rho <= 1 -> live_falls rho p evs M L -> 0 <= M ->
  inputs evs = xs ++ silence -> Forall (fun x => Rabs x <= M) xs -> Forall (fun x => x = 0) silence ->
  exists h' n' ys, live_run h n evs = Ret (h', n', ys) /\ length ys = (length xs + length silence)%nat /\
    forall i, Rabs (nth (length xs + i) ys 0) <= L * rho ^ i.
Proof.
  intros B h n p ss evs xs silence rho M L FR HA Hr HF PM HI Hx H0.
  destruct (C115_live_is_composition R _ B h n p ss evs FR HA) as (h' & n' & R1 & _).
  exists h', n'. eexists. split; [exact R1|]. split; [now rewrite live_signal_length, HI, app_length|].
  now apply signal_falls with M silence.
Qed.
Print Assumptions C120_live_falls.

(** Limits below 1 on the dampening, the feedback and the recursion of the filters give one rate below 1, and one
    level for each level of the input, for all histories that respect the limits. *)
Theorem C120_limited_moves_fall : forall (P f s W K : R) (p : plan R), 0 <= P < 1 -> 0 <= f < 1 -> 0 < s < 1 -> moves_within P f s W K p [] ->
  exists rho, 0 < rho < 1 /\ forall M, 0 <= M -> exists L, 0 <= L /\
  forall evs, moves_within P f s W K p evs -> live_falls rho p evs M L.
Proof.
  intros P f s W K p HP Hf Hs H0. destruct (live_rate P f s W K HP Hf Hs p H0) as (r & Hr & HR). exists r. split; [exact Hr|].
  intros M PM. exact (HR r ltac:(lra) M PM).
Qed.
Print Assumptions C120_limited_moves_fall.

(** The same for the running program. *)
Theorem C120_limited_runs_fall : forall (B : Build) (h : heap R) n p ss (P f s W K : R), fresh h n p ss -> apart ss ->
  0 <= P < 1 -> 0 <= f < 1 -> 0 < s < 1 -> moves_within P f s W K p [] ->
  exists rho, 0 < rho < 1 /\ forall M, 0 <= M -> exists L, forall evs xs silence, moves_within P f s W K p evs ->
  inputs evs = xs ++ silence -> Forall (fun x => Rabs x <= M) xs -> Forall (fun x => x = 0) silence ->
  exists h' n' ys, live_run h n evs = Ret (h', n', ys) /\ length ys = (length xs + length silence)%nat /\
    forall i, Rabs (nth (length xs + i) ys 0) <= L * rho ^ i.
Proof.
  intros B h n p ss P f s W K FR HA HP Hf Hs H0. destruct (C120_limited_moves_fall P f s W K p HP Hf Hs H0) as (rho & Hr & HL). exists rho. split; [exact Hr|].
  intros M PM. destruct (HL M PM) as (L & _ & HF). exists L. intros evs xs silence Hm HI Hx HZ.
  apply (C120_live_falls B h n p ss evs xs silence rho M L FR HA ltac:(lra) (HF evs Hm) PM HI Hx HZ).
Qed.
Print Assumptions C120_limited_runs_fall.

(** With no calls the rates are those of C118. *)
Theorem C120_still_falls : forall (rho : R) p M L, stable p -> falls rho p M L -> forall xs : list R, live_falls rho p (map Tick xs) M L.
Proof.
  intros rho p M L ST F xs.
  assert (SF : forall Q : event R -> Prop, (forall x, Q (Tick x)) -> Forall Q (map Tick xs)).
  { intros Q HQ. apply Forall_forall. intros ev Hev. apply in_map_iff in Hev. destruct Hev as (x & <- & _). apply HQ. }
  assert (IF : forall d, in_force d (map Tick xs) = repeat d (length xs)) by (intros d; clear; induction xs as [|x xs IH]; cbn; [reflexivity|now rewrite IH]).
  assert (BR : forall t, branch t (map (@Tick R) xs) = map Tick xs) by (intros t; clear; induction xs as [|x xs IH]; cbn; [reflexivity|now rewrite IH]).
  revert ST. induction F as [l A B H1 H2|l p g A B T Ne Hp PT H1 H2 Hl|l A B V Ne H1 Hl H2|c A B G HG HB|g A B HB|p q A B C F1 I1 F2 I2|p q A B C D F1 I1 F2 I2 H]; intros ST; inversion ST; subst.
  - now constructor.
  - apply lfalls_comb with T p (Rabs g); auto; try lra. apply SF. exact (fun _ => I).
  - now apply lfalls_pass with V.
  - apply lfalls_filter with (fun _ => c) (own_limits (sped_up rho c)) G; rewrite ?own_forward; auto using still_gain, own_within.
    intros k Hk. rewrite IF in *. rewrite repeat_length in Hk. apply nth_repeat.
  - apply lfalls_scale with (Rabs g); auto; try lra. apply SF. exact (fun _ => I).
  - apply lfalls_series with B; rewrite BR; auto.
  - apply lfalls_mix with B C; rewrite ?BR; auto.
Qed.
Print Assumptions C120_still_falls.

(** In f32 the outputs fall in the same way, down to the accuracy of the arithmetic (C119). *)
Theorem C120_f32_live_falls : forall (NP : NanPolicy) (B : Build) (h : heap f32) n p ss (evs : list (event f32)) (xs silence : list f32) e e' E G (rho L : R),
  fresh h n p ss -> apart ss -> live_level p evs e e' -> live_accuracy p evs e E G ->
  0 < rho <= 1 -> live_falls rho (exact_plan p) (map exact_event evs) (pow2 e) L ->
  inputs evs = xs ++ silence -> Forall (bounded (pow2 e)) xs -> Forall (fun x => fin x = true /\ val x = 0) silence ->
  exists h' n' ys, live_run h n evs = Ret (h', n', ys) /\ length ys = (length xs + length silence)%nat /\ Forall (fun y => fin y = true) ys /\
    forall i, (i < length silence)%nat -> Rabs (val (nth (length xs + i) ys (of_int 0))) <= L * rho ^ i + E.
Proof.
  intros NP B h n p ss evs xs silence e e' E G rho L FR HA LV AC Hr HF HI Hx H0.
  destruct (C115_live_is_composition f32 _ B h n p ss evs FR HA) as (h' & n' & R1 & _).
  assert (PE : 0 <= pow2 e) by apply bpow_ge_0.
  assert (HB : Forall (bounded (pow2 e)) (inputs evs)).
  { rewrite HI. apply Forall_app. split; [exact Hx|]. revert H0. apply Forall_impl. intros x [F V]. split; [exact F|]. now rewrite V, Rabs_R0. }
  pose proof (live_sound p evs e E G AC (inputs evs) eq_refl HB) as S. rewrite <- xe_feed, feed_self in S.
  pose proof (live_level_signal p evs e e' LV evs (alike_refl evs) HB) as LB.
  assert (LN : length (live_signal p evs) = (length xs + length silence)%nat) by (now rewrite live_signal_length, HI, app_length).
  exists h', n'. eexists. split; [exact R1|]. split; [exact LN|]. split; [revert LB; apply Forall_impl; intros y [F _]; exact F|].
  intros i Hi.
  assert (XI : inputs (map exact_event evs) = map val xs ++ map val silence) by (rewrite xe_inputs, HI; apply map_app).
  assert (Q : Rabs (nth (length (map val xs) + i) (live_signal (exact_plan p) (map exact_event evs)) 0) <= L * rho ^ i).
  { apply (signal_falls rho (pow2 e) L (exact_plan p) (map exact_event evs) (map val xs) (map val silence)); auto.
    - rewrite Forall_map. revert Hx. apply Forall_impl. intros x [_ V]. exact V.
    - rewrite Forall_map. revert H0. apply Forall_impl. intros x [_ V]. exact V. }
  rewrite map_length in Q.
  assert (C : Rabs (nth (length xs + i) (map val (live_signal p evs)) 0 - nth (length xs + i) (live_signal (exact_plan p) (map exact_event evs)) 0) <= E).
  { assert (CL : forall (us vs : list R), close E us vs -> forall j, (j < length us)%nat -> Rabs (nth j us 0 - nth j vs 0) <= E).
    { intros us vs. induction 1 as [|u v us vs H1 _ IH]; intros j Hj; [cbn in Hj; lia|]. destruct j as [|j]; [exact H1|]. apply IH. cbn in Hj. lia. }
    apply CL; [exact S|]. rewrite map_length, LN. lia. }
  rewrite (nth_indep _ 0 (val (of_int 0))) in C by (rewrite map_length, LN; lia). rewrite map_nth in C.
  set (a := val (nth (length xs + i) (live_signal p evs) (of_int 0))) in *. set (b := nth (length xs + i) (live_signal (exact_plan p) (map exact_event evs)) 0) in *.
  replace a with ((a - b) + b) by ring. eapply Rle_trans; [apply Rabs_triang|]. lra.
Qed.
Print Assumptions C120_f32_live_falls.

(** ** The stage of C115: every history within its limits dies away at one rate once the samples are silent. *)
Lemma stage_within (NP : NanPolicy) evs : Forall stage_event evs ->
  moves_within (15 / 16) (1 / 2) (9 / 10) 1 1 (exact_plan stage_plan) (map exact_event evs).
Proof.
  intros H. destruct (of_int_exact 1 ltac:(lia)) as [F1 V1].
  destruct (lit_exact 1 (-2) ltac:(lia) ltac:(lia)) as [Fd Vd]. destruct (lit_exact 1 (-1) ltac:(lia) ltac:(lia)) as [Ff Vf].
  assert (ML : forall d, d = plus_setting \/ d = minus_setting -> mild (9 / 10) 1 (exact_coeffs d)).
  { intros d Hd. destruct (setting_ok NP d Hd) as (_ & (B0 & B1 & B2 & _) & HA). split; [exact HA|]. unfold forward_weight. cbn [b0 b1 b2] in B0, B1, B2. lra. }
  assert (BR : forall t es, branch t (map exact_event es) = map exact_event (branch t es)) by (intros; apply xe_branch).
  unfold stage_plan. cbn [exact_plan moves_within]. rewrite !BR. repeat apply conj.
  - discriminate.
  - change (room_damp : f32) with (lit 1 (-2)). rewrite Vd. cbn. lra.
  - change (room_damp : f32) with (lit 1 (-2)). rewrite Vd. cbn. lra.
  - change (room_feedback : f32) with (lit 1 (-1)). rewrite Vf, Rabs_pos_eq; cbn; lra.
  - rewrite Forall_map. induction H as [|ev evs E _ IH]; [constructor|]. destruct ev as [x|[|[|] w] k]; cbn [branch Bool.eqb]; try (constructor; [exact I|exact IH]); try exact IH.
    constructor; [|exact IH]. destruct w as [|t w]; [destruct k; cbn in *; try exact I; destruct E; assumption|destruct k; exact I].
  - apply ML. now left.
  - apply ML. now left.
  - rewrite Forall_map. induction H as [|ev evs E _ IH]; [constructor|]. destruct ev as [x|[|[|] [|[|] w]] k]; cbn [branch Bool.eqb]; try (constructor; [exact I|exact IH]); try exact IH.
    constructor; [|exact IH]. destruct w as [|t w]; [destruct k; cbn in *; try exact I; now apply ML|destruct k; exact I].
  - rewrite V1, Rabs_R1. lra.
  - rewrite Forall_map. induction H as [|ev evs E _ IH]; [constructor|]. destruct ev as [x|[|[|] [|[|] w]] k]; cbn [branch Bool.eqb]; try (constructor; [exact I|exact IH]); try exact IH.
    constructor; [|exact IH]. destruct w as [|t w]; [destruct k; cbn in *; try exact I; destruct E; assumption|destruct k; exact I].
Qed.

Example C120_met : forall (NP : NanPolicy) (B : Build), exists rho L, 0 < rho < 1 /\ forall evs xs silence, Forall stage_event evs ->
  inputs evs = xs ++ silence -> Forall (fun x => fin x = true /\ val x = 0) silence ->
  exists h' n' ys, live_run room_heap stage_net evs = Ret (h', n', ys) /\ length ys = (length xs + length silence)%nat /\
    forall i, (i < length silence)%nat -> Rabs (val (nth (length xs + i) ys (of_int 0))) <= L * rho ^ i + 1 / 300.
Proof.
  intros NP B. destruct (C120_limited_moves_fall (15 / 16) (1 / 2) (9 / 10) 1 1 (exact_plan stage_plan) ltac:(lra) ltac:(lra) ltac:(lra) (stage_within NP [] (Forall_nil _))) as (rho & Hr & HL).
  destruct (HL (pow2 0) (bpow_ge_0 _ _)) as (L & _ & HF). exists rho, L. split; [exact Hr|]. intros evs xs silence H HI H0.
  destruct (stage_accuracy NP evs H) as (E & G & AC & HE).
  assert (AP : apart ([MS (PAt 0 0) 3] ++ ([] ++ []))) by (intros i j s t b o Hi Hj _ _; destruct i as [|[|i]]; cbn in Hi; try discriminate; destruct j as [|[|j]]; cbn in Hj; try discriminate; reflexivity).
  assert (HB : Forall (bounded (pow2 0)) (inputs evs)).
  { clear - H. induction H as [|ev evs E _ IH]; [constructor|]. destruct ev as [x|w k]; cbn [inputs]; [constructor; [exact E|exact IH]|exact IH]. }
  rewrite HI in HB. apply Forall_app in HB. destruct HB as [HB _].
  destruct (C120_f32_live_falls NP B room_heap stage_net stage_plan ([MS (PAt 0 0) 3] ++ ([] ++ [])) evs xs silence 0 7 E G rho L) as (h' & n' & ys & H1 & H2 & _ & H3); auto.
  - apply fresh_series; [apply fresh_comb; [|cbn; lia]|apply fresh_series; constructor]. exact (room_covers f32 _ B 0 0 3 ltac:(lia) eq_refl).
  - now apply stage_level.
  - lra.
  - apply HF. now apply stage_within.
  - do 3 eexists. split; [exact H1|]. split; [exact H2|]. intros i Hi. specialize (H3 i Hi). lra.
Qed.
