(** * C119: the distance from exact arithmetic of an f32 network whose settings are moved. *)

From Coq Require Import ZArith List Bool Reals Lia Lra.
From Flocq Require Import Core.
From Verif Require Import Base F32 F32Lemmas F32Exact F32Range Num M_Memory M_Delay M_Biquad S_Memory S_Delay S_Biquad S_BiquadF32 S_Comb S_Rack S_Network S_NetworkF32 S_NetworkAcc S_Sweep S_SweepF32 S_Live S_LiveAcc
  P_Network P_NetworkLin P_NetworkAcc P_Live P_LiveAcc T_BiquadF32 T_Network T_SweepTrack T_Live.
Import ListNotations.
Local Open Scope R_scope.

(** The same history of samples and calls, played to an f32 network and to the same network in exact arithmetic: the
    outputs differ by at most the error of the wiring, however long the history is. *)
Theorem C119_live_tracks : forall (NP : NanPolicy) (B : Build) (h : heap f32) n p ss (hr : heap R) nr sr (evs : list (event f32)) e e' E G,
  fresh h n p ss -> apart ss -> fresh hr nr (exact_plan p) sr -> apart sr ->
  live_level p evs e e' -> live_accuracy p evs e E G -> Forall (bounded (pow2 e)) (inputs evs) ->
  exists h' n' ys hr' nr' zs, live_run h n evs = Ret (h', n', ys) /\ live_run hr nr (map exact_event evs) = Ret (hr', nr', zs) /\
    Forall (bounded (pow2 e')) ys /\ close E (map val ys) zs.
Proof.
  intros NP B h n p ss hr nr sr evs e e' E G F1 A1 F2 A2 L AC Hx.
  destruct (C115_live_is_composition f32 _ B h n p ss evs F1 A1) as (h' & n' & R1 & _).
  destruct (C115_live_is_composition R _ B hr nr _ sr (map exact_event evs) F2 A2) as (hr' & nr' & R2 & _).
  do 6 eexists. split; [exact R1|]. split; [exact R2|]. split; [apply (live_level_signal p evs e e' L); [apply alike_refl|exact Hx]|].
  pose proof (live_sound p evs e E G AC (inputs evs) eq_refl Hx) as S. now rewrite <- xe_feed, feed_self in S.
Qed.
Print Assumptions C119_live_tracks.

(** The exact network may also be given other samples, within [D] of those of the f32 network. *)
Theorem C119_live_tracks_inputs : forall (NP : NanPolicy) (B : Build) (h : heap f32) n p ss (hr : heap R) nr sr (evs : list (event f32)) (us : list R) e e' E G D,
  fresh h n p ss -> apart ss -> fresh hr nr (exact_plan p) sr -> apart sr ->
  live_level p evs e e' -> live_accuracy p evs e E G -> Forall (bounded (pow2 e)) (inputs evs) -> 0 <= D -> close D (map val (inputs evs)) us ->
  exists h' n' ys hr' nr' zs, live_run h n evs = Ret (h', n', ys) /\ live_run hr nr (feed (map exact_event evs) us) = Ret (hr', nr', zs) /\
    Forall (bounded (pow2 e')) ys /\ close (E + G * D) (map val ys) zs.
Proof.
  intros NP B h n p ss hr nr sr evs us e e' E G D F1 A1 F2 A2 L AC Hx PD Hu.
  destruct (C115_live_is_composition f32 _ B h n p ss evs F1 A1) as (h' & n' & R1 & _).
  destruct (C115_live_is_composition R _ B hr nr _ sr (feed (map exact_event evs) us) F2 A2) as (hr' & nr' & R2 & _).
  do 6 eexists. split; [exact R1|]. split; [exact R2|]. split; [apply (live_level_signal p evs e e' L); [apply alike_refl|exact Hx]|].
  pose proof (live_sound p evs e E G AC (inputs evs) eq_refl Hx) as S. rewrite feed_self in S.
  eapply close_trans; [exact S|]. apply (live_lip p evs e E G AC D); [exact PD|now rewrite map_length|exact Hu].
Qed.
Print Assumptions C119_live_tracks_inputs.

(** ** Without calls *)
Lemma still_branch (xs : list f32) s : branch s (map Tick xs) = map Tick xs.
Proof. induction xs as [|x xs IH]; cbn; [reflexivity|now rewrite IH]. Qed.
Lemma still_force (xs : list f32) d : in_force d (map Tick xs) = repeat d (length xs).
Proof. induction xs as [|x xs IH]; cbn; [reflexivity|now rewrite IH]. Qed.
Lemma still_forall (P : event f32 -> Prop) (xs : list f32) : (forall x, P (Tick x)) -> Forall P (map Tick xs).
Proof. intros H. apply Forall_forall. intros ev Hev. apply in_map_iff in Hev. destruct Hev as (x & <- & _). apply H. Qed.
Lemma still_response (c : coeffs R) x n : response_var (bq_new c) (fun _ => c) x n = response (bq_new c) x n.
Proof.
  assert (ST : forall (b : biquad R) c, bq_coeffs b = c -> bq_set_coeffs b c = b) by (intros [u v d] e <-; reflexivity).
  assert (A : forall n, after_var (bq_new c) (fun _ => c) x n = after (bq_new c) x n /\ bq_coeffs (after (bq_new c) x n) = c).
  { clear n. induction n as [|n [IH1 IH2]]; [split; reflexivity|]. cbn [after_var after]. rewrite IH1, ST by exact IH2. split; [reflexivity|exact IH2]. }
  unfold response_var, response. destruct (A n) as [-> E]. now rewrite ST.
Qed.
Lemma still_gain (c : coeffs R) G : ringing c G -> sweep_gain (fun _ => c) G.
Proof.
  intros HG u T Hu n. rewrite still_response. assert (W : forward_weight (recursive c) = 1) by (unfold forward_weight, recursive; cbn [b0 b1 b2]; rewrite Rabs_R0, Rabs_R1; ring).
  pose proof (Rabs_pos (u 0%nat)) as P. pose proof (Hu 0%nat) as P0.
  eapply Rle_trans; [apply (P_EndToEnd.output_size (recursive c) G T); [exact HG|lra|exact Hu]|]. rewrite W. lra.
Qed.
Definition own_limits (c : coeffs R) : coeffs R := BC (Rabs (b0 c)) (Rabs (b1 c)) (Rabs (b2 c)) (Rabs (a1 c)) (Rabs (a2 c)).
Lemma own_within c : within_limits (own_limits c) c.
Proof. unfold within_limits, own_limits. cbn [b0 b1 b2 a1 a2]. repeat split; apply Rle_refl. Qed.
Lemma own_forward c : forward_weight (own_limits c) = forward_weight c.
Proof. unfold forward_weight, own_limits. cbn [b0 b1 b2]. now rewrite !Rabs_Rabsolu. Qed.
Lemma own_feedback c : feedback_weight (own_limits c) = feedback_weight c.
Proof. unfold feedback_weight, own_limits. cbn [a1 a2]. now rewrite !Rabs_Rabsolu. Qed.

(** With no calls the level and the accuracy are those of C111. *)
Theorem C119_still_accuracy : forall p e e' E G, level p e e' -> accuracy p e E G ->
  forall xs : list f32, live_level p (map Tick xs) e e' /\ live_accuracy p (map Tick xs) e E G.
Proof.
  assert (LL : forall p e e', level p e e' -> forall xs : list f32, live_level p (map Tick xs) e e').
  { intros p e e'. induction 1 as [l e Hl|l damp fb e j Hj He He' Hl Hd Hf|l e Ne He Hl|c e e' G Fc HG HA HB HM|g e k He Fg Hg|p q e e1 e2 L1 I1 L2 I2|p q e e1 He L1 I1 L2 I2|p e e1 e2 L I Le]; intros xs.
    - now constructor.
    - constructor; auto. apply still_forall. exact (fun _ => I).
    - now constructor.
    - apply (live_filtered c _ e e' (fun _ => c) (own_limits (exact_coeffs c)) G); rewrite ?own_forward, ?own_feedback; auto using still_gain.
      + intros k Hk. rewrite still_force in *. rewrite repeat_length in Hk. apply nth_repeat.
      + intros k. split; [exact Fc|apply own_within].
    - constructor; auto; [now split|]. apply still_forall. exact (fun _ => I).
    - apply live_series with e1; rewrite still_branch; auto.
    - apply live_mix; rewrite ?still_branch; auto.
    - apply live_up with e1; auto. }
  intros p e e' E G LV AC xs. split; [now apply LL|]. clear e' LV. revert xs.
  induction AC as [l e|l damp fb e j Hj He He' Ne Hl Hd Hf|l e Ne He Hl|c e G Fc HG HA HB|g e k He Fg Hg|p q e e1 E1 G1 E2 G2 L A1 I1 A2 I2|p q e e1 E1 G1 E2 G2 M L1 L2 A1 I1 A2 I2]; intros xs.
  - constructor.
  - constructor; auto. apply still_forall. exact (fun _ => I).
  - now constructor.
  - rewrite <- own_forward, <- own_feedback. apply (lacc_filter c _ e (fun _ => c) (own_limits (exact_coeffs c)) G); rewrite ?own_forward, ?own_feedback; auto using still_gain.
    + intros k Hk. rewrite still_force in *. rewrite repeat_length in Hk. apply nth_repeat.
    + intros k. split; [exact Fc|apply own_within].
  - constructor; auto; [now split|]. apply still_forall. exact (fun _ => I).
  - apply lacc_series with e1; rewrite ?still_branch; auto.
  - apply lacc_mix; rewrite ?still_branch; auto.
Qed.
Print Assumptions C119_still_accuracy.

(** ** The stage of C115: for every history of samples and calls within its limits the f32 output stays within 1/300 of the exact one. *)
Lemma stage_accuracy (NP : NanPolicy) evs : Forall stage_event evs -> exists E G, live_accuracy stage_plan evs 0 E G /\ E <= 1 / 300.
Proof.
  intros H. destruct (of_int_exact 0 ltac:(lia)) as [F0 V0]. destruct (of_int_exact 1 ltac:(lia)) as [F1 V1].
  destruct (lit_exact 1 (-2) ltac:(lia) ltac:(lia)) as [Fd Vd]. destruct (lit_exact 1 (-1) ltac:(lia) ltac:(lia)) as [Ff Vf].
  assert (CZ : Forall (bounded (pow2 (0 + 1 + 1))) (zeros 3 : list f32)).
  { unfold zeros. apply Forall_forall. intros x Hx. apply repeat_spec in Hx. subst x. change (nint 0 : f32) with (of_int 0). split; [exact F0|]. rewrite V0, Rabs_R0. apply bpow_ge_0. }
  assert (CD : damp_ok room_damp) by (split; [exact Fd|]; change (room_damp : f32) with (lit 1 (-2)); rewrite Vd; cbn; lra).
  assert (CF : fb_ok (1 - pow2 (- (1))) room_feedback) by (split; [exact Ff|]; change (room_feedback : f32) with (lit 1 (-1)); rewrite Vf; rewrite Rabs_pos_eq; cbn; lra).
  assert (CM : Forall (comb_moves (1 - pow2 (- (1)))) (branch true evs)).
  { replace (1 - pow2 (- (1))) with (1 / 2) by (cbn; lra).
    induction H as [|ev evs E _ IH]; [constructor|]. destruct ev as [x|[|[|] w] k]; cbn [branch Bool.eqb]; try (constructor; [exact I|exact IH]); try exact IH.
    constructor; [|exact IH]. destruct w as [|t w]; [destruct k; cbn in *; try exact E; exact I|destruct k; exact I]. }
  set (b := branch true (branch false evs)).
  assert (IN : forall d, In d (in_force plus_setting b) -> d = plus_setting \/ d = minus_setting).
  { unfold b. clear b. assert (G : forall c0, (c0 = plus_setting \/ c0 = minus_setting) -> forall d, In d (in_force c0 (branch true (branch false evs))) -> d = plus_setting \/ d = minus_setting).
    { clear CM. induction H as [|ev evs E _ IH]; intros c0 H0 d Hd; [destruct Hd|]. destruct ev as [x|[|[|] [|[|] w]] k]; cbn [branch Bool.eqb] in Hd; try (exact (IH c0 H0 d Hd)).
      - cbn [in_force] in Hd. destruct Hd as [<-|Hd]; [exact H0|exact (IH c0 H0 d Hd)].
      - destruct w as [|t w]; cbn [in_force] in Hd; [|exact (IH c0 H0 d Hd)]. destruct k as [v|v|c|g]; try (exact (IH c0 H0 d Hd)). exact (IH c E d Hd). }
    apply G. now left. }
  set (c := fun k => nth k (in_force plus_setting b) plus_setting).
  assert (C : forall k, c k = plus_setting \/ c k = minus_setting).
  { intros k. unfold c. destruct (Nat.lt_ge_cases k (length (in_force plus_setting b))) as [L|L]; [apply IN, nth_In, L|left; now apply nth_overflow]. }
  set (m := BC 1 0 0 (1 / 4) (1 / 2)).
  assert (FW : forward_weight m = 1) by (unfold forward_weight, m; cbn [b0 b1 b2]; rewrite Rabs_R0, Rabs_R1; ring).
  assert (BW : feedback_weight m = 7 / 4) by (unfold feedback_weight, m; cbn [a1 a2]; rewrite !Rabs_pos_eq by lra; lra).
  set (G := 1 + / (9 / 10 * (1 - 9 / 10))). assert (EG : G = 109 / 9) by (unfold G; lra).
  assert (SC : forall k, finite_coeffs (c k) /\ within_limits m (exact_coeffs (c k))) by (intros k; destruct (setting_ok NP (c k) (C k)) as (Q1 & Q2 & _); auto).
  assert (SG : sweep_gain (fun k => exact_coeffs (c k)) G) by (apply small_gain_var; [lra|]; intros k; apply (setting_ok NP (c k) (C k))).
  assert (R2 : pow2 (-90) <= forward_weight m * pow2 2 <= pow2 60) by (rewrite FW, Rmult_1_l; split; apply bpow_le; lia).
  assert (AG : feedback_weight m * G <= 524288) by (rewrite BW, EG; lra).
  do 2 eexists. split.
  - unfold stage_plan. apply lacc_series with (e1 := 2%Z).
    + apply (live_comb _ _ _ _ 0 1); unfold mid; try lia; assumption.
    + apply (lacc_comb _ _ _ _ 0 1); unfold mid; try lia; assumption.
    + apply lacc_series with (e1 := 7%Z).
      * apply (live_filtered plus_setting b 2 7 c m G); auto. rewrite FW, EG. replace (pow2 2) with 4 by (cbn; lra). replace (pow2 7) with 128 by (cbn; lra). lra.
      * apply (lacc_filter plus_setting b 2 c m G); auto.
      * apply (lacc_scale _ _ 7 0); [unfold mid; lia|split; [exact F1|rewrite V1, Rabs_R1; cbn; lra]|].
        clear - H. induction H as [|ev evs E _ IH]; [constructor|]. destruct ev as [x|[|[|] [|[|] w]] k]; cbn [branch Bool.eqb]; try (constructor; [exact I|exact IH]); try exact IH.
        constructor; [|exact IH]. destruct w as [|t w]; [destruct k; cbn in *; try exact E; exact I|destruct k; exact I].
  - rewrite FW, BW, EG. cbn. lra.
Qed.

Lemma stage_exact (NP : NanPolicy) : exact_plan stage_plan =
  PSeries (PComb (zeros 3) room_damp room_feedback) (PSeries (PFilter (BC 1 0 0 (1 / 4) (1 / 2))) (PScale 1)).
Proof.
  destruct (of_int_exact 0 ltac:(lia)) as [F0 V0]. destruct (of_int_exact 1 ltac:(lia)) as [F1 V1].
  destruct (lit_exact 1 (-2) ltac:(lia) ltac:(lia)) as [Fd Vd]. destruct (lit_exact 1 (-1) ltac:(lia) ltac:(lia)) as [Ff Vf].
  unfold stage_plan, plus_setting, exact_coeffs. cbn [exact_plan b0 b1 b2 a1 a2]. unfold exact_coeffs. cbn [b0 b1 b2 a1 a2]. unfold room_damp, room_feedback. change (@ndy f32 _) with lit.
  rewrite Vd, Vf, V0, V1. cbn [zeros repeat map]. change (val (nint 0)) with (val (of_int 0)). rewrite V0. change (@ndy R _ 1 (-2)) with (IZR 1 * pow2 (-2)). change (@ndy R _ 1 (-1)) with (IZR 1 * pow2 (-1)).
  replace (IZR 1 * pow2 (-2)) with (1 / 4) by (cbn; lra). replace (IZR 1 * pow2 (-1)) with (1 / 2) by (cbn; lra). rewrite nint_0. reflexivity.
Qed.

Definition stage_exact_net : net R := NSeries (room_comb (MS (PAt 0 0) 3)) (NSeries (NFilter (bq_new (BC 1 0 0 (1 / 4) (1 / 2)))) (NScale 1)).
Example C119_met : forall (NP : NanPolicy) (B : Build) evs, Forall stage_event evs ->
  exists h' n' ys hr' nr' zs, live_run room_heap stage_net evs = Ret (h', n', ys) /\ live_run room_heap stage_exact_net (map exact_event evs) = Ret (hr', nr', zs) /\
    Forall (bounded 128) ys /\ close (1 / 300) (map val ys) zs.
Proof.
  intros NP B evs H. destruct (stage_accuracy NP evs H) as (E & G & AC & HE).
  assert (AP : apart ([MS (PAt 0 0) 3] ++ ([] ++ []))) by (intros i j s t b o Hi Hj _ _; destruct i as [|[|i]]; cbn in Hi; try discriminate; destruct j as [|[|j]]; cbn in Hj; try discriminate; reflexivity).
  destruct (C119_live_tracks NP B room_heap stage_net stage_plan ([MS (PAt 0 0) 3] ++ ([] ++ [])) room_heap stage_exact_net ([MS (PAt 0 0) 3] ++ ([] ++ [])) evs 0 7 E G)
    as (h' & n' & ys & hr' & nr' & zs & H1 & H2 & H3 & H4); auto.
  - apply fresh_series; [apply fresh_comb; [|cbn; lia]|apply fresh_series; constructor]. exact (room_covers f32 _ B 0 0 3 ltac:(lia) eq_refl).
  - rewrite stage_exact. apply fresh_series; [apply fresh_comb; [|cbn; lia]|apply fresh_series; constructor]. exact (room_covers R _ B 0 0 3 ltac:(lia) eq_refl).
  - now apply stage_level.
  - clear - H. induction H as [|ev evs E _ IH]; [constructor|]. destruct ev as [x|w k]; cbn [inputs]; [constructor; [exact E|exact IH]|exact IH].
  - do 6 eexists. split; [exact H1|]. split; [exact H2|]. split; [replace 128 with (pow2 7) by (cbn; lra); exact H3|]. exact (close_le _ _ _ _ HE H4).
Qed.
