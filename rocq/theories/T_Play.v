(** * C122: playing an instrument, that is, a voice with effects, while everything is being adjusted. *)

From Coq Require Import ZArith List Bool Reals Lia Lra.
From Flocq Require Import Core.
From Verif Require Import Base F32 F32Lemmas F32Exact F32Ints F32Range Num M_Memory M_Delay M_Biquad M_Oscillator M_Envelope S_Memory S_Delay S_Biquad S_BiquadF32 S_Comb S_Rack S_Oscillator S_Envelope S_Network S_NetworkF32 S_NetworkAcc
  S_Sweep S_SweepF32 S_Voice S_Live S_LiveAcc S_Reverb S_LiveReverb S_Tail S_Play
  P_Network P_NetworkLin P_NetworkAcc P_Live P_LiveAcc P_Reverb P_LiveReverb P_Envelope P_Tail T_BiquadF32 T_Envelope T_Network T_NetworkTail T_SweepTrack T_Voice T_Live T_LiveAcc T_LiveReverb Examples.
Import ListNotations.
Local Open Scope R_scope.

Lemma effect_inputs ops : length (inputs (effect_part ops)) = samples (voice_part ops).
Proof.
  unfold effect_part, voice_part, samples. induction ops as [|[v|w k] ops IH]; cbn [flat_map app]; [reflexivity| |exact IH].
  destruct v; cbn [app inputs filter length]; rewrite ?IH; reflexivity.
Qed.

(** Playing is the same as running the voice first and then its samples through the network, with the setter calls where they were. *)
Theorem C122_play_is_chain : forall (NP : NanPolicy) (B : Build) (MO : MathOps f32) ops (h : heap f32) n s ys s' h' n' zs,
  voice_run (voice_part ops) s = Ret (ys, s') -> live_run h n (feed (effect_part ops) ys) = Ret (h', n', zs) ->
  play h n s ops = Ret (h', n', s', zs).
Proof.
  intros NP B MO. induction ops as [|[v|w k] ops IH]; intros h n s ys s' h' n' zs V L.
  - cbn in V. injection V as <- <-. cbn in L. injection L as <- <- <-. reflexivity.
  - change (voice_part (PVoice v :: ops)) with (v :: voice_part ops) in V. cbn [voice_run] in V. cbn [play].
    destruct (voice_step v s) as [[xs s1]| |] eqn:E1; cbn [bind fst snd] in V; try discriminate V.
    destruct (voice_run (voice_part ops) s1) as [[us s2]| |] eqn:E2; cbn [bind fst snd] in V; try discriminate V. injection V as <- <-. cbn [bind fst snd].
    assert (X : (v = VSample /\ exists y, xs = [y]) \/ (xs = [] /\ effect_part (PVoice v :: ops) = effect_part ops)).
    { destruct s as [o e]. destruct v; cbn [voice_step] in E1.
      - left. split; [reflexivity|]. destruct (fo_next o) as [y| |]; cbn [bind] in E1; try discriminate E1. injection E1 as <- _. eauto.
      - right. split; [|reflexivity]. destruct (do_call c e) as [r| |]; cbn [bind] in E1; try discriminate E1. now injection E1.
      - right. split; [|reflexivity]. now injection E1.
      - right. split; [|reflexivity]. now injection E1.
      - right. split; [|reflexivity]. now injection E1.
      - right. split; [|reflexivity]. now injection E1. }
    destruct X as [[-> [y ->]] | [-> X]].
    + change (effect_part (PVoice VSample :: ops)) with (S_Live.Tick (of_int 0) :: effect_part ops) in L. cbn [app feed live_run] in L. cbn [net_run].
      destruct (net_tick h n y) as [[[h1 n1] z]| |]; cbn [bind fst snd] in L |- *; try discriminate L.
      destruct (live_run h1 n1 (feed (effect_part ops) us)) as [[[h2 n2] ws]| |] eqn:E3; cbn [bind fst snd] in L; try discriminate L. injection L as <- <- <-.
      cbn [bind fst snd]. rewrite (IH h1 n1 s1 us s2 h2 n2 ws E2 E3). reflexivity.
    + rewrite X in L. cbn [app] in L. cbn [net_run bind fst snd]. rewrite (IH h n s1 us s2 h' n' zs E2 L). reflexivity.
  - change (voice_part (PTurn w k :: ops)) with (voice_part ops) in V. change (effect_part (PTurn w k :: ops)) with (Turn w k :: effect_part ops) in L.
    cbn [feed live_run] in L. cbn [play]. exact (IH h (turn n w k) s ys s' h' n' zs V L).
Qed.
Print Assumptions C122_play_is_chain.

(** Whatever is played and adjusted within the limits, nothing panics and every output sample is finite and within its level. *)
Theorem C122_play_bounded : forall (NP : NanPolicy) (B : Build) (MO : MathOps f32) (o : fosc) (a d s r slope sr : f32) (e e' : Z) (ops : list pop)
    (h : heap f32) n p ss,
  floor_ok MO -> power_ok -> good_new a d s r slope sr -> good_calls sr (env_calls (voice_part ops)) ->
  (0 <= e <= 80)%Z -> (loudness (fo_wave o) <= e)%Z -> Forall (no_louder e) (voice_part ops) ->
  fresh h n p ss -> apart ss -> live_level p (effect_part ops) e e' ->
  exists e0 h' n' w zs, adsr_new a d s r slope sr = Ret e0 /\ play h n (o, e0) ops = Ret (h', n', w, zs) /\
    length zs = samples (voice_part ops) /\ Forall (fun z => fin z = true /\ Rabs (val z) <= pow2 e') zs.
Proof.
  intros NP B MO o a d s r slope sr e e' ops h n p ss HF HP G C He L N FR HA LV.
  destruct (C112_voice_bounded NP B MO o a d s r slope sr e (voice_part ops) HF HP G C He L N) as (e0 & ys & w & E0 & E & Ly & Y).
  assert (LN : length ys = length (inputs (effect_part ops))) by (now rewrite effect_inputs).
  destruct (C115_live_is_composition f32 _ B h n p ss (feed (effect_part ops) ys) FR HA) as (h' & n' & R1 & _).
  do 5 eexists. split; [exact E0|]. split; [exact (C122_play_is_chain NP B MO ops h n (o, e0) ys w h' n' _ E R1)|].
  split; [rewrite live_signal_length, feed_inputs by exact LN; exact Ly|].
  apply (live_level_signal p (effect_part ops) e e' LV); [now apply feed_alike|]. rewrite feed_inputs by exact LN. exact Y.
Qed.
Print Assumptions C122_play_bounded.

Lemma feed_falls (NP : NanPolicy) p evs e E G (rho L : R) (xs silence : list f32) :
  live_accuracy p evs e E G -> 0 < rho <= 1 -> live_falls rho (exact_plan p) (map exact_event evs) (pow2 e) L ->
  length (xs ++ silence) = length (inputs evs) -> Forall (bounded (pow2 e)) (xs ++ silence) -> Forall (fun x => val x = 0) silence ->
  forall i, (i < length silence)%nat -> Rabs (val (nth (length xs + i) (live_signal p (feed evs (xs ++ silence))) (of_int 0))) <= L * rho ^ i + E.
Proof.
  intros AC Hr HF LU HB H0 i Hi. assert (PE : 0 <= pow2 e) by apply bpow_ge_0.
  pose proof (live_sound p evs e E G AC (xs ++ silence) LU HB) as S.
  assert (XF : live_falls rho (exact_plan p) (map exact_event evs) (pow2 e) L) by exact HF.
  assert (LX : length (map val (xs ++ silence)) = length (inputs (map exact_event evs))) by (rewrite xe_inputs, !map_length; exact LU).
  assert (Q : Rabs (nth (length xs + i) (live_signal (exact_plan p) (feed (map exact_event evs) (map val (xs ++ silence)))) 0) <= L * rho ^ i).
  { replace (rho ^ i) with (w rho (length xs) (length xs + i)) by (unfold w; f_equal; lia).
    apply (live_falls_sound rho (length xs) Hr _ _ (pow2 e) L HF _ LX). intros k. rewrite map_app. unfold w. destruct (Nat.lt_ge_cases k (length xs)) as [Lk|Lk].
    - replace (k - length xs)%nat with 0%nat by lia. cbn [pow]. rewrite Rmult_1_r, app_nth1 by (rewrite map_length; exact Lk).
      rewrite (nth_indep _ 0 (val (of_int 0))) by (rewrite map_length; exact Lk). rewrite map_nth. rewrite Forall_forall in HB. apply HB, in_or_app. left. now apply nth_In.
    - rewrite app_nth2, map_length by (rewrite map_length; exact Lk). assert (Z : nth (k - length xs) (map val silence) 0 = 0).
      { destruct (Nat.lt_ge_cases (k - length xs) (length silence)) as [K|K]; [|apply nth_overflow; rewrite map_length; exact K].
        rewrite (nth_indep _ 0 (val (of_int 0))) by (rewrite map_length; exact K). rewrite map_nth. rewrite Forall_forall in H0. apply H0, nth_In, K. }
      rewrite Z, Rabs_R0. apply Rmult_le_pos; [exact PE|apply pow_le; lra]. }
  assert (LN : length (live_signal p (feed evs (xs ++ silence))) = (length xs + length silence)%nat) by (rewrite live_signal_length, feed_inputs by exact LU; apply app_length).
  assert (C : Rabs (nth (length xs + i) (map val (live_signal p (feed evs (xs ++ silence)))) 0 - nth (length xs + i) (live_signal (exact_plan p) (feed (map exact_event evs) (map val (xs ++ silence)))) 0) <= E).
  { assert (CL : forall (us vs : list R), close E us vs -> forall j, (j < length us)%nat -> Rabs (nth j us 0 - nth j vs 0) <= E).
    { intros us vs. induction 1 as [|u v us vs H1 _ IH]; intros j Hj; [cbn in Hj; lia|]. destruct j as [|j]; [exact H1|]. apply IH. cbn in Hj. lia. }
    apply CL; [exact S|]. rewrite map_length, LN. lia. }
  rewrite (nth_indep _ 0 (val (of_int 0))) in C by (rewrite map_length, LN; lia). rewrite map_nth in C.
  match type of C with Rabs (?a - ?b) <= _ => replace a with ((a - b) + b) by ring; eapply Rle_trans; [apply Rabs_triang|]; lra end.
Qed.

(** A note that has been released: [nr] samples later the output falls by [rho] every sample, down to the accuracy of the
    arithmetic, whatever was played before and whatever is still done to the oscillator and to the effects. *)
Theorem C122_note_falls : forall (NP : NanPolicy) (B : Build) (MO : MathOps f32) (o : fosc) (a d s r slope sr : f32) (e e' : Z) (played after : list pop)
    (h : heap f32) n p ss E G (rho L : R) (nr : nat),
  floor_ok MO -> power_ok -> good_new a d s r slope sr -> good_calls sr (env_calls (voice_part (played ++ after))) ->
  (0 <= e <= 80)%Z -> (loudness (fo_wave o) <= e)%Z -> Forall (no_louder e) (voice_part (played ++ after)) ->
  fresh h n p ss -> apart ss -> live_level p (effect_part (played ++ after)) e e' -> live_accuracy p (effect_part (played ++ after)) e E G ->
  0 < rho <= 1 -> live_falls rho (exact_plan p) (map exact_event (effect_part (played ++ after))) (pow2 e) L ->
  (~ exists c, In (PVoice (VEnv c)) after) ->
  exists e0 ys w, adsr_new a d s r slope sr = Ret e0 /\ voice_run (voice_part played) (o, e0) = Ret (ys, w) /\
    (e_state (snd w) = Release -> 1 <= INR nr * (val (e_release (snd w)) - pow2 (-25)) ->
     exists h' n' w' zs, play h n (o, e0) (played ++ after) = Ret (h', n', w', zs) /\ length zs = samples (voice_part (played ++ after)) /\
       forall i z, nth_error zs (samples (voice_part played) + nr + i) = Some z -> fin z = true /\ Rabs (val z) <= L * rho ^ i + E).
Proof.
  intros NP B MO o a d s r slope sr e e' played after h n p ss E G rho L nr HF HP GN GC He LO NL FR HA LV AC Hr FA NE.
  assert (VP : voice_part (played ++ after) = voice_part played ++ voice_part after) by apply flat_map_app.
  destruct (C112_voice_bounded NP B MO o a d s r slope sr e (voice_part (played ++ after)) HF HP GN GC He LO NL) as (e0 & us & w' & E0 & R & Lu & U).
  destruct (C112_voice_bounded NP B MO o a d s r slope sr e (voice_part played) HF HP GN) as (e1 & ys & [o1 a1] & E1 & R1 & Ly & Y); auto.
  { rewrite VP in GC. unfold env_calls in GC. rewrite flat_map_app in GC. exact (good_calls_app _ _ _ GC). }
  { rewrite VP in NL. now apply Forall_app in NL. }
  rewrite E0 in E1. injection E1 as <-. exists e0, ys, (o1, a1). split; [exact E0|]. split; [exact R1|]. cbn [snd]. intros ST HR.
  assert (RCH : reachable a1).
  { destruct (voice_env (voice_part played) o e0 ys o1 a1 R1) as [os RE]. exists a, d, s, r, slope, sr, e0, (env_calls (voice_part played)), os. repeat split; auto; try apply GN.
    rewrite VP in GC. unfold env_calls in GC. rewrite flat_map_app in GC. exact (good_calls_app _ _ _ GC). }
  pose proof R as R'. rewrite VP, (voice_run_app _ _ _ _ _ R1) in R'.
  destruct (voice_run (voice_part after) (o1, a1)) as [[vs w2]| |] eqn:R2; cbn [bind fst snd] in R'; try discriminate R'. injection R' as <- <-.
  assert (NV : ~ exists c, In (VEnv c) (voice_part after)).
  { intros [c Hc]. apply NE. exists c. unfold voice_part in Hc. apply in_flat_map in Hc. destruct Hc as ([v|w k] & H1 & H2); cbn in H2; [|destruct H2]. destruct H2 as [->|[]]. exact H1. }
  pose proof (C112_note_ends NP B MO o1 a1 nr (voice_part after) vs w2 HF HP RCH ST HR NV R2) as END.
  assert (LN : length (ys ++ vs) = length (inputs (effect_part (played ++ after)))) by (now rewrite effect_inputs).
  destruct (C115_live_is_composition f32 _ B h n p ss (feed (effect_part (played ++ after)) (ys ++ vs)) FR HA) as (h' & n' & RL & _).
  do 4 eexists. split; [exact (C122_play_is_chain NP B MO (played ++ after) h n (o, e0) _ w2 h' n' _ R RL)|].
  assert (LZ : length (live_signal p (feed (effect_part (played ++ after)) (ys ++ vs))) = length (ys ++ vs)) by (rewrite live_signal_length, feed_inputs by exact LN; reflexivity).
  split; [rewrite LZ; exact Lu|]. intros i z Hz.
  assert (HI : (samples (voice_part played) + nr + i < length (ys ++ vs))%nat) by (rewrite <- LZ; apply nth_error_Some; congruence).
  rewrite app_length, Ly in HI. split.
  - assert (BZ : Forall (bounded (pow2 e')) (live_signal p (feed (effect_part (played ++ after)) (ys ++ vs)))).
    { apply (live_level_signal p _ e e' LV); [now apply feed_alike|]. rewrite feed_inputs by exact LN. exact U. }
    rewrite Forall_forall in BZ. exact (proj1 (BZ z (nth_error_In _ _ Hz))).
  - rewrite <- (nth_error_nth _ _ (of_int 0) Hz). rewrite <- (firstn_skipn nr vs) in *. set (x2 := firstn nr vs) in *. set (sl := skipn nr vs) in *.
    assert (Lx : length x2 = nr) by (unfold x2; apply firstn_length_le; rewrite <- (firstn_skipn nr vs) ; fold x2 sl; lia).
    rewrite app_length in HI. rewrite app_assoc in *.
    replace (samples (voice_part played) + nr + i)%nat with (length (ys ++ x2) + i)%nat by (rewrite app_length, Ly, Lx; lia).
    apply (feed_falls NP p _ e E G rho L (ys ++ x2) sl AC Hr FA LN U); [|lia].
    apply Forall_forall. intros x Hx. destruct (In_nth_error _ _ Hx) as [k Hk].
    apply (END (nr + k)%nat); [lia|]. rewrite nth_error_app2, Lx by lia. replace (nr + k - nr)%nat with k by lia. exact Hk.
Qed.
Print Assumptions C122_note_falls.

(** ** Before the first note *)
Lemma mul_zero_l (NP : NanPolicy) x y : silent x -> fin y = true -> silent (fmul x y).
Proof. intros H F. exact (proj2 (mul_silent y x F H)). Qed.
Lemma mul_zero_r (NP : NanPolicy) x y : fin x = true -> silent y -> silent (fmul x y).
Proof. intros F H. exact (proj1 (mul_silent x y F H)). Qed.
Lemma add_zero (NP : NanPolicy) x y : silent x -> silent y -> silent (fadd x y).
Proof. intros H [F V]. destruct (add_silent x y H F) as [G W]. split; [exact G|now rewrite W]. Qed.
Lemma sub_zero (NP : NanPolicy) x y : silent x -> silent y -> silent (fsub x y).
Proof.
  intros [F V] [F' V']. assert (E : rnd (val x - val y) = 0) by (rewrite V, V', Rminus_0_r; apply rnd_repr, (repr_int 0); lia).
  destruct (fsub_spec x y F F') as [G W]; [rewrite E, Rabs_R0; apply bpow_gt_0|]. split; [exact G|now rewrite W].
Qed.
Lemma zero_zero : silent (of_int 0).
Proof. exact (of_int_exact 0 ltac:(lia)). Qed.
Lemma nth_zero l k : Forall silent l -> silent (nth k l (of_int 0)).
Proof.
  intros H. destruct (Nat.lt_ge_cases k (length l)) as [L|L]; [rewrite Forall_forall in H; apply H, nth_In, L|rewrite nth_overflow by exact L; apply zero_zero].
Qed.

Lemma calm_signal (NP : NanPolicy) p : forall evs u, calm p evs -> length u = length (inputs evs) -> Forall silent u -> Forall silent (live_signal p (feed evs u)).
Proof.
  induction p as [l|l d g|l|c|g|p IHp q IHq|p IHp q IHq]; intros evs u HC LU HU; cbn [live_signal calm] in *.
  - rewrite feed_inputs by exact LU. assert (A : Forall silent (l ++ u)) by (apply Forall_app; auto). revert A. generalize (l ++ u), (length u). clear.
    intros v n H. rewrite Forall_forall in *. intros x Hx. apply H. rewrite <- (firstn_skipn n v). apply in_or_app. now left.
  - destruct HC as (HL & HD & HG & HM).
    assert (G : forall evs u l m s d g, Forall calm_comb evs -> length u = length (inputs evs) -> Forall silent u -> Forall silent l -> silent s -> damp_ok d -> fin g = true ->
      Forall silent (comb_spec l m s d g (comb_events (feed evs u)))).
    { clear. induction evs as [|[x|w k] evs IH]; intros u l m s d g HM LU HU HL HS HD HG; cbn [inputs length] in LU; [constructor| |]; inversion HM as [|? ? H1 H2]; subst.
      - destruct u as [|u0 u]; [discriminate|]. inversion HU; subst. cbn [feed comb_events comb_spec].
        pose proof (nth_zero l m HL) as Y. change (nint 0 : f32) with (of_int 0) in *. set (y := nth m l (of_int 0)) in *.
        destruct HD as [FD VD]. destruct (of_int_exact 1 ltac:(lia)) as [F1 V1].
        assert (FI : fin (fsub (of_int 1) d) = true).
        { apply (fsub_spec (of_int 1) d F1 FD). rewrite V1. apply Rle_lt_trans with 1; [apply rnd_abs_le; [apply (repr_int 1); lia|apply Rabs_le; lra]|]. replace 1 with (pow2 0) by reflexivity. apply bpow_lt. lia. }
        assert (S' : silent (fadd (fmul y (fsub (of_int 1) d)) (fmul s d))) by (apply add_zero; apply mul_zero_l; assumption).
        constructor; [exact Y|]. apply IH; auto; [|split; assumption]. apply Forall_app. split; [exact HL|]. constructor; [|constructor]. apply add_zero; [assumption|]. apply mul_zero_l; assumption.
      - destruct w as [|t w]; [destruct k|]; cbn [feed comb_events comb_spec]; apply IH; auto. }
    apply G; auto. apply zero_zero.
  - rewrite feed_inputs by exact LU. clear LU. generalize 0%nat. revert l HC. induction HU as [|x u Hx HU IH]; intros l HL m; [constructor|]. cbn [ap_spec].
    pose proof (nth_zero l m HL) as Y. change (nint 0 : f32) with (of_int 0). set (y := nth m l (of_int 0)) in *.
    destruct (lit_exact 1 (-1) ltac:(lia) ltac:(lia)) as [Ff _]. constructor.
    + apply add_zero; [|exact Y]. destruct Hx as [F V]. split; [change (fin (fneg x) = true); now rewrite fin_fneg|change (val (fneg x) = 0); rewrite val_fneg, V; ring].
    + apply IH. apply Forall_app. split; [exact HL|]. constructor; [|constructor]. apply add_zero; [exact Hx|]. apply mul_zero_l; assumption.
  - destruct HC as [FC HM].
    assert (G : forall evs u z1 z2 c, Forall calm_filter evs -> length u = length (inputs evs) -> Forall silent u -> silent z1 -> silent z2 -> finite_coeffs c ->
      Forall silent (live_filter (BQ z1 z2 c) (feed evs u))).
    { clear. induction evs as [|[x|w k] evs IH]; intros u z1 z2 c HM LU HU S1 S2 FC; cbn [inputs length] in LU; [constructor| |]; inversion HM as [|? ? H1 H2]; subst.
      - destruct u as [|u0 u]; [discriminate|]. inversion HU; subst. cbn [feed live_filter]. unfold bq_process. cbn [fst snd M_Biquad.z1 M_Biquad.z2 bq_coeffs].
        destruct FC as (F0 & F1 & F2 & F3 & F4).
        assert (O : silent (fadd (fmul (b0 c) u0) z1)) by (apply add_zero; [apply mul_zero_r; assumption|exact S1]).
        constructor; [exact O|]. apply IH; auto; [| |repeat split; assumption].
        + apply sub_zero; [apply add_zero; [apply mul_zero_r; assumption|exact S2]|apply mul_zero_r; assumption].
        + apply sub_zero; apply mul_zero_r; assumption.
      - destruct w as [|t w]; [destruct k|]; cbn [feed live_filter]; apply IH; auto. }
    apply G; auto; apply zero_zero.
  - destruct HC as [HG HM]. revert u g HG LU HU. induction evs as [|[x|w k] evs IH]; intros u g HG LU HU; cbn [inputs length] in LU; [constructor| |]; inversion HM as [|? ? H1 H2]; subst.
    + destruct u as [|u0 u]; [discriminate|]. inversion HU; subst. cbn [feed live_gain]. constructor; [apply mul_zero_l; assumption|]. apply IH; auto.
    + destruct w as [|t w]; [destruct k|]; cbn [feed live_gain]; apply IH; auto.
  - destruct HC as [H1 H2]. rewrite !branch_feed.
    assert (BL : forall t, length u = length (inputs (branch t evs))) by (intros t; now rewrite branch_inputs).
    rewrite feed_feed by apply BL. apply IHq; auto. rewrite live_signal_length, feed_inputs by apply BL. apply BL.
  - destruct HC as [H1 H2]. rewrite !branch_feed.
    assert (BL : forall t, length u = length (inputs (branch t evs))) by (intros t; now rewrite branch_inputs).
    assert (A : forall xs ys : list f32, Forall silent xs -> Forall silent ys -> Forall silent (added xs ys)).
    { clear. induction xs as [|x xs IH]; intros ys HX HY; [constructor|]. destruct HY as [|y ys Hy HY]; [constructor|]. inversion HX; subst. cbn [added]. constructor; [now apply add_zero|now apply IH]. }
    apply A; auto.
Qed.

(** An instrument whose envelope is idle and whose buffers hold zeros stays silent, bit for bit up to the sign of zero,
    until it is triggered: whatever is done to the oscillator, the envelope parameters and the effects. *)
Theorem C122_untouched_silent : forall (NP : NanPolicy) (B : Build) (MO : MathOps f32) (o : fosc) (a : adsr) (ops : list pop) ys w (h : heap f32) n p ss,
  floor_ok MO -> e_state a = Idle -> ~ In (PVoice (VEnv TriggerOn)) ops -> voice_run (voice_part ops) (o, a) = Ret (ys, w) ->
  fresh h n p ss -> apart ss -> calm p (effect_part ops) ->
  exists h' n' zs, play h n (o, a) ops = Ret (h', n', w, zs) /\ length zs = samples (voice_part ops) /\ Forall (fun z => fin z = true /\ val z = 0) zs.
Proof.
  intros NP B MO o a ops ys w h n p ss HF ST NT R FR HA HC.
  assert (NV : ~ In (VEnv TriggerOn) (voice_part ops)).
  { intros H. apply NT. unfold voice_part in H. apply in_flat_map in H. destruct H as ([v|w0 k] & H1 & H2); cbn in H2; [|destruct H2]. destruct H2 as [->|[]]. exact H1. }
  destruct (C112_idle_silent NP B MO o a (voice_part ops) ys w HF ST NV R) as (Ly & Y & _).
  assert (LN : length ys = length (inputs (effect_part ops))) by (now rewrite effect_inputs).
  destruct (C115_live_is_composition f32 _ B h n p ss (feed (effect_part ops) ys) FR HA) as (h' & n' & R1 & _).
  do 3 eexists. split; [exact (C122_play_is_chain NP B MO ops h n (o, a) ys w h' n' _ R R1)|].
  split; [rewrite live_signal_length, feed_inputs by exact LN; exact Ly|]. exact (calm_signal NP p (effect_part ops) ys HC LN Y).
Qed.
Print Assumptions C122_untouched_silent.

(** ** A sawtooth through the stage of C115: a note is struck and released at once; before every later sample the
    oscillator is retuned, the filter switched and the dampening set. From 4 s on the output falls at one rate, however
    long the instrument goes on. *)
Definition stage_frame {NP : NanPolicy} (k : nat) : list pop :=
  [PVoice (VFreq (of_int (Z.of_nat k))); PTurn [false; true] (KCoeffs (if Nat.even k then minus_setting else plus_setting)); PTurn [true] (KDamp room_damp); PVoice VSample].
Definition stage_note : list pop := [PVoice (VEnv TriggerOn); PVoice (VEnv TriggerOff)].
Definition stage_after {NP : NanPolicy} (m : nat) : list pop := flat_map stage_frame (seq 0 m).

Example C122_met : forall (NP : NanPolicy) (B : Build), let MO := voice_math NP in exists e0 rho L,
  adsr_new ex_ms10 ex_ms10 (lit 1 (-1)) (of_int (-1)) (of_int 1) ex_sr = Ret e0 /\ 0 < rho < 1 /\
  forall m, exists h' n' w zs, play room_heap stage_net (FO (pa_new (of_int 440) ex_sr) Sawtooth, e0) (stage_note ++ stage_after m) = Ret (h', n', w, zs) /\ length zs = m /\
    forall i z, nth_error zs (Z.to_nat 192000 + i) = Some z -> fin z = true /\ Rabs (val z) <= L * rho ^ i + 1 / 300.
Proof.
  intros NP B MO. destruct (C112_note_met NP B) as (e0 & E0 & St & RCH & SR & HR).
  destruct (C120_limited_moves_fall (15 / 16) (1 / 2) (9 / 10) 1 1 (exact_plan stage_plan) ltac:(lra) ltac:(lra) ltac:(lra) (stage_within NP [] (Forall_nil _))) as (rho & Hr & HL).
  destruct (HL (pow2 0) (bpow_ge_0 _ _)) as (L & _ & HF). exists e0, rho, L. split; [exact E0|]. split; [exact Hr|]. intros m.
  destruct (of_int_exact 0 ltac:(lia)) as [F0 V0]. destruct (lit_exact 1 (-2) ltac:(lia) ltac:(lia)) as [Fd Vd].
  assert (EV : Forall stage_event (effect_part (stage_note ++ stage_after m))).
  { unfold stage_after, effect_part. rewrite flat_map_app. apply Forall_app. split; [constructor|]. generalize 0%nat. induction m as [|m IH]; intros k; [constructor|].
    cbn [seq flat_map stage_frame app]. apply Forall_cons; [cbn [stage_event]; destruct (Nat.even k); auto|].
    apply Forall_cons; [split; [exact Fd|]; change (room_damp : f32) with (lit 1 (-2)); rewrite Vd; cbn; lra|].
    apply Forall_cons; [split; [exact F0|rewrite V0, Rabs_R0; lra]|]. apply IH. }
  assert (SM : forall k, samples (voice_part (flat_map stage_frame (seq k m))) = m).
  { clear. induction m as [|m IH]; intros k; [reflexivity|]. cbn [seq flat_map stage_frame app]. unfold samples, voice_part in *. cbn [flat_map app filter length]. now rewrite IH. }
  assert (EC : forall k, env_calls (voice_part (flat_map stage_frame (seq k m))) = repeat S_Envelope.Tick m).
  { clear. induction m as [|m IH]; intros k; [reflexivity|]. cbn [seq flat_map stage_frame app repeat]. unfold env_calls, voice_part in *. cbn [flat_map app env_call]. now rewrite IH. }
  destruct (stage_accuracy NP _ EV) as (E & G & AC & HE).
  assert (AP : apart ([MS (PAt 0 0) 3] ++ ([] ++ []))) by (intros i j s t b o Hi Hj _ _; destruct i as [|[|i]]; cbn in Hi; try discriminate; destruct j as [|[|j]]; cbn in Hj; try discriminate; reflexivity).
  destruct (C122_note_falls NP B MO (FO (pa_new (of_int 440) ex_sr) Sawtooth) ex_ms10 ex_ms10 (lit 1 (-1)) (of_int (-1)) (of_int 1) ex_sr 0 7 stage_note (stage_after m)
    room_heap stage_net stage_plan ([MS (PAt 0 0) 3] ++ ([] ++ [])) E G rho L (Z.to_nat 192000)) as (e1 & ys & w & E1 & R1 & C).
  - exact ref_floor_ok.
  - exact (proj1 (id_power NP)).
  - apply ex_good.
  - unfold voice_part. rewrite flat_map_app. fold (voice_part (stage_after m)). unfold env_calls. rewrite flat_map_app. fold (env_calls (voice_part (stage_after m))).
    unfold stage_after. rewrite EC. apply good_ticks; [cbn; tauto|apply all_ticks].
  - lia.
  - cbn. lia.
  - unfold voice_part. rewrite flat_map_app. apply Forall_app. split; [repeat constructor|]. unfold stage_after. generalize 0%nat. clear. induction m as [|m IH]; intros k; [constructor|].
    cbn [seq flat_map stage_frame app]. repeat constructor. apply IH.
  - apply fresh_series; [apply fresh_comb; [|cbn; lia]|apply fresh_series; constructor]. exact (room_covers f32 _ B 0 0 3 ltac:(lia) eq_refl).
  - exact AP.
  - now apply stage_level.
  - exact AC.
  - lra.
  - apply HF. now apply stage_within.
  - unfold stage_after. generalize 0%nat. clear. induction m as [|m IH]; intros k [c Hc]; [destruct Hc|]. cbn [seq flat_map stage_frame app] in Hc.
    destruct Hc as [Hc|[Hc|[Hc|[Hc|Hc]]]]; try discriminate. exact (IH (S k) (ex_intro _ c Hc)).
  - rewrite E0 in E1. injection E1 as <-. cbn in R1. injection R1 as <- <-. cbn [snd] in C.
    destruct (C SR HR) as (h' & n' & w' & zs & P & LZ & Q). exists h', n', w', zs. split; [exact P|]. split.
    + rewrite LZ. unfold voice_part. rewrite flat_map_app. fold (voice_part (stage_after m)). rewrite samples_app. unfold stage_after. now rewrite SM.
    + intros i z Hz. destruct (Q i z) as [Q1 Q2]; [exact Hz|]. split; [exact Q1|]. lra.
Qed.

(** The same instrument before the note: retuned, switched and dampened before every sample, it gives zeros only. *)
Example C122_silent_met : forall (NP : NanPolicy) (B : Build), let MO := voice_math NP in exists e0,
  adsr_new ex_ms10 ex_ms10 (lit 1 (-1)) (of_int (-1)) (of_int 1) ex_sr = Ret e0 /\
  forall m, exists h' n' w zs, play room_heap stage_net (FO (pa_new (of_int 440) ex_sr) Sawtooth, e0) (stage_after m) = Ret (h', n', w, zs) /\ length zs = m /\
    Forall (fun z => fin z = true /\ val z = 0) zs.
Proof.
  intros NP B MO. destruct (C112_note_met NP B) as (e0 & E0 & St & _). exists e0. split; [exact E0|]. intros m.
  destruct (lit_exact 1 (-2) ltac:(lia) ltac:(lia)) as [Fd Vd].
  assert (DO : damp_ok (room_damp : f32)) by (split; [exact Fd|]; change (room_damp : f32) with (lit 1 (-2)); rewrite Vd; cbn; lra).
  assert (SM : samples (voice_part (stage_after m)) = m).
  { unfold stage_after. generalize 0%nat. clear. induction m as [|m IH]; intros k; [reflexivity|]. cbn [seq flat_map stage_frame app]. unfold samples, voice_part in *. cbn [flat_map app filter length]. now rewrite IH. }
  assert (EC : env_calls (voice_part (stage_after m)) = repeat S_Envelope.Tick m).
  { unfold stage_after. generalize 0%nat. clear. induction m as [|m IH]; intros k; [reflexivity|]. cbn [seq flat_map stage_frame app repeat]. unfold env_calls, voice_part in *. cbn [flat_map app env_call]. now rewrite IH. }
  destruct (C112_voice_bounded NP B MO (FO (pa_new (of_int 440) ex_sr) Sawtooth) ex_ms10 ex_ms10 (lit 1 (-1)) (of_int (-1)) (of_int 1) ex_sr 0 (voice_part (stage_after m))) as (e1 & ys & w & E1 & R & _).
  - exact ref_floor_ok.
  - exact (proj1 (id_power NP)).
  - apply ex_good.
  - rewrite EC. rewrite <- (app_nil_l (repeat _ m)). apply good_ticks; [exact I|apply all_ticks].
  - lia.
  - cbn. lia.
  - unfold stage_after. generalize 0%nat. clear. induction m as [|m IH]; intros k; [constructor|]. cbn [seq flat_map stage_frame app]. repeat constructor. apply IH.
  - rewrite E0 in E1. injection E1 as <-.
    destruct (C122_untouched_silent NP B MO (FO (pa_new (of_int 440) ex_sr) Sawtooth) e0 (stage_after m) ys w room_heap stage_net stage_plan ([MS (PAt 0 0) 3] ++ ([] ++ []))) as (h' & n' & zs & P & L & Z).
    + exact ref_floor_ok.
    + exact St.
    + unfold stage_after. generalize 0%nat. clear. induction m as [|m IH]; intros k Hc; [destruct Hc|]. cbn [seq flat_map stage_frame app] in Hc.
      destruct Hc as [Hc|[Hc|[Hc|[Hc|Hc]]]]; try discriminate. exact (IH (S k) Hc).
    + exact R.
    + apply fresh_series; [apply fresh_comb; [|cbn; lia]|apply fresh_series; constructor]. exact (room_covers f32 _ B 0 0 3 ltac:(lia) eq_refl).
    + intros i j s t b o Hi Hj _ _; destruct i as [|[|i]]; cbn in Hi; try discriminate; destruct j as [|[|j]]; cbn in Hj; try discriminate; reflexivity.
    + cbn [calm stage_plan]. split; [|split].
      * split; [|split; [exact DO|split; [reflexivity|]]].
        -- apply Forall_forall. intros x Hx. apply repeat_spec in Hx. subst x. exact zero_zero.
        -- unfold stage_after. generalize 0%nat. clear - DO. induction m as [|m IH]; intros k; [constructor|]. cbn [seq flat_map stage_frame app]. unfold effect_part in *. cbn [flat_map app branch Bool.eqb].
           apply Forall_cons; [exact DO|]. apply Forall_cons; [exact I|]. apply IH.
      * split; [repeat split; reflexivity|]. unfold stage_after. generalize 0%nat. clear. induction m as [|m IH]; intros k; [constructor|]. cbn [seq flat_map stage_frame app]. unfold effect_part in *. cbn [flat_map app branch Bool.eqb].
        apply Forall_cons; [destruct (Nat.even k); repeat split; reflexivity|]. apply Forall_cons; [exact I|]. apply IH.
      * split; [reflexivity|]. unfold stage_after. generalize 0%nat. clear. induction m as [|m IH]; intros k; [constructor|]. cbn [seq flat_map stage_frame app]. unfold effect_part in *. cbn [flat_map app branch Bool.eqb].
        apply Forall_cons; [exact I|]. apply IH.
    + exists h', n', w, zs. split; [exact P|]. split; [now rewrite L|exact Z].
Qed.
