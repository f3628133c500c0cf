(** * C112: an oscillator times an envelope. *)

From Coq Require Import ZArith List Bool Reals Lia Lra.
From Flocq Require Import Core.
From Verif Require Import Base F32 F32Lemmas F32Exact F32Ints F32Range F32Over Num M_Memory M_Delay M_Biquad M_Oscillator M_Envelope S_Memory S_Delay S_Rack S_Oscillator S_Envelope S_Network S_NetworkF32 S_Voice
  P_Interp P_Levels P_Envelope P_Oscillator T_Oscillator T_Envelope T_Network Examples.
Import ListNotations.
Local Open Scope R_scope.

Section Voice.
Context {NP : NanPolicy} {B : Build} {MO : MathOps f32}.

Lemma osc_loud (o : fosc) e : floor_ok MO -> (loudness (fo_wave o) <= e)%Z ->
  exists y o', fo_next o = Ret (y, o') /\ fo_wave o' = fo_wave o /\ bounded (pow2 e) y.
Proof.
  intros HF L. assert (P : pow2 (loudness (fo_wave o)) <= pow2 e) by now apply bpow_le.
  destruct (fo_wave o) eqn:W; cbn [loudness] in P.
  - destruct (C46_sine_oscillator NP B MO o W) as (y & E & F & [L1 L2] & _). exists y, (FO (snd (pa_next_value (fo_acc o))) Sine). split; [exact E|]. split; [reflexivity|]. split; [exact F|].
    assert (H : rnd (- 2) <= rnd (-32768 / 32767)) by (apply rnd_le; lra). rewrite (rnd_repr (-2)) in H by (apply (repr_int (-2)); lia).
    apply Rle_trans with (pow2 1); [|exact P]. apply Rabs_le. cbn. lra.
  - destruct (C45_rectangle_refuted NP B MO o HF W) as (y & E & H1 & H2 & H3 & _ & _). exists y, (FO (snd (pa_next_value (fo_acc o))) Rectangle). split; [exact E|]. split; [reflexivity|].
    assert (Y : y = of_int (-1) \/ y = of_int 1 \/ y = of_int 3).
    { assert (V : val (fst (pa_next_value_normalized (fo_acc o))) <= 1).
      { destruct (norm_next (fo_acc o)) as [-> _]. destruct (norm_spec _ (next_phase_range (fo_acc o))) as [[_ X] _]. lra. }
      destruct (Rlt_or_le (val (fst (pa_next_value_normalized (fo_acc o)))) (1 / 2)); [auto|].
      destruct (Rlt_or_le (val (fst (pa_next_value_normalized (fo_acc o)))) 1); [auto|]. right; right. apply H3. lra. }
    assert (K : forall k, (Z.abs k <= 3)%Z -> bounded (pow2 e) (of_int k)).
    { intros k Hk. destruct (of_int_exact k ltac:(lia)) as [F V]. split; [exact F|]. rewrite V. apply Rle_trans with (pow2 2); [|exact P]. rewrite <- abs_IZR. apply Rle_trans with (IZR 4); [apply IZR_le; lia|cbn; lra]. }
    destruct Y as [-> | [-> | ->]]; apply K; lia.
  - destruct (C44_sawtooth NP B MO o W) as (y & E & F & R & _). exists y, (FO (snd (pa_next_value (fo_acc o))) Sawtooth). split; [exact E|]. split; [reflexivity|]. split; [exact F|].
    apply Rle_trans with (pow2 0); [|exact P]. apply Rabs_le. cbn. lra.
  - destruct (C44_triangle NP B MO o W) as (y & E & F & R & _). exists y, (FO (snd (pa_next_value (fo_acc o))) Triangle). split; [exact E|]. split; [reflexivity|]. split; [exact F|].
    apply Rle_trans with (pow2 0); [|exact P]. apply Rabs_le. cbn. lra.
Qed.

Lemma vol_spec e y g : (0 <= e <= 80)%Z -> bounded (pow2 e) y -> within g 0 1 -> bounded (pow2 e) (fmul y g) /\ (val g = 0 -> val (fmul y g) = 0).
Proof.
  intros He [Fy By] [Fg Hg].
  assert (A : Rabs (val y * val g) <= pow2 e).
  { rewrite Rabs_mult, (Rabs_pos_eq (val g)) by lra. pose proof (Rabs_pos (val y)). apply Rle_trans with (Rabs (val y) * 1); [apply Rmult_le_compat_l; lra|lra]. }
  assert (A' : Rabs (rnd (val y * val g)) <= pow2 e) by (apply rnd_abs_le; [apply repr_bpow; lia|exact A]).
  destruct (fmul_spec y g Fy Fg) as [F V]; [eapply Rle_lt_trans; [exact A'|]; apply bpow_lt; lia|].
  split; [split; [exact F|now rewrite V]|]. intros Z. rewrite V, Z, Rmult_0_r. apply rnd_repr. apply (repr_int 0). lia.
Qed.

(** One step, under the invariant of the envelope. *)
Lemma voice_step_ok v o a e : floor_ok MO -> power_ok -> inv a -> (0 <= e <= 80)%Z -> (loudness (fo_wave o) <= e)%Z ->
  no_louder e v -> good_calls (e_sr a) (env_call v) ->
  exists ys o' a' os, voice_step v (o, a) = Ret (ys, (o', a')) /\ inv a' /\ (loudness (fo_wave o') <= e)%Z /\
    Forall (bounded (pow2 e)) ys /\ length ys = samples [v] /\ run (env_call v) a = Ret (os, a') /\
    (forall sr r, sr = e_sr a -> good_calls sr (env_call v ++ r) -> good_calls (e_sr a') r).
Proof.
  intros HF HP I He L NL G. destruct v as [|c|f|p|w|r]; cbn [voice_step env_call samples filter length app] in *.
  - destruct (osc_loud o e HF L) as (y & o' & E & W & By). rewrite E. cbn [bind fst snd].
    destruct (tick_inv a HP I) as [T I']. destruct (call_inv a Tick HP I Logic.I) as (os & a1 & E1 & I1 & S1 & _). cbn [do_call] in E1. injection E1 as <- <-.
    destruct (vol_spec e y (fst (tick a)) He By T) as [Bv _].
    do 4 eexists. split; [reflexivity|]. split; [exact I'|]. split; [now rewrite W|]. split; [constructor; [exact Bv|constructor]|]. split; [reflexivity|]. split; [reflexivity|].
    intros sr r -> [_ H]. now rewrite S1.
  - cbn [good_calls] in G. destruct G as [G _]. destruct (call_inv a c HP I G) as (os & a1 & E1 & I1 & S1 & _). rewrite E1. cbn [bind fst snd].
    do 4 eexists. split; [reflexivity|]. split; [exact I1|]. split; [exact L|]. split; [constructor|]. split; [reflexivity|]. split.
    + cbn [run]. rewrite E1. cbn [bind fst snd]. reflexivity.
    + intros sr r -> [_ H]. now rewrite S1.
  - do 4 eexists. split; [reflexivity|]. split; [exact I|]. split; [exact L|]. split; [constructor|]. split; [reflexivity|]. split; [reflexivity|]. intros sr r -> H; exact H.
  - do 4 eexists. split; [reflexivity|]. split; [exact I|]. split; [exact L|]. split; [constructor|]. split; [reflexivity|]. split; [reflexivity|]. intros sr r -> H; exact H.
  - do 4 eexists. split; [reflexivity|]. split; [exact I|]. split; [exact NL|]. split; [constructor|]. split; [reflexivity|]. split; [reflexivity|]. intros sr r -> H; exact H.
  - do 4 eexists. split; [reflexivity|]. split; [exact I|]. split; [exact L|]. split; [constructor|]. split; [reflexivity|]. split; [reflexivity|]. intros sr r0 -> H; exact H.
Qed.

Lemma good_calls_app c r : forall sr, good_calls sr (c ++ r) -> good_calls sr c.
Proof. induction c as [|x c IH]; intros sr H; cbn in *; [exact I|]. destruct H as [H1 H2]. split; [exact H1|]. now apply IH. Qed.

Lemma voice_run_ok : forall vs o a e, floor_ok MO -> power_ok -> inv a -> (0 <= e <= 80)%Z -> (loudness (fo_wave o) <= e)%Z ->
  Forall (no_louder e) vs -> good_calls (e_sr a) (env_calls vs) ->
  exists ys o' a', voice_run vs (o, a) = Ret (ys, (o', a')) /\ inv a' /\ Forall (bounded (pow2 e)) ys /\ length ys = samples vs.
Proof.
  induction vs as [|v vs IH]; intros o a e HF HP I He L NL G; cbn [voice_run env_calls flat_map] in *.
  - do 3 eexists. split; [reflexivity|]. split; [exact I|]. split; [constructor|reflexivity].
  - inversion NL as [|v0 vs0 N1 N2]; subst.
    destruct (voice_step_ok v o a e HF HP I He L N1 (good_calls_app _ _ _ G)) as (ys & o1 & a1 & os & E & I1 & L1 & By & Ly & _ & K). rewrite E. cbn [bind fst snd].
    destruct (IH o1 a1 e HF HP I1 He L1 N2 (K _ _ eq_refl G)) as (zs & o2 & a2 & E2 & I2 & Bz & Lz). rewrite E2. cbn [bind fst snd].
    do 3 eexists. split; [reflexivity|]. split; [exact I2|]. split; [now apply Forall_app|].
    rewrite app_length, Ly, Lz. unfold samples. cbn [filter]. destruct v; reflexivity.
Qed.
End Voice.

(** No history of samples, envelope calls and oscillator calls panics or leaves the level of the loudest waveform chosen in it. *)
Theorem C112_voice_bounded : forall (NP : NanPolicy) (B : Build) (MO : MathOps f32) (o : fosc) (a d s r slope sr : f32) (e : Z) (vs : list vop),
  floor_ok MO -> power_ok -> good_new a d s r slope sr -> good_calls sr (env_calls vs) ->
  (0 <= e <= 80)%Z -> (loudness (fo_wave o) <= e)%Z -> Forall (no_louder e) vs ->
  exists e0 ys w, adsr_new a d s r slope sr = Ret e0 /\ voice_run vs (o, e0) = Ret (ys, w) /\ length ys = samples vs /\
    Forall (fun y => fin y = true /\ Rabs (val y) <= pow2 e) ys.
Proof.
  intros NP B MO o a d s r slope sr e vs HF HP G C He L N. destruct (new_inv a d s r slope sr G) as (e0 & E0 & I0 & S0 & _).
  rewrite <- S0 in C. destruct (voice_run_ok vs o e0 e HF HP I0 He L N C) as (ys & o' & a' & E & _ & Y & Ly). exists e0, ys, (o', a'). auto.
Qed.
Print Assumptions C112_voice_bounded.

(** ... and neither does a network behind it, if its parts respect their levels. *)
Theorem C112_instrument_bounded : forall (NP : NanPolicy) (B : Build) (MO : MathOps f32) (o : fosc) (a d s r slope sr : f32) (e e' : Z) (vs : list vop)
    (h : heap f32) n p ss,
  floor_ok MO -> power_ok -> good_new a d s r slope sr -> good_calls sr (env_calls vs) ->
  (0 <= e <= 80)%Z -> (loudness (fo_wave o) <= e)%Z -> Forall (no_louder e) vs ->
  fresh h n p ss -> apart ss -> level p e e' ->
  exists e0 ys w h' n' zs, adsr_new a d s r slope sr = Ret e0 /\ voice_run vs (o, e0) = Ret (ys, w) /\ net_run h n ys = Ret (h', n', zs) /\
    length zs = samples vs /\ Forall (fun z => fin z = true /\ Rabs (val z) <= pow2 e') zs.
Proof.
  intros NP B MO o a d s r slope sr e e' vs h n p ss HF HP G C He L N FR HA HL.
  destruct (C112_voice_bounded NP B MO o a d s r slope sr e vs HF HP G C He L N) as (e0 & ys & w & E0 & E & Ly & Y).
  destruct (C111_network_bounded NP B h n p ss ys e e' FR HA HL Y) as (h' & n' & zs & E2 & Lz & Z). exists e0, ys, w, h', n', zs. rewrite Lz. auto 10.
Qed.
Print Assumptions C112_instrument_bounded.

(** An idle voice is silent until it is triggered, whatever is done to the oscillator and to the parameters. *)
Theorem C112_idle_silent : forall (NP : NanPolicy) (B : Build) (MO : MathOps f32) (o : fosc) (a : adsr) (vs : list vop) ys w,
  floor_ok MO -> e_state a = Idle -> ~ In (VEnv TriggerOn) vs -> voice_run vs (o, a) = Ret (ys, w) ->
  length ys = samples vs /\ Forall (fun y => fin y = true /\ val y = 0) ys /\ e_state (snd w) = Idle.
Proof.
  intros NP B MO o a vs. revert o a. induction vs as [|v vs IH]; intros o a ys w HF S N E; cbn [voice_run] in E.
  - injection E as <- <-. split; [reflexivity|]. split; [constructor|exact S].
  - destruct (voice_step v (o, a)) as [[xs [o1 a1]]| |] eqn:E1; try discriminate E. cbn [bind fst snd] in E.
    destruct (voice_run vs (o1, a1)) as [[zs w1]| |] eqn:E2; try discriminate E. cbn [bind fst snd] in E. injection E as <- <-.
    assert (K : length xs = samples [v] /\ Forall (fun y => fin y = true /\ val y = 0) xs /\ e_state a1 = Idle).
    { destruct v as [|c|f|p|wv|r]; cbn [voice_step] in E1; try (injection E1 as <- <- <-; repeat split; [constructor|exact S]).
      - destruct (osc_loud o 2 HF) as (y & o' & Ey & _ & By); [destruct (fo_wave o); cbn; lia|]. rewrite Ey in E1. cbn [bind fst snd] in E1. injection E1 as <- _ <-.
        unfold tick. rewrite S. cbn [fst snd]. split; [reflexivity|]. split; [|exact S]. constructor; [|constructor].
        destruct (of_int_exact 0 ltac:(lia)) as [F0 V0]. destruct (vol_spec 2 y (of_int 0) ltac:(lia) By) as [[F _] V]; [split; [exact F0|rewrite V0; lra]|]. split; [exact F|now apply V].
      - destruct (do_call c a) as [[oc a2]| |] eqn:Ec; try discriminate E1. cbn [bind fst snd] in E1. injection E1 as <- _ <-. split; [reflexivity|]. split; [constructor|].
        pose proof (C50_stage_order NP MO c a a2 oc Ec) as A. rewrite S in A.
        destruct c; cbn [allowed] in A; try (exfalso; apply N; now left); intuition congruence. }
    destruct K as (K1 & K2 & K3). destruct (IH o1 a1 zs w1 HF K3 (fun H => N (or_intror H)) E2) as (L1 & L2 & L3).
    split; [rewrite app_length, K1, L1; unfold samples; cbn [filter]; destruct v; reflexivity|]. split; [now apply Forall_app|exact L3].
Qed.
Print Assumptions C112_idle_silent.

Lemma voice_products (NP : NanPolicy) (B : Build) (MO : MathOps f32) : floor_ok MO -> forall vs o a m ys w,
  env_calls vs = repeat Tick m -> (~ exists c, In (VEnv c) vs) -> voice_run vs (o, a) = Ret (ys, w) ->
  length ys = m /\ forall k y, nth_error ys k = Some y -> exists z, bounded (pow2 2) z /\ y = fmul z (fst (tick (ticks k a))).
Proof.
  intros HF. induction vs as [|v vs IH]; intros o a m ys w E N H; cbn [voice_run env_calls flat_map] in *.
  - injection H as <- <-. destruct m; [|discriminate]. split; [reflexivity|]. intros [|k] y; discriminate.
  - destruct (voice_step v (o, a)) as [[xs [o1 a1]]| |] eqn:E1; try discriminate H. cbn [bind fst snd] in H.
    destruct (voice_run vs (o1, a1)) as [[zs w1]| |] eqn:E2; try discriminate H. cbn [bind fst snd] in H. injection H as <- <-.
    assert (N' : ~ exists c, In (VEnv c) vs) by (intros [c Hc]; apply N; exists c; now right).
    destruct v as [|c|f|p|wv|r]; cbn [voice_step env_call app] in *; try (injection E1 as <- <- <-; exact (IH _ _ _ _ _ E N' E2)).
    + destruct (osc_loud o 2 HF) as (y & o' & Ey & _ & By); [destruct (fo_wave o); cbn; lia|]. rewrite Ey in E1. cbn [bind fst snd] in E1. injection E1 as <- <- <-.
      destruct m as [|m]; [discriminate|]. cbn [repeat] in E. injection E as E. destruct (IH _ _ _ _ _ E N' E2) as [L K].
      split; [cbn; now rewrite L|]. intros [|k] u Hu; cbn [app nth_error] in Hu; [|exact (K k u Hu)]. injection Hu as <-. exists y. split; [exact By|reflexivity].
    + exfalso. apply N. exists c. now left.
Qed.

(** A released note that is left alone is silent after the release time, while the oscillator may be retuned at will. *)
Theorem C112_note_ends : forall (NP : NanPolicy) (B : Build) (MO : MathOps f32) (o : fosc) (a : adsr) (nr : nat) (vs : list vop) ys w,
  floor_ok MO -> power_ok -> reachable a -> e_state a = Release -> 1 <= INR nr * (val (e_release a) - pow2 (-25)) ->
  (~ exists c, In (VEnv c) vs) -> voice_run vs (o, a) = Ret (ys, w) ->
  forall k y, (nr <= k)%nat -> nth_error ys k = Some y -> fin y = true /\ val y = 0.
Proof.
  intros NP B MO o a nr vs ys w HF HP R S Hr N E k y Hk Hy.
  assert (EC : exists m, env_calls vs = repeat Tick m).
  { clear - N. induction vs as [|v vs IH]; [now exists 0%nat|]. destruct IH as [m IH]; [intros [c Hc]; apply N; exists c; now right|].
    unfold env_calls in *. cbn [flat_map]. rewrite IH. destruct v; cbn [env_call app]; try (now exists m); [now exists (Datatypes.S m)|]. exfalso. apply N. eexists. now left. }
  destruct EC as [m EC]. destruct (voice_products NP B MO HF vs o a m ys w EC N E) as [L K]. destruct (K k y Hy) as (z & Bz & ->).
  destruct (C51_released_note NP MO a nr k HP R S Hr Hk) as [_ ->]. destruct (of_int_exact 0 ltac:(lia)) as [F0 V0].
  destruct (vol_spec 2 z (of_int 0) ltac:(lia) Bz) as [[F _] V]; [split; [exact F0|rewrite V0; lra]|]. split; [exact F|now apply V].
Qed.
Print Assumptions C112_note_ends.

(** A routine that is both a floor and a power, for the examples. *)
Definition voice_math (NP : NanPolicy) : MathOps f32 :=
  {| m_floor := ref_floor; m_sqrt := fun x => x; m_exp := fun x => x; m_log10 := fun x => x; m_powf := fun x _ => x; m_powi := fun x _ => x |}.
Definition voice_ops : list vop :=
  [VEnv TriggerOn; VSample; VSample; VFreq (of_int 880); VSample; VWave Triangle; VSample; VEnv TriggerOff; VSample; VPhase (lit 1 (-2)); VSample].

(** A sawtooth at 440 Hz with an envelope of 10 ms stages, turned into a triangle of 880 Hz while it sounds. *)
Example C112_met (NP : NanPolicy) (B : Build) : let MO := voice_math NP in
  floor_ok MO /\ power_ok /\ good_new ex_ms10 ex_ms10 (lit 1 (-1)) (of_int (-1)) (of_int 1) ex_sr /\ good_calls ex_sr (env_calls voice_ops) /\
  (loudness (fo_wave (FO (pa_new (of_int 440) ex_sr) Sawtooth)) <= 0)%Z /\ Forall (no_louder 0) voice_ops /\ samples voice_ops = 6%nat /\
  exists h n p ss, fresh h n p ss /\ apart ss /\ level p 0 9.
Proof.
  intros MO. split; [exact ref_floor_ok|]. split; [exact (proj1 (id_power NP))|]. split; [apply ex_good|]. split; [cbn; tauto|]. split; [cbn; lia|].
  split; [repeat constructor; cbn; lia|]. split; [reflexivity|]. destruct (C111_met f32 _ B) as [H1 H2]. exists room_heap, room, room_plan, room_slices. split; [exact H1|]. split; [exact H2|apply C111_level_met].
Qed.

(** A fresh envelope is idle; triggered and released, it is in the release stage and 192000 samples (4 s at 48 kHz) are enough. *)
Example C112_note_met (NP : NanPolicy) (B : Build) : let MO := voice_math NP in
  exists e0, adsr_new ex_ms10 ex_ms10 (lit 1 (-1)) (of_int (-1)) (of_int 1) ex_sr = Ret e0 /\ e_state e0 = Idle /\
    let a := trigger_off (trigger_on e0) in
    reachable a /\ e_state a = Release /\ 1 <= INR (Z.to_nat 192000) * (val (e_release a) - pow2 (-25)).
Proof.
  intros MO. destruct (new_inv _ _ _ _ _ _ (ex_good NP)) as (e0 & E & I & Es & St & La & Ld & Lr). exists e0. split; [exact E|]. split; [exact St|]. intros a.
  split; [|split].
  - exists ex_ms10, ex_ms10, (lit 1 (-1)), (of_int (-1)), (of_int 1), ex_sr, e0, [TriggerOn; TriggerOff], []. split; [apply ex_good|]. split; [exact E|]. split; [cbn; tauto|reflexivity].
  - unfold a, trigger_off, trigger_on. rewrite St. reflexivity.
  - unfold a, trigger_off, trigger_on. rewrite St. cbn [e_state e_release]. apply (four_sr ex_sr); [exact (proj1 (ex_good NP))|exact Lr|exact (proj2 (proj2 (C51_met NP)))].
Qed.
