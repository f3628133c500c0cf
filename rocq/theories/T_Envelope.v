(** * Theorems: the ADSR envelope (C48-C55). *)

From Coq Require Import ZArith List Bool Reals Lia Lra.
From Flocq Require Import Core Mult_error IEEE754.BinarySingleNaN IEEE754.Binary.
From Verif Require Import Base F32 F32Lemmas F32Exact F32Range F32Over Num P_Interp P_SineFloat P_Levels M_Envelope S_Envelope P_Envelope Examples.
Import ListNotations.
Local Open Scope R_scope.

(** A power routine meeting the contracts, for the examples: the identity (exact for exponent 1). *)
Definition id_math : MathOps f32 :=
  {| m_floor := fun x => x; m_sqrt := fun x => x; m_exp := fun x => x; m_log10 := fun x => x;
     m_powf := fun x _ => x; m_powi := fun x _ => x |}.
Lemma id_power (NP : NanPolicy) : @power_ok NP id_math /\ @power_monotone NP id_math.
Proof. split; intros b; cbn; intros; auto. split; [auto|]. split; lra. Qed.
(** ... and one that squares (exact for exponent 2), for the overflow cases. *)
Definition square_math (NP : NanPolicy) : MathOps f32 :=
  {| m_floor := fun x => x; m_sqrt := fun x => x; m_exp := fun x => x; m_log10 := fun x => x;
     m_powf := fun x _ => fmul x x; m_powi := fun x _ => x |}.

(** ** Range *)

(** C48: an envelope constructed with parameters in range never panics and every value its
    ticks return is a finite number between 0 and 1, over every history of calls in range. *)
Theorem C48_output_range : forall (NP : NanPolicy) (MO : MathOps f32) (a d s r slope sr : f32) (cs : list call),
  power_ok -> good_new a d s r slope sr -> good_calls sr cs ->
  exists e0 outs e, adsr_new a d s r slope sr = Ret e0 /\ run cs e0 = Ret (outs, e) /\
    Forall (fun v => fin v = true /\ 0 <= val v <= 1) outs.
Proof.
  intros NP MO a d s r slope sr cs P G C. destruct (new_inv a d s r slope sr G) as (e0 & E0 & I0 & S0 & _).
  rewrite <- S0 in C. destruct (run_inv cs e0 P I0 C) as (o & e & E & _ & W). exists e0, o, e. auto.
Qed.
Print Assumptions C48_output_range.

(** A fresh envelope at 48 kHz: 10 ms attack and decay, sustain 1/2, negative release (2 s), slope 1. *)
Definition ex_sr : f32 := of_int 48000.
Definition ex_ms10 : f32 := lit 10737418 (-30).
Lemma ex_good (NP : NanPolicy) : good_new ex_ms10 ex_ms10 (lit 1 (-1)) (of_int (-1)) (of_int 1) ex_sr.
Proof.
  assert (S : isv ex_sr (IZR 48000)) by (apply isv_int; lia). destruct S as [FS VS].
  assert (M : isv ex_ms10 (IZR 10737418 * pow2 (-30))) by (apply isv_lit; lia). destruct M as [FM VM].
  assert (E30 : pow2 (-30) = 1 / 1073741824) by (cbn; lra). assert (E22 : pow2 22 = 4194304) by (cbn; lra).
  destruct (of_int_exact (-1) ltac:(lia)) as [Fm Vm]. destruct (of_int_exact 1 ltac:(lia)) as [F1 V1].
  assert (T : good_time ex_ms10 ex_sr).
  { split; [now apply fin_notnan|]. right. rewrite (ext_fin _ FM), VM, VS, E30. lra. }
  split; [split; [exact FS|rewrite VS; lra]|]. split; [exact T|]. split; [exact T|].
  split; [split; [now apply fin_notnan|left; rewrite (ext_fin _ Fm), Vm; lra]|].
  split; [reflexivity|]. split; [exact F1|]. rewrite V1. destruct twentieth as (_ & _ & B). lra.
Qed.
Definition ex_calls : list call := [TriggerOn; Tick; Tick; SetSustain (of_int 3); SetSlope f_zero; TriggerOff; Tick; Reset; SetSr (of_int 44100); TriggerOn; Tick].
Example C48_met (NP : NanPolicy) : @power_ok NP id_math /\ good_new ex_ms10 ex_ms10 (lit 1 (-1)) (of_int (-1)) (of_int 1) ex_sr /\ good_calls ex_sr ex_calls.
Proof.
  split; [apply id_power|]. split; [apply ex_good|].
  unfold ex_calls. cbn [good_calls good_call sr_after]. repeat (split; [solve [reflexivity|exact I]|]).
  assert (S : isv (of_int 44100) (IZR 44100)) by (apply isv_int; lia). destruct S as [FS VS].
  split; [split; [exact FS|rewrite VS]; assert (pow2 22 = 4194304) by (cbn; lra); lra|]. tauto.
Qed.
Definition obits_run (x : outcome (list f32 * adsr)) : outcome (list Z) :=
  match x with Ret (o, _) => Ret (map to_bits o) | Panic => Panic | UB => UB end.
Example C48_run : obits_run (let MO := id_math in let NP := default_policy in
    do e <- adsr_new ex_ms10 ex_ms10 (lit 1 (-1)) (of_int (-1)) (of_int 1) ex_sr ; run ex_calls e) =
  Ret [990414985; 998803593; 998803500; 990414985]%Z.
Proof. vm_compute. reflexivity. Qed.

(** ** NaN for ever *)

Section Nan.
Context {NP : NanPolicy} {MO : MathOps f32}.
Lemma inf_zero_nan s s' : isnan (fmul (B754_infinity 24 128 s) (B754_zero 24 128 s')) = true.
Proof. unfold fmul, Binary.Bmult. rewrite isnan_BSN2B. destruct s, s'; reflexivity. Qed.

Definition past (t : f32) : Prop := t = of_int 0 \/ t = f_max \/ t = f_inf.
Lemma past_next t : past t -> fadd t f_max = f_max \/ fadd t f_max = f_inf.
Proof.
  intros [E|[E|E]]; subst t; [left|right|right]; apply bits_inj; vm_compute; reflexivity.
Qed.
Lemma over_power t slope : m_powf f_max slope = f_inf -> m_powf f_inf slope = f_inf -> past t -> m_powf (fadd t f_max) slope = f_inf.
Proof. intros H1 H2 P. destruct (past_next t P) as [E|E]; rewrite E; assumption. Qed.

Lemma decay_nan slope n : m_powf f_max slope = f_inf -> m_powf f_inf slope = f_inf ->
  forall e, e_state e = Decay -> e_sustain e = of_int 1 -> e_slope e = slope -> e_decay e = f_max -> past (e_t e) ->
  exists outs e', run (repeat Tick n) e = Ret (outs, e') /\ length outs = n /\ Forall (fun v => isnan v = true) outs /\ e_state e' = Decay.
Proof.
  intros H1 H2. induction n as [|n IH]; intros e S Su Sl D P; cbn [repeat run].
  - eexists _, _. split; [reflexivity|]. repeat split; auto.
  - cbn [do_call bind fst snd]. assert (T : isnan (fst (tick e)) = true /\ exists v, snd (tick e) = with_tsv e (fadd (e_t e) f_max) Decay v).
    { unfold tick. rewrite S. unfold next_decay. rewrite Su, Sl, D, (over_power _ _ H1 H2 P).
      assert (N : isnan (fadd (fmul (fsub (of_int 1) f_inf) (fsub (of_int 1) (of_int 1))) (of_int 1)) = true).
      { apply fadd_nan. left. apply (inf_zero_nan true false). }
      rewrite fle_nan by auto. split; [exact N|]. cbn [snd]. rewrite <- D, D. eexists. reflexivity. }
    destruct T as [N [v E]]. rewrite E. destruct (IH (with_tsv e (fadd (e_t e) f_max) Decay v)) as (o & e' & R & L & A & Q); auto.
    { change (past (fadd (e_t e) f_max)). unfold past. right. destruct (past_next _ P) as [X|X]; rewrite X; auto. }
    rewrite R. cbn [bind fst snd]. eexists _, _. split; [reflexivity|]. cbn. repeat split; auto.
Qed.
Lemma release_nan slope n : m_powf f_max slope = f_inf -> m_powf f_inf slope = f_inf ->
  forall e, e_state e = Release -> e_release_val e = of_int 0 -> e_slope e = slope -> e_release e = f_max -> past (e_t e) ->
  exists outs e', run (repeat Tick n) e = Ret (outs, e') /\ length outs = n /\ Forall (fun v => isnan v = true) outs /\ e_state e' = Release.
Proof.
  intros H1 H2. induction n as [|n IH]; intros e S Su Sl D P; cbn [repeat run].
  - eexists _, _. split; [reflexivity|]. repeat split; auto.
  - cbn [do_call bind fst snd]. assert (T : isnan (fst (tick e)) = true /\ exists v, snd (tick e) = with_tsv e (fadd (e_t e) f_max) Release v).
    { unfold tick. rewrite S. unfold next_release. rewrite Su, Sl, D, (over_power _ _ H1 H2 P).
      assert (N : isnan (fmul (fsub (of_int 1) f_inf) (of_int 0)) = true) by apply (inf_zero_nan true false).
      rewrite fle_nan by auto. split; [exact N|]. cbn [snd]. eexists. reflexivity. }
    destruct T as [N [v E]]. rewrite E. destruct (IH (with_tsv e (fadd (e_t e) f_max) Release v)) as (o & e' & R & L & A & Q); auto.
    { change (past (fadd (e_t e) f_max)). unfold past. right. destruct (past_next _ P) as [X|X]; rewrite X; auto. }
    rewrite R. cbn [bind fst snd]. eexists _, _. split; [reflexivity|]. cbn. repeat split; auto.
Qed.

Lemma zero_time sr : good_sr sr -> set_time_parameter (of_int 0) sr = Ret f_max.
Proof.
  intros G. destruct (rate_num (of_int 0) sr eq_refl G) as (r & E & F & Nx & Sx & V). rewrite E. f_equal.
  destruct fmax_val as [Fm Vm]. pose proof fmax_ge. destruct (floor_rate sr G) as (_ & _ & B).
  destruct (of_int_exact 0 ltac:(lia)) as [F0 V0]. destruct G as [Fs Hs].
  destruct (scaled_notnan (of_int 0) sr eq_refl Fs ltac:(lra)) as [Nm Sm]. destruct (one_over _ Nm) as (_ & _ & _ & Z & _).
  destruct (ext_mul (of_int 0) sr F0 Fs ltac:(lra)) as [_ M]. rewrite V0, Rmult_0_l, rnd_0, clampb_in in M
    by (rewrite Rabs_R0; pose proof big_pos; lra).
  assert (Fz : fin (fmul (of_int 0) sr) = true) by (apply ext_fin_of_bounds; [exact Nm|rewrite M; pose proof big_pos; lra]).
  rewrite (ext_fin _ Fz) in M. unfold raw_rate in V. rewrite Z in V by auto. rewrite Sm in V.
  change (sgn (of_int 0)) with false in V. rewrite ext_inf in V. rewrite Rmin_left in V by lra. rewrite Rmax_right in V by lra.
  apply val_inj; auto. lra.
Qed.
End Nan.

(** C49: stage times of zero are accepted; the attack then reaches 1 at once, and if sustain is 1
    and the power of a huge base overflows to infinity, every later tick, for ever, is NaN and the
    envelope never leaves the decay stage. *)
Theorem C49_decay_nan_forever_refuted : forall (NP : NanPolicy) (MO : MathOps f32) (sr slope : f32) (n : nat),
  good_sr sr -> m_powf f_max slope = f_inf -> m_powf f_inf slope = f_inf ->
  fge (m_powf f_max (fdiv (of_int 1) slope)) (of_int 1) = true ->
  exists e0 outs e, adsr_new (of_int 0) (of_int 0) (of_int 1) (of_int 0) slope sr = Ret e0 /\
    run (TriggerOn :: Tick :: repeat Tick n) e0 = Ret (of_int 1 :: outs, e) /\
    length outs = n /\ Forall (fun v => isnan v = true) outs /\ e_state e = Decay.
Proof.
  intros NP MO sr slope n G H1 H2 H3. unfold adsr_new. rewrite (zero_time sr G).
  destruct (clamp01 (of_int 1) eq_refl) as (s & Es & [Fs _] & Vs). destruct (of_int_exact 1 ltac:(lia)) as [F1 V1].
  rewrite (ext_fin _ F1), V1, Rmin_left, Rmax_right in Vs by lra.
  assert (s = of_int 1) by (apply val_inj; auto; lra). subst s. rewrite Es. cbn [bind].
  set (e0 := ADSR f_max f_max (of_int 1) f_max slope (of_int 0) Idle (of_int 0) (of_int 0) sr).
  assert (T : tick (trigger_on e0) = (of_int 1, with_tsv e0 (of_int 0) Decay (of_int 1))).
  { unfold tick, trigger_on, next_attack. cbn [e0 e_state with_tsv e_t e_attack e_slope].
    assert (E : fadd (of_int 0) f_max = f_max) by (apply bits_inj; vm_compute; reflexivity). rewrite E, H3. reflexivity. }
  destruct (decay_nan slope n H1 H2 (with_tsv e0 (of_int 0) Decay (of_int 1))) as (o & e & R & L & A & Q); try reflexivity; [now left|].
  exists e0, o, e. split; [reflexivity|]. cbn [run do_call bind fst snd app]. rewrite T. cbn [fst snd]. rewrite R. cbn. auto.
Qed.
Print Assumptions C49_decay_nan_forever_refuted.

(** The same in the release stage: released before the first attack tick (so from level 0) with a
    zero release time. *)
Theorem C49_release_nan_forever_refuted : forall (NP : NanPolicy) (MO : MathOps f32) (a d s sr slope : f32) (n : nat),
  good_sr sr -> isnan a = false -> isnan d = false -> m_powf f_max slope = f_inf -> m_powf f_inf slope = f_inf ->
  exists e0 outs e, adsr_new a d s (of_int 0) slope sr = Ret e0 /\
    run (TriggerOn :: TriggerOff :: repeat Tick n) e0 = Ret (outs, e) /\
    length outs = n /\ Forall (fun v => isnan v = true) outs /\ e_state e = Release.
Proof.
  intros NP MO a d s sr slope n G Na Nd H1 H2. unfold adsr_new.
  assert (Es : exists s', fclamp s (of_int 0) (of_int 1) = Ret s').
  { destruct (isnan s) eqn:N; [exists s; now apply fclamp_nan|]. destruct (clamp01 s N) as (s' & E & _). eauto. }
  destruct Es as [s' Es]. rewrite Es. cbn [bind].
  destruct (rate_num d sr Nd G) as (d' & Ed & _). destruct (rate_num a sr Na G) as (a' & Ea & _). rewrite Ed, Ea, (zero_time sr G). cbn [bind].
  set (e0 := ADSR a' d' s' f_max slope (of_int 0) Idle (of_int 0) (of_int 0) sr).
  destruct (release_nan slope n H1 H2 (trigger_off (trigger_on e0))) as (o & e & R & L & A & Q); try reflexivity; [now left|].
  exists e0, o, e. split; [reflexivity|]. cbn [run do_call bind fst snd app]. rewrite R. cbn. auto.
Qed.
Print Assumptions C49_release_nan_forever_refuted.

Example C49_met : let NP := default_policy in let MO := square_math NP in let slope := of_int 2 in
  good_sr ex_sr /\ m_powf f_max slope = f_inf /\ m_powf f_inf slope = f_inf /\
  fge (m_powf f_max (fdiv (of_int 1) slope)) (of_int 1) = true.
Proof.
  intros NP MO slope. split; [apply (ex_good NP)|]. split; [apply bits_inj; vm_compute; reflexivity|].
  split; [apply bits_inj; vm_compute; reflexivity|]. vm_compute. reflexivity.
Qed.

(** ** Stage order *)

(** C50: whatever the state and the call, if the call returns, the stage changes as [allowed]:
    tick only from Attack to Decay, Decay to Sustain, Release to Idle or not at all; trigger_on to
    Attack; trigger_off to Release from Attack, Decay and Sustain and otherwise not at all; reset
    to Idle; setters not at all. *)
Theorem C50_stage_order : forall (NP : NanPolicy) (MO : MathOps f32) (c : call) (e e' : adsr) (o : list f32),
  do_call c e = Ret (o, e') -> allowed c (e_state e) (e_state e').
Proof.
  intros NP MO c e e' o H. destruct c as [| | | |v|v|v|v|v|v]; cbn [do_call allowed] in *.
  - injection H as <- <-. unfold tick. destruct (e_state e) eqn:S; cbn [snd]; auto.
    + unfold next_attack. destruct (fge _ _); cbn; auto.
    + unfold next_decay. destruct (fle _ _); cbn; auto.
    + unfold next_release. destruct (fle _ _); cbn; auto.
  - injection H as <- <-. unfold trigger_on. destruct (e_state e); reflexivity.
  - injection H as <- <-. unfold trigger_off. destruct (e_state e) eqn:S; auto.
  - injection H as <- <-. reflexivity.
  - unfold set_attack in H. destruct (set_time_parameter _ _); cbn in H; try discriminate. injection H as <- <-. reflexivity.
  - unfold set_decay in H. destruct (set_time_parameter _ _); cbn in H; try discriminate. injection H as <- <-. reflexivity.
  - unfold set_release in H. destruct (set_time_parameter _ _); cbn in H; try discriminate. injection H as <- <-. reflexivity.
  - unfold set_sustain in H. destruct (fclamp _ _ _); cbn in H; try discriminate. injection H as <- <-. reflexivity.
  - unfold set_slope in H. destruct (fclamp _ _ _); cbn in H; try discriminate. injection H as <- <-. reflexivity.
  - injection H as <- <-. reflexivity.
Qed.
Print Assumptions C50_stage_order.

(** ** Stages end *)

(** C51: a held note. From any envelope a program can hold in its attack stage, left alone, the
    attack ends after at most na ticks and the decay after nd more, as soon as na and nd ticks at
    the stage rates less the rounding of the stage clock (2^-25 a tick) add up to 1; from then on
    it is in Sustain and every tick returns the sustain level. *)
Theorem C51_held_note : forall (NP : NanPolicy) (MO : MathOps f32) (e : adsr) (na nd m : nat),
  power_ok -> reachable e -> e_state e = Attack ->
  1 <= INR na * (val (e_attack e) - pow2 (-25)) -> 1 <= INR nd * (val (e_decay e) - pow2 (-25)) -> (na + nd <= m)%nat ->
  e_state (ticks m e) = Sustain /\ fst (tick (ticks m e)) = e_sustain e.
Proof.
  intros NP MO e na nd m P R S Ha Hd M. pose proof (reachable_inv e P R) as I. destruct (i_t e I) as [_ Ht].
  assert (N1 : (1 <= na)%nat) by (destruct na; [cbn [INR] in Ha; lra|lia]).
  destruct (attack_ends na e P I S N1 ltac:(lra)) as (m1 & M1 & S1 & D1 & U1).
  pose proof (ticks_inv m1 e P I) as I1. rewrite <- D1 in Hd. destruct (i_t _ I1) as [_ Ht1].
  destruct (decay_ends nd (ticks m1 e) P I1 S1 ltac:(lra)) as (m2 & M2 & S2 & U2).
  replace m with (m1 + (m2 + (m - m1 - m2)))%nat by lia. rewrite !ticks_add. rewrite sustain_stays by exact S2.
  split; [exact S2|]. unfold tick. rewrite S2. cbn [fst]. congruence.
Qed.
Print Assumptions C51_held_note.

(** A released note, left alone, is idle after nr ticks and silent from then on. *)
Theorem C51_released_note : forall (NP : NanPolicy) (MO : MathOps f32) (e : adsr) (nr m : nat),
  power_ok -> reachable e -> e_state e = Release ->
  1 <= INR nr * (val (e_release e) - pow2 (-25)) -> (nr <= m)%nat ->
  e_state (ticks m e) = Idle /\ fst (tick (ticks m e)) = of_int 0.
Proof.
  intros NP MO e nr m P R S Hr M. pose proof (reachable_inv e P R) as I. destruct (i_t e I) as [_ Ht].
  destruct (release_ends nr e P I S ltac:(lra)) as (m1 & M1 & S1).
  replace m with (m1 + (m - m1))%nat by lia. rewrite !ticks_add. rewrite idle_stays by exact S1.
  split; [exact S1|]. unfold tick. now rewrite S1.
Qed.
Print Assumptions C51_released_note.

Lemma four_sr sr r n : good_sr sr -> rnd (1 / 2 / val sr) <= r -> 4 * val sr <= INR n -> 1 <= INR n * (r - pow2 (-25)).
Proof.
  intros [F H] L N. assert (E22 : pow2 22 = 4194304) by (cbn; lra). assert (E25 : pow2 (-25) = 1 / 33554432) by (cbn; lra).
  assert (Hq : 1 / 2 / val sr * val sr = 1 / 2) by (field; lra). assert (Q : 1 / 8388608 <= 1 / 2 / val sr).
  { apply Rmult_le_reg_r with (val sr); [lra|]. rewrite Hq. lra. }
  assert (E : Rabs (rnd (1 / 2 / val sr) - 1 / 2 / val sr) <= pow2 (-24) * Rabs (1 / 2 / val sr)).
  { apply rnd_err_rel. rewrite Rabs_pos_eq by lra. apply Rle_trans with (pow2 (-23)); [apply bpow_le; lia|]. replace (pow2 (-23)) with (1 / 8388608) by (cbn; lra). exact Q. }
  rewrite (Rabs_pos_eq (1 / 2 / val sr)) in E by lra. replace (pow2 (-24)) with (1 / 16777216) in E by (cbn; lra).
  apply Rabs_le_inv in E. rewrite E25.
  assert (X : 1 / 4 / val sr <= r - 1 / 33554432).
  { replace (1 / 4 / val sr) with (1 / 2 / val sr / 2) by (field; lra). lra. }
  apply Rle_trans with (4 * val sr * (1 / 4 / val sr)); [right; field; lra|].
  apply Rmult_le_compat; [lra| |exact N|exact X]. apply Rlt_le. apply Rdiv_lt_0_compat; lra.
Qed.

(** From a fresh envelope with any parameters in range: triggered, it sustains after at most eight
    seconds' worth of ticks; released then or at any later time, it is idle four seconds later. *)
Theorem C51_fresh_note : forall (NP : NanPolicy) (MO : MathOps f32) (a d s r slope sr : f32) (n m : nat),
  power_ok -> good_new a d s r slope sr -> 4 * val sr <= INR n -> (2 * n <= m)%nat ->
  exists e0, adsr_new a d s r slope sr = Ret e0 /\ e_state (ticks m (trigger_on e0)) = Sustain /\
    forall k, (n <= k)%nat -> e_state (ticks k (trigger_off (ticks m (trigger_on e0)))) = Idle.
Proof.
  intros NP MO a d s r slope sr n m P G N M. destruct (new_inv a d s r slope sr G) as (e0 & E & I & Es & St & La & Ld & Lr).
  exists e0. split; [exact E|]. assert (Gs : good_sr sr) by apply G.
  assert (R1 : reachable (trigger_on e0)).
  { exists a, d, s, r, slope, sr, e0, [TriggerOn], []. cbn. auto. }
  destruct (C51_held_note NP MO (trigger_on e0) n n m P R1) as [S _].
  - unfold trigger_on. now rewrite St.
  - unfold trigger_on. rewrite St. cbn. now apply (four_sr sr).
  - unfold trigger_on. rewrite St. cbn. now apply (four_sr sr).
  - lia.
  - split; [exact S|]. intros k K.
    assert (T : forall j e, e_release (ticks j e) = e_release e).
    { induction j as [|j IH]; intros e; [reflexivity|]. cbn [ticks]. rewrite IH. unfold tick, next_attack, next_decay, next_release.
      destruct (e_state e); try reflexivity; destruct (fle _ _) || destruct (fge _ _); reflexivity. }
    assert (RR : forall j e, reachable e -> reachable (ticks j e)).
    { induction j as [|j IH]; intros e R; [exact R|]. cbn [ticks]. apply IH.
      destruct R as (a' & d' & s' & r' & sl' & sr' & e' & cs & o & Q1 & Q2 & Q3 & Q4).
      exists a', d', s', r', sl', sr', e', (cs ++ [Tick]), (o ++ [fst (tick e)]). split; [exact Q1|]. split; [exact Q2|].
      clear - Q3 Q4. revert sr' Q3 e' o e Q4. induction cs as [|c cs IH]; intros sr' Q3 e' o e Q4; cbn [app good_calls run] in *.
      - injection Q4 as <- <-. cbn. auto.
      - destruct Q3 as [Q5 Q6]. destruct (do_call c e') as [[o1 e1]| |]; try discriminate Q4. cbn [bind fst snd] in *.
        destruct (run cs e1) as [[o2 e2]| |] eqn:Q7; try discriminate Q4. cbn [bind fst snd] in *. injection Q4 as <- <-.
        destruct (IH (sr_after sr' c) Q6 e1 o2 e2 Q7) as [X Y]. split; [auto|]. rewrite Y. cbn [bind fst snd]. now rewrite app_assoc. }
    assert (RO : forall e, reachable e -> reachable (trigger_off e)).
    { intros e R. destruct R as (a' & d' & s' & r' & sl' & sr' & e' & cs & o & Q1 & Q2 & Q3 & Q4).
      exists a', d', s', r', sl', sr', e', (cs ++ [TriggerOff]), (o ++ []). split; [exact Q1|]. split; [exact Q2|].
      clear - Q3 Q4. revert sr' Q3 e' o e Q4. induction cs as [|c cs IH]; intros sr' Q3 e' o e Q4; cbn [app good_calls run] in *.
      - injection Q4 as <- <-. cbn. auto.
      - destruct Q3 as [Q5 Q6]. destruct (do_call c e') as [[o1 e1]| |]; try discriminate Q4. cbn [bind fst snd] in *.
        destruct (run cs e1) as [[o2 e2]| |] eqn:Q7; try discriminate Q4. cbn [bind fst snd] in *. injection Q4 as <- <-.
        destruct (IH (sr_after sr' c) Q6 e1 o2 e2 Q7) as [X Y]. split; [auto|]. rewrite Y. cbn [bind fst snd]. now rewrite app_assoc. }
    apply (C51_released_note NP MO _ n k P); auto.
    + unfold trigger_off. rewrite S. reflexivity.
    + apply (four_sr sr); auto. unfold trigger_off. rewrite S. cbn [e_release]. rewrite T. unfold trigger_on. rewrite St. exact Lr.
Qed.
Print Assumptions C51_fresh_note.

Example C51_met (NP : NanPolicy) : @power_ok NP id_math /\ good_new ex_ms10 ex_ms10 (lit 1 (-1)) (of_int (-1)) (of_int 1) ex_sr /\
  4 * val ex_sr <= INR (Z.to_nat 192000).
Proof.
  split; [apply id_power|]. split; [apply ex_good|]. rewrite INR_IZR_INZ, Znat.Z2Nat.id by lia.
  assert (S : isv ex_sr (IZR 48000)) by (apply isv_int; lia). destruct S as [_ ->]. lra.
Qed.

(** ** Monotone inside a stage *)

Section Mono.
Context {NP : NanPolicy} {MO : MathOps f32}.
Lemma clock_bounds e r : inv e -> rate_ok r -> fin (fadd (e_t e) r) = true /\ 0 <= val (fadd (e_t e) r) <= 3 /\ val (e_t e) <= val (fadd (e_t e) r).
Proof.
  intros I R. destruct (i_t e I) as [Ft Ht]. destruct (clock (e_t e) r Ft Ht R) as (F & B & _). split; [exact F|]. lra.
Qed.
Lemma attack_mono e : power_ok -> power_monotone -> inv e -> e_state e = Attack -> e_state (snd (tick e)) = Attack ->
  val (fst (tick e)) <= val (fst (tick (snd (tick e)))).
Proof.
  intros P Q I S S1. assert (T : tick e = next_attack e) by (unfold tick; now rewrite S).
  destruct (tick_inv e P I) as [_ I1].
  destruct (attack_tick e P I) as (_ & _ & _ & [(L & E)|(L & T1 & E)]); rewrite T, E in *; [discriminate S1|].
  cbn [fst snd] in *. set (e1 := with_tsv e (fadd (e_t e) (e_attack e)) Attack (m_powf (fadd (e_t e) (e_attack e)) (fdiv (of_int 1) (e_slope e)))) in *.
  assert (T2 : tick e1 = next_attack e1) by reflexivity. rewrite T2.
  destruct (clock_bounds e (e_attack e) I (i_a e I)) as (F0 & B0 & _). destruct (clock_bounds e1 (e_attack e) I1 (i_a e I)) as (F1 & B1 & M1).
  change (e_t e1) with (fadd (e_t e) (e_attack e)) in *.
  destruct (slope_inv _ (i_slope e I)) as [Fs Hs].
  destruct (attack_tick e1 P I1) as (_ & _ & _ & [(L2 & E2)|(L2 & T12 & E2)]); rewrite E2; cbn [fst].
  - destruct (of_int_exact 1 ltac:(lia)) as [_ V1]. rewrite V1. lra.
  - apply Q; auto; lra.
Qed.
Lemma decay_mono e : power_ok -> power_monotone -> inv e -> e_state e = Decay ->
  val (fst (tick (snd (tick e)))) <= val (fst (tick e)).
Proof.
  intros P Q I S. assert (T : tick e = next_decay e) by (unfold tick; now rewrite S).
  destruct (tick_inv e P I) as [_ I1].
  destruct (decay_tick e P I (i_t1 e I (or_introl S))) as (_ & Fp & P0 & _ & [(L & E)|(L & T1 & E)]); rewrite T, E in *; cbn [fst snd] in *.
  - cbn. lra.
  - set (e1 := with_tsv e _ _ _) in *. assert (T2 : tick e1 = next_decay e1) by reflexivity. rewrite T2.
    destruct (clock_bounds e (e_decay e) I (i_d e I)) as (F0 & B0 & _). destruct (clock_bounds e1 (e_decay e) I1 (i_d e I)) as (F1 & B1 & M1).
    change (e_t e1) with (fadd (e_t e) (e_decay e)) in *. destruct (i_slope e I) as [Fs Hs].
    destruct (decay_tick e1 P I1 T1) as (_ & Fp1 & P1 & _ & [(L2 & E2)|(L2 & T12 & E2)]); rewrite E2; cbn [fst].
    + change (e_sustain e1) with (e_sustain e). lra.
    + change (e_sustain e1) with (e_sustain e). change (e_slope e1) with (e_slope e) in *. change (e_decay e1) with (e_decay e) in *.
      change (e_t e1) with (fadd (e_t e) (e_decay e)) in *.
      destruct (decay_spec (e_sustain e) _ (i_s e I) Fp P0) as (_ & _ & V & _). destruct (decay_spec (e_sustain e) _ (i_s e I) Fp1 P1) as (_ & _ & V' & _).
      rewrite V, V'. destruct (i_s e I) as [_ Hsu]. pose proof (Q _ _ (e_slope e) F0 F1 Fs ltac:(lra) M1 ltac:(lra) Hs) as K.
      apply rnd_le. apply Rplus_le_compat_r. apply rnd_le. apply Rmult_le_compat_r; [apply rnd_pos; lra|]. apply rnd_le. lra.
Qed.
Lemma release_mono e : power_ok -> power_monotone -> inv e -> e_state e = Release ->
  val (fst (tick (snd (tick e)))) <= val (fst (tick e)).
Proof.
  intros P Q I S. assert (T : tick e = next_release e) by (unfold tick; now rewrite S).
  destruct (tick_inv e P I) as [_ I1].
  destruct (release_tick e P I (i_t1 e I (or_intror S))) as (_ & Fp & P0 & _ & [(L & E)|(L & T1 & E)]); rewrite T, E in *; cbn [fst snd] in *.
  - cbn. lra.
  - set (e1 := with_tsv e _ _ _) in *. assert (T2 : tick e1 = next_release e1) by reflexivity. rewrite T2.
    destruct (clock_bounds e (e_release e) I (i_r e I)) as (F0 & B0 & _). destruct (clock_bounds e1 (e_release e) I1 (i_r e I)) as (F1 & B1 & M1).
    change (e_t e1) with (fadd (e_t e) (e_release e)) in *. destruct (i_slope e I) as [Fs Hs].
    destruct (release_tick e1 P I1 T1) as (_ & Fp1 & P1 & _ & [(L2 & E2)|(L2 & T12 & E2)]); rewrite E2; cbn [fst].
    + destruct (of_int_exact 0 ltac:(lia)) as [_ V0]. rewrite V0. pose proof (bpow_gt_0 radix2 (-23)). lra.
    + change (e_release_val e1) with (e_release_val e). change (e_slope e1) with (e_slope e) in *. change (e_release e1) with (e_release e) in *.
      change (e_t e1) with (fadd (e_t e) (e_release e)) in *.
      destruct (release_spec (e_release_val e) _ (i_rv e I) Fp P0) as (_ & _ & V & _). destruct (release_spec (e_release_val e) _ (i_rv e I) Fp1 P1) as (_ & _ & V' & _).
      rewrite V, V'. destruct (i_rv e I) as [_ Hsu]. pose proof (Q _ _ (e_slope e) F0 F1 Fs ltac:(lra) M1 ltac:(lra) Hs) as K.
      apply rnd_le. apply Rmult_le_compat_r; [lra|]. apply rnd_le. lra.
Qed.
End Mono.

(** C52: with a power routine monotone in its base, in every envelope a program can hold, two
    consecutive ticks in the attack stage do not decrease, and two consecutive ticks from the decay
    stage or from the release stage on do not increase. *)
Theorem C52_monotone_stages : forall (NP : NanPolicy) (MO : MathOps f32) (e : adsr),
  power_ok -> power_monotone -> reachable e ->
  let v1 := fst (tick e) in let e1 := snd (tick e) in let v2 := fst (tick e1) in
  (e_state e = Attack -> e_state e1 = Attack -> val v1 <= val v2) /\
  (e_state e = Decay -> val v2 <= val v1) /\
  (e_state e = Release -> val v2 <= val v1).
Proof.
  intros NP MO e P Q R. pose proof (reachable_inv e P R) as I. cbv zeta.
  split; [|split]; [now apply attack_mono|now apply decay_mono|now apply release_mono].
Qed.
Print Assumptions C52_monotone_stages.

(** Such envelopes, at 1024 Hz with 1/64 s (16 sample) stages: triggered, 17 ticks later, released. *)
Definition ex_new {NP : NanPolicy} : outcome adsr := adsr_new (lit 1 (-6)) (lit 1 (-6)) (lit 1 (-1)) (lit 1 (-6)) (of_int 1) (of_int 1024).
Lemma ex_new_good (NP : NanPolicy) : good_new (lit 1 (-6)) (lit 1 (-6)) (lit 1 (-1)) (lit 1 (-6)) (of_int 1) (of_int 1024).
Proof.
  assert (S : isv (of_int 1024) (IZR 1024)) by (apply isv_int; lia). destruct S as [FS VS].
  assert (M : isv (lit 1 (-6)) (IZR 1 * pow2 (-6))) by (apply isv_lit; lia). destruct M as [FM VM].
  assert (E6 : pow2 (-6) = 1 / 64) by (cbn; lra). assert (E22 : pow2 22 = 4194304) by (cbn; lra).
  destruct (of_int_exact 1 ltac:(lia)) as [F1 V1].
  assert (T : good_time (lit 1 (-6)) (of_int 1024)).
  { split; [now apply fin_notnan|]. right. rewrite (ext_fin _ FM), VM, VS, E6. lra. }
  split; [split; [exact FS|rewrite VS; lra]|]. split; [exact T|]. split; [exact T|]. split; [exact T|].
  split; [reflexivity|]. split; [exact F1|]. rewrite V1. destruct twentieth as (_ & _ & B). lra.
Qed.
Definition ex_after (cs : list call) : outcome adsr :=
  let NP := default_policy in let MO := id_math in do e <- ex_new ; do p <- run cs e ; Ret (snd p).
Definition ex_stage (cs : list call) : outcome EnvelopeState := do e <- ex_after cs ; Ret (e_state e).
Lemma ex_reach (cs : list call) (e : adsr) : good_calls (of_int 1024) cs -> ex_after cs = Ret e -> @reachable default_policy id_math e.
Proof.
  intros G E. unfold ex_after in E. set (NP := default_policy) in *. set (MO := id_math) in *.
  destruct ex_new as [e0| |] eqn:E0; try discriminate E. cbn [bind] in E. destruct (run cs e0) as [[o e1]| |] eqn:R; try discriminate E.
  cbn [bind snd] in E. injection E as <-. exists (lit 1 (-6)), (lit 1 (-6)), (lit 1 (-1)), (lit 1 (-6)), (of_int 1), (of_int 1024), e0, cs, o.
  split; [apply ex_new_good|]. auto.
Qed.
Example C52_met : @power_ok default_policy id_math /\ @power_monotone default_policy id_math /\
  good_calls (of_int 1024) (TriggerOn :: repeat Tick 17 ++ [TriggerOff]) /\
  ex_stage [TriggerOn] = Ret Attack /\ ex_stage [TriggerOn; Tick] = Ret Attack /\
  ex_stage (TriggerOn :: repeat Tick 17) = Ret Decay /\ ex_stage (TriggerOn :: repeat Tick 17 ++ [TriggerOff]) = Ret Release /\
  ex_stage (TriggerOn :: repeat Tick 32) = Ret Sustain.
Proof. split; [apply id_power|]. split; [apply id_power|]. split; [cbn; tauto|]. vm_compute. auto. Qed.
Example C50_met : ex_stage [TriggerOff] = Ret Idle /\ ex_stage (TriggerOn :: repeat Tick 15) = Ret Attack /\
  ex_stage (TriggerOn :: repeat Tick 16) = Ret Decay /\ ex_stage (TriggerOn :: repeat Tick 32) = Ret Sustain /\
  ex_stage (TriggerOn :: repeat Tick 32 ++ [TriggerOff]) = Ret Release /\
  ex_stage (TriggerOn :: repeat Tick 32 ++ [TriggerOff; TriggerOn]) = Ret Attack /\
  ex_stage (TriggerOn :: repeat Tick 32 ++ [Reset]) = Ret Idle.
Proof. vm_compute. repeat split. Qed.

(** ** The timing parameter *)

Section Timing.
Context {NP : NanPolicy}.
Lemma grid v : repr v -> exists k : Z, v = IZR k * pow2 (-149).
Proof.
  intros R. unfold repr, generic_format in R. set (m := Ztrunc (scaled_mantissa radix2 fexp32 v)) in R. set (c := cexp radix2 fexp32 v) in R.
  assert (C : (-149 <= c)%Z) by (unfold c, cexp, fexp32, FLT_exp; lia).
  exists (m * 2 ^ (c + 149))%Z. rewrite R at 1. unfold F2R. cbn [Fnum Fexp].
  rewrite mult_IZR. change 2%Z with (radix_val radix2). rewrite IZR_Zpower by lia. rewrite Rmult_assoc, <- bpow_plus.
  f_equal. f_equal. lia.
Qed.

Lemma panic_iff secs sr : (set_time_parameter secs sr = Panic <-> fle (fdiv (lit 1 (-1)) sr) f_max = false) /\
  (fle (fdiv (lit 1 (-1)) sr) f_max = true -> exists r, set_time_parameter secs sr = Ret r).
Proof.
  unfold set_time_parameter, fclamp. destruct (fle (fdiv (lit 1 (-1)) sr) f_max); split.
  - split; intros; discriminate.
  - intros _. eexists. reflexivity.
  - tauto.
  - discriminate.
Qed.

Lemma floor_panics sr : fle (fdiv (lit 1 (-1)) sr) f_max = false <->
  isnan sr = true \/ (fin sr = true /\ sgn sr = false /\ val sr <= pow2 (-129)).
Proof.
  destruct half_lit as [F5 V5]. destruct fmax_val as [Fm Vm]. pose proof fmax_ge as GE. pose proof (bpow_gt_0 radix2 (-129)) as P129.
  destruct (isnan sr) eqn:N; [split; intros _; [now left|rewrite fle_nan by (left; apply fdiv_nan; auto); reflexivity]|].
  destruct (fin_or_inf sr N) as [F|[s E]].
  2:{ subst sr. split; [|intros [H|[H _]]; discriminate H]. intros H. exfalso.
      assert (K : fdiv (lit 1 (-1)) (B754_infinity 24 128 s) = B754_zero 24 128 s) by (destruct s; reflexivity).
      rewrite K in H. apply Bool.diff_false_true. rewrite <- H. apply fle_true_fin; auto. change (0 <= val f_max). lra. }
  destruct (Req_dec (val sr) 0) as [Z|Z].
  - assert (K : fdiv (lit 1 (-1)) sr = B754_infinity 24 128 (sgn sr)).
    { destruct sr as [s|s|s pl H|s m e H]; try discriminate F; [destruct s; reflexivity|].
      exfalso. unfold val, Binary.B2R in Z. apply eq_0_F2R in Z. destruct s; discriminate Z. }
    rewrite K, fle_ext by auto using fin_notnan. rewrite ext_inf, (ext_fin _ Fm). destruct (sgn sr) eqn:S.
    + rewrite Rle_bool_true by lra. split; [discriminate|]. intros [H|(_ & H & _)]; discriminate H.
    + rewrite Rle_bool_false by lra. split; [|reflexivity]. intros _. right. rewrite Z. repeat split; auto. lra.
  - assert (B1 : pow2 128 * pow2 (-129) = 1 / 2) by (rewrite <- bpow_plus; cbn; lra).
    destruct (fdiv_cases (lit 1 (-1)) sr F5 F Z) as [(L & Fd & Vd & Sd)|[L E]].
    + rewrite (proj2 (fle_true_fin _ _ Fd Fm)) by (apply val_le_fmax; exact Fd). split; [discriminate|].
      intros [H|(_ & S & H)]; [discriminate H|]. exfalso. pose proof (sgn_val_ge sr S).
      apply (Rlt_not_le _ _ L). rewrite V5. unfold big. apply Rle_trans with (2 := Rle_abs _). apply rnd_ge_repr; [apply repr_bpow; lia|].
      apply Rmult_le_reg_r with (val sr); [lra|]. replace (1 / 2 / val sr * val sr) with (1 / 2) by (field; lra).
      rewrite <- B1. apply Rmult_le_compat_l; [apply bpow_ge_0|exact H].
    + rewrite E. change (sgn (lit 1 (-1))) with false. cbn [xorb]. rewrite fle_ext by auto using fin_notnan. rewrite ext_inf, (ext_fin _ Fm).
      destruct (sgn sr) eqn:S; cbv iota.
      * rewrite Rle_bool_true by lra. split; [discriminate|]. intros [H|(_ & H & _)]; discriminate H.
      * rewrite Rle_bool_false by lra. split; [|reflexivity]. intros _. right. split; [exact F|]. split; [reflexivity|].
        apply Rnot_lt_le. intros C. pose proof (sgn_val_ge sr S) as S0. destruct (grid (val sr) (repr_val sr)) as [k Hk].
        assert (K : (2 ^ 20 < k)%Z).
        { apply lt_IZR. apply Rmult_lt_reg_r with (pow2 (-149)); [apply bpow_gt_0|]. rewrite <- Hk.
          replace (IZR (2 ^ 20) * pow2 (-149)) with (pow2 (-129)); [exact C|].
          change (IZR (2 ^ 20)) with (pow2 20). rewrite <- bpow_plus. reflexivity. }
        assert (K2 : pow2 (-129) * (1048577 / 1048576) <= val sr).
        { rewrite Hk. replace (pow2 (-129)) with (1048576 * pow2 (-149)).
          - assert (IZR 1048577 <= IZR k) by (apply IZR_le; lia). pose proof (bpow_gt_0 radix2 (-149)). nra.
          - replace (-129)%Z with (20 + -149)%Z by lia. rewrite bpow_plus. replace (pow2 20) with 1048576 by (cbn; lra). reflexivity. }
        assert (Q : 1 / 2 / val sr <= val f_max).
        { apply Rmult_le_reg_r with (val sr); [lra|]. replace (1 / 2 / val sr * val sr) with (1 / 2) by (field; lra).
          apply Rle_trans with (val f_max * (pow2 (-129) * (1048577 / 1048576))); [|apply Rmult_le_compat_l; lra].
          rewrite Vm. replace (pow2 104) with (pow2 128 / 16777216).
          - replace (16777215 * (pow2 128 / 16777216) * (pow2 (-129) * (1048577 / 1048576))) with
              (pow2 128 * pow2 (-129) * (16777215 / 16777216 * (1048577 / 1048576))) by field. rewrite B1. lra.
          - replace 128%Z with (104 + 24)%Z by lia. rewrite bpow_plus. replace (pow2 24) with 16777216 by (cbn; lra). field. }
        assert (0 <= 1 / 2 / val sr) by (apply Rlt_le, Rdiv_lt_0_compat; lra).
        rewrite V5 in L. rewrite Rabs_pos_eq in L by now apply rnd_pos.
        pose proof (rnd_le_repr _ _ (repr_val f_max) Q). lra.
Qed.
End Timing.

(** C53: a stage time setter panics exactly when the sample rate is NaN or a non-negative number
    not above 2^-129 (+0 included; -0, negative and infinite rates do not panic). *)
Theorem C53_setter_panics : forall (NP : NanPolicy) (secs sr : f32),
  (set_time_parameter secs sr = Panic <-> isnan sr = true \/ (fin sr = true /\ sgn sr = false /\ val sr <= pow2 (-129))) /\
  (~ (isnan sr = true \/ (fin sr = true /\ sgn sr = false /\ val sr <= pow2 (-129))) -> exists r, set_time_parameter secs sr = Ret r).
Proof.
  intros NP secs sr. destruct (panic_iff secs sr) as [A B]. pose proof (floor_panics sr) as C. split; [now rewrite A, C|].
  intros H. apply B. destruct (fle _ _); [reflexivity|]. exfalso. apply H, C. reflexivity.
Qed.
Print Assumptions C53_setter_panics.
Example C53_panic_met : isnan (of_int 0) = false /\ sgn (of_int 0) = false /\ val (of_int 0) <= pow2 (-129) /\
  obits (let NP := default_policy in set_time_parameter (of_int 1) (of_int 0)) = Panic.
Proof.
  split; [reflexivity|]. split; [reflexivity|]. split; [|vm_compute; reflexivity].
  destruct (of_int_exact 0 ltac:(lia)) as [_ ->]. apply bpow_ge_0.
Qed.

(** For sample rates from 1 Hz to 2^22 Hz: every time that is a number gives a finite rate, never
    below the float nearest 0.5/sr (two seconds), so never 0; a negative time, -0 included, gives
    exactly that longest time; a time of +0 gives the largest float; a NaN time gives a NaN rate. *)
Theorem C53_rate_floor : forall (NP : NanPolicy) (secs sr : f32), good_sr sr ->
  (isnan secs = false -> exists r, set_time_parameter secs sr = Ret r /\ fin r = true /\ rnd (1 / 2 / val sr) <= val r) /\
  (isnan secs = false -> sgn secs = true -> set_time_parameter secs sr = Ret (fdiv (lit 1 (-1)) sr)) /\
  (fin secs = true -> val secs = 0 -> sgn secs = false -> set_time_parameter secs sr = Ret f_max) /\
  (isnan secs = true -> exists r, set_time_parameter secs sr = Ret r /\ isnan r = true).
Proof.
  intros NP secs sr G. destruct (floor_rate sr G) as (Fl & Vl & Bl). pose proof fmax_ge as GE. destruct fmax_val as [Fm _].
  pose proof (bpow_gt_0 radix2 (-23)). split; [|split; [|split]].
  - intros N. destruct (rate_num secs sr N G) as (r & E & F & _ & _ & V). exists r. split; [exact E|]. split; [exact F|].
    rewrite V, <- Vl. apply Rmax_l.
  - intros N S. destruct (rate_num secs sr N G) as (r & E & F & Nx & Sx & V). rewrite E. f_equal. rewrite S in Sx.
    pose proof (sgn_ext_le _ Nx Sx). rewrite Rmax_left in V by (apply Rle_trans with (1 := Rmin_r _ _); lra).
    apply val_inj; auto. lra.
  - intros F Z S. rewrite <- (zero_time sr G). f_equal. apply val_sgn_inj; auto.
  - intros N. exists (fdiv (of_int 1) (fmul secs sr)).
    assert (Q : isnan (fdiv (of_int 1) (fmul secs sr)) = true) by (apply fdiv_nan; right; apply fmul_nan; auto).
    split; [|exact Q]. apply fclamp_nan; [exact Q|]. apply fle_true_fin; auto. lra.
Qed.
Print Assumptions C53_rate_floor.

(** Times up to two seconds (and not absurdly short) give the rate 1/(secs*sr) to within a relative
    error of 2^-22; times above 2.000002 seconds, infinity included, give the two second rate. *)
Theorem C53_rate_accuracy : forall (NP : NanPolicy) (secs sr : f32), good_sr sr -> isnan secs = false ->
  (fin secs = true -> pow2 (-100) <= val secs * val sr -> val secs <= 2 ->
    exists r, set_time_parameter secs sr = Ret r /\ Rabs (val r - 1 / (val secs * val sr)) <= pow2 (-22) * (1 / (val secs * val sr))) /\
  (2 + pow2 (-19) <= ext secs -> set_time_parameter secs sr = Ret (fdiv (lit 1 (-1)) sr)).
Proof.
  intros NP secs sr G N. destruct (rate_num secs sr N G) as (r & E & F & Nx & Sx & V).
  destruct (floor_rate sr G) as (Fl & Vl & Bl). pose proof fmax_ge as GE. pose proof big_ge as BG. destruct G as [Fs Hs].
  assert (E22 : pow2 22 = 4194304) by (cbn; lra). assert (E24 : pow2 (-24) = 1 / 16777216) by (cbn; lra). assert (E19 : pow2 (-19) = 1 / 524288) by (cbn; lra).
  assert (Em22 : pow2 (-22) = 1 / 4194304) by (cbn; lra). pose proof (bpow_gt_0 radix2 (-100)) as P100.
  (* the raw rate of a finite time *)
  assert (RAW : fin secs = true -> pow2 (-100) <= val secs * val sr -> val secs <= 1048576 -> exists x, rel x (1 / (val secs * val sr)) (pow2 (-23) + pow2 (-40)) /\
    ext (raw_rate secs sr) = x /\ pow2 (-60) <= x <= pow2 101).
  { intros Fp Lo Hi. set (y := val secs * val sr) in *.
    assert (P42 : pow2 42 = 4398046511104) by (cbn; lra). assert (Y : 0 < y <= 4398046511104).
    { split; [lra|]. unfold y. apply Rle_trans with (1048576 * val sr); [apply Rmult_le_compat_r; lra|]. nra. }
    assert (Ry : pow2 (-100) <= rnd y <= pow2 42).
    { split; [apply rnd_ge_repr; [apply repr_bpow; lia|lra]|apply rnd_le_repr; [apply repr_bpow; lia|lra]]. }
    assert (B42 : pow2 42 < big) by (apply bpow_lt; lia).
    destruct (ext_mul secs sr Fp Fs ltac:(lra)) as [Nm Em]. fold y in Em. rewrite clampb_in in Em by (rewrite Rabs_pos_eq; lra).
    assert (Fm : fin (fmul secs sr) = true) by (apply ext_fin_of_bounds; [exact Nm|lra]). rewrite (ext_fin _ Fm) in Em.
    destruct (one_over _ Nm) as (_ & _ & Q & _). specialize (Q Fm ltac:(lra)). rewrite Em in Q.
    assert (I1 : pow2 (-42) <= 1 / rnd y <= pow2 100).
    { unfold Rdiv. rewrite Rmult_1_l. change (-42)%Z with (- (42))%Z. rewrite bpow_opp. split.
      - apply Rinv_le; lra.
      - change (pow2 100) with (bpow radix2 (- - 100)). rewrite bpow_opp. apply Rinv_le; [apply bpow_gt_0|]. exact (proj1 Ry). }
    assert (Rx : pow2 (-42) <= rnd (1 / rnd y) <= pow2 100).
    { split; [apply rnd_ge_repr; [apply repr_bpow; lia|lra]|apply rnd_le_repr; [apply repr_bpow; lia|lra]]. }
    pose proof (bpow_gt_0 radix2 (-42)). assert (pow2 100 < big) by (apply bpow_lt; lia).
    rewrite clampb_in in Q by (rewrite Rabs_pos_eq; lra). exists (rnd (1 / rnd y)).
    assert (pow2 (-60) <= pow2 (-42)) by (apply bpow_le; lia). assert (pow2 100 <= pow2 101) by (apply bpow_le; lia).
    split; [|split; [exact Q|lra]].
    assert (U : rel (1 / rnd y) (1 / y) (1 / 16777215)).
    { unfold rel. pose proof (rnd_err_rel y) as R. rewrite Rabs_pos_eq in R by lra. specialize (R ltac:(apply Rle_trans with (pow2 (-100)); [apply bpow_le; lia|lra])).
      rewrite E24 in R. replace (1 / rnd y - 1 / y) with ((y - rnd y) * (1 / rnd y * (1 / y))) by (field; lra).
      rewrite Rabs_mult, Rabs_minus_sym. rewrite (Rabs_pos_eq (1 / rnd y * (1 / y))) by (apply Rmult_le_pos; apply Rlt_le, Rdiv_lt_0_compat; lra).
      rewrite (Rabs_pos_eq (1 / y)) by (apply Rlt_le, Rdiv_lt_0_compat; lra). rewrite <- Rmult_assoc. apply Rmult_le_compat_r; [apply Rlt_le, Rdiv_lt_0_compat; lra|].
      apply Rmult_le_reg_r with (rnd y); [lra|]. replace (Rabs (rnd y - y) * (1 / rnd y) * rnd y) with (Rabs (rnd y - y)) by (field; lra).
      assert (y * (1 - 1 / 16777216) <= rnd y) by (apply Rabs_le_inv in R; lra). lra. }
    pose proof (rel_rnd (1 / rnd y) (1 / y) (1 / 16777215) ltac:(lra) U) as W. pose proof (bpow_gt_0 radix2 (-42)) as P42'. rewrite (Rabs_pos_eq (1 / rnd y)) in W by lra.
    specialize (W ltac:(apply Rle_trans with (pow2 (-42)); [apply bpow_le; lia|lra])). unfold rel in *.
    apply Rle_trans with (1 := W). apply Rmult_le_compat_r; [apply Rabs_pos|]. rewrite E24.
    replace (pow2 (-23)) with (1 / 8388608) by (cbn; lra). replace (pow2 (-40)) with (1 / 1099511627776) by (cbn; lra). lra. }
  assert (E23 : pow2 (-23) = 1 / 8388608) by (cbn; lra). assert (E40 : pow2 (-40) = 1 / 1099511627776) by (cbn; lra).
  assert (Lo5 : rel (val (fdiv (lit 1 (-1)) sr)) (1 / 2 / val sr) (1 / 16777216)).
  { unfold rel. rewrite Vl, <- E24. apply rnd_err_rel. assert (1 / 8388608 <= 1 / 2 / val sr).
    { apply Rmult_le_reg_r with (val sr); [lra|]. replace (1 / 2 / val sr * val sr) with (1 / 2) by (field; lra). lra. }
    rewrite Rabs_pos_eq by lra. apply Rle_trans with (pow2 (-23)); [apply bpow_le; lia|lra]. }
  assert (S5 : 0 < 1 / 2 / val sr) by (apply Rdiv_lt_0_compat; lra).
  assert (M101 : pow2 101 <= val f_max).
  { destruct fmax_val as [_ Vm]. rewrite Vm. assert (0 < pow2 104) by apply bpow_gt_0. assert (pow2 101 <= pow2 104) by (apply bpow_le; lia). lra. }
  split.
  - intros Fp Lo Hi. exists r. split; [exact E|]. destruct (RAW Fp Lo ltac:(lra)) as (x & Rx & Ex & Bx).
    set (y := val secs * val sr) in *. assert (Y : 0 < y) by lra. assert (IY : 0 < 1 / y) by (apply Rdiv_lt_0_compat; lra).
    rewrite Ex in V. rewrite Rmin_right in V by lra. unfold rel in Rx, Lo5. rewrite (Rabs_pos_eq (1 / y)) in Rx by lra. rewrite (Rabs_pos_eq (1 / 2 / val sr)) in Lo5 by lra.
    assert (H5 : 1 / 2 / val sr <= 1 / y).
    { apply Rmult_le_reg_r with (2 * y * val sr); [nra|]. replace (1 / 2 / val sr * (2 * y * val sr)) with y by (field; lra).
      replace (1 / y * (2 * y * val sr)) with (2 * val sr) by (field; lra). unfold y. apply Rmult_le_compat_r; lra. }
    apply Rabs_le_inv in Rx. apply Rabs_le_inv in Lo5. rewrite V. apply Rabs_le. rewrite Em22. rewrite E23, E40 in Rx. split.
    + pose proof (Rmax_r (val (fdiv (lit 1 (-1)) sr)) x). lra.
    + assert (Rmax (val (fdiv (lit 1 (-1)) sr)) x <= 1 / y + 1 / 4194304 * (1 / y)); [|lra]. apply Rmax_lub; lra.
  - intros H. rewrite E. f_equal. apply val_inj; auto; [|rewrite V; pose proof (Rmax_l (val (fdiv (lit 1 (-1)) sr)) (Rmin (val f_max) (ext (raw_rate secs sr)))); pose proof (bpow_gt_0 radix2 (-23)); lra].
    rewrite V. apply Rmax_left. apply Rle_trans with (1 := Rmin_r _ _).
    assert (SP : sgn secs = false). { destruct (sgn secs) eqn:S; [|reflexivity]. pose proof (sgn_ext_le secs N S). lra. }
    destruct (Rle_lt_dec (ext secs) 1048576) as [C|C].
    + assert (Fp : fin secs = true) by (apply ext_fin_of_bounds; [exact N|lra]). rewrite (ext_fin _ Fp) in H, C.
      assert (L1 : pow2 (-100) <= val secs * val sr).
      { apply Rle_trans with 1; [change 1 with (pow2 0); apply bpow_le; lia|]. nra. }
      destruct (RAW Fp L1 ltac:(lra)) as (x & Rx & Ex & Bx). rewrite Ex. set (y := val secs * val sr) in *.
      assert (IY : 0 < 1 / y) by (apply Rdiv_lt_0_compat; lra). unfold rel in Rx, Lo5. rewrite (Rabs_pos_eq (1 / y)) in Rx by lra.
      rewrite (Rabs_pos_eq (1 / 2 / val sr)) in Lo5 by lra. apply Rabs_le_inv in Rx. apply Rabs_le_inv in Lo5. rewrite E23, E40 in Rx.
      assert (H5 : 1 / y <= 1 / 2 / val sr * (1 / (1 + 1 / 1048576))).
      { apply Rmult_le_reg_r with (y * val sr); [nra|]. replace (1 / y * (y * val sr)) with (val sr) by (field; lra).
        replace (1 / 2 / val sr * (1 / (1 + 1 / 1048576)) * (y * val sr)) with (y / 2 * (1048576 / 1048577)) by (field; lra). unfold y.
        replace (val secs * val sr / 2 * (1048576 / 1048577)) with (val sr * (val secs * (1048576 / 2097154))) by field.
        rewrite <- (Rmult_1_r (val sr)) at 1. apply Rmult_le_compat_l; lra. }
      lra.
    + (* longer: monotone comparison with 2^20 seconds *)
      destruct (scaled_notnan secs sr N Fs ltac:(lra)) as [Nm Sm]. destruct (one_over _ Nm) as (_ & _ & Q & _ & I). unfold raw_rate.
      destruct (fin (fmul secs sr)) eqn:Fm.
      * assert (Y : 1048576 <= val (fmul secs sr)).
        { destruct (fin_or_inf secs N) as [Fp|[s Es]]; [|subst secs; rewrite inf_mul in Fm by (auto; lra); discriminate].
          destruct (ext_mul secs sr Fp Fs ltac:(lra)) as [_ Em]. rewrite (ext_fin _ Fm) in Em. rewrite Em. rewrite (ext_fin _ Fp) in C.
          unfold clampb. apply Rle_trans with (2 := Rmax_r _ _). apply Rmin_glb; [lra|]. apply rnd_ge_repr; [apply (repr_int 1048576); lia|]. nra. }
        assert (Y2 : val sr * 1048576 <= val (fmul secs sr)).
        { destruct (fin_or_inf secs N) as [Fp|[s Es]]; [|subst secs; rewrite inf_mul in Fm by (auto; lra); discriminate].
          destruct (ext_mul secs sr Fp Fs ltac:(lra)) as [_ Em]. rewrite (ext_fin _ Fm) in Em. rewrite Em. rewrite (ext_fin _ Fp) in C.
          unfold clampb. apply Rle_trans with (2 := Rmax_r _ _).
          assert (RR : repr (val sr * 1048576)).
          { replace 1048576 with (pow2 20) by (cbn; lra). apply Mult_error.mult_bpow_pos_exact_FLT; [apply repr_val|lia]. }
          apply Rmin_glb; [|apply rnd_ge_repr; [exact RR|rewrite Rmult_comm; apply Rmult_le_compat_r; lra]].
          apply Rle_trans with (4194304 * 1048576); [nra|]. replace (4194304 * 1048576) with (pow2 42) by (cbn; lra). apply bpow_le. lia. }
        rewrite Q by (auto; lra). unfold rel in Lo5. rewrite (Rabs_pos_eq (1 / 2 / val sr)) in Lo5 by lra. apply Rabs_le_inv in Lo5.
        assert (Z : 0 <= rnd (1 / val (fmul secs sr)) <= 1 / 4 / val sr).
        { split; [apply rnd_pos, Rlt_le, Rdiv_lt_0_compat; lra|].
          apply Rle_trans with (rnd (1 / (val sr * 1048576))).
          - apply rnd_le. unfold Rdiv. rewrite !Rmult_1_l. apply Rinv_le; [nra|exact Y2].
          - pose proof (rnd_err_rel (1 / (val sr * 1048576))) as R.
            assert (P : 0 < 1 / (val sr * 1048576)) by (apply Rdiv_lt_0_compat; nra). rewrite Rabs_pos_eq in R by lra.
            assert (PL : pow2 (-42) <= 1 / (val sr * 1048576)).
            { change (-42)%Z with (- (42))%Z. rewrite bpow_opp. unfold Rdiv. rewrite Rmult_1_l. apply Rinv_le; [nra|]. replace (pow2 42) with (4194304 * 1048576) by (cbn; lra). apply Rmult_le_compat_r; lra. }
            specialize (R ltac:(apply Rle_trans with (pow2 (-42)); [apply bpow_le; lia|exact PL])). rewrite E24 in R. apply Rabs_le_inv in R.
            assert (1 / 4 / val sr = 262144 * (1 / (val sr * 1048576))) by (field; lra). lra. }
        assert (ZZ : 1 / 4 / val sr = 1 / 2 / val sr / 2) by (field; lra).
        unfold clampb. apply Rmax_lub; [lra|]. apply Rle_trans with (1 := Rmin_r _ _). lra.
      * destruct (I eq_refl) as [Z Fz]. rewrite (ext_fin _ Fz), Z. pose proof (bpow_gt_0 radix2 (-23)). lra.
Qed.
Print Assumptions C53_rate_accuracy.
Example C53_met : good_sr ex_sr /\ isnan ex_ms10 = false /\ pow2 (-100) <= val ex_ms10 * val ex_sr /\ val ex_ms10 <= 2 /\
  2 + pow2 (-19) <= ext (of_int 3) /\ obits (let NP := default_policy in set_time_parameter (of_int 3) (of_int 1024)) = Ret 973078528%Z.
Proof.
  destruct (ex_good default_policy) as (G & _). split; [exact G|]. split; [reflexivity|].
  assert (S : isv ex_sr (IZR 48000)) by (apply isv_int; lia). destruct S as [FS VS].
  assert (M : isv ex_ms10 (IZR 10737418 * pow2 (-30))) by (apply isv_lit; lia). destruct M as [FM VM].
  assert (E30 : pow2 (-30) = 1 / 1073741824) by (cbn; lra). assert (E19 : pow2 (-19) = 1 / 524288) by (cbn; lra).
  assert (pow2 (-100) <= 1) by (change 1 with (pow2 0); apply bpow_le; lia). destruct (of_int_exact 3 ltac:(lia)) as [F3 V3].
  split; [rewrite VM, VS, E30; lra|]. split; [rewrite VM, E30; lra|]. split; [rewrite (ext_fin _ F3), V3; lra|]. vm_compute. reflexivity.
Qed.

(** ** Retriggering and releasing *)

(** C54: trigger_on from Idle or during the attack restarts the attack from zero: two envelopes with
    the same parameters in those stages, whatever their past, give the same outputs afterwards. *)
Theorem C54_restart_from_zero : forall (NP : NanPolicy) (MO : MathOps f32) (e e' : adsr) (n : nat),
  (e_state e = Idle \/ e_state e = Attack) -> (e_state e' = Idle \/ e_state e' = Attack) ->
  e_attack e = e_attack e' -> e_decay e = e_decay e' -> e_sustain e = e_sustain e' -> e_slope e = e_slope e' ->
  e_t (trigger_on e) = of_int 0 /\
  fst (tick (ticks n (trigger_on e))) = fst (tick (ticks n (trigger_on e'))).
Proof.
  intros NP MO e e' n S S' A D U L. split; [unfold trigger_on; destruct S as [S|S]; rewrite S; reflexivity|].
  assert (G : forall k f f', e_state f = e_state f' -> e_state f <> Release -> e_t f = e_t f' ->
    e_attack f = e_attack f' -> e_decay f = e_decay f' -> e_sustain f = e_sustain f' -> e_slope f = e_slope f' ->
    fst (tick (ticks k f)) = fst (tick (ticks k f'))).
  { assert (T : forall f f', e_state f = e_state f' -> e_state f <> Release -> e_t f = e_t f' ->
      e_attack f = e_attack f' -> e_decay f = e_decay f' -> e_sustain f = e_sustain f' -> e_slope f = e_slope f' ->
      fst (tick f) = fst (tick f') /\ e_state (snd (tick f)) = e_state (snd (tick f')) /\ e_state (snd (tick f)) <> Release /\
      e_t (snd (tick f)) = e_t (snd (tick f')) /\ e_attack (snd (tick f)) = e_attack f /\ e_decay (snd (tick f)) = e_decay f /\
      e_sustain (snd (tick f)) = e_sustain f /\ e_slope (snd (tick f)) = e_slope f /\
      e_attack (snd (tick f')) = e_attack f' /\ e_decay (snd (tick f')) = e_decay f' /\
      e_sustain (snd (tick f')) = e_sustain f' /\ e_slope (snd (tick f')) = e_slope f').
    { intros [a d s r sl t st v rv sr] [a' d' s' r' sl' t' st' v' rv' sr']. cbn [e_state e_t e_attack e_decay e_sustain e_slope].
      intros -> N -> -> -> -> ->. unfold tick. cbn [e_state]. destruct st'; try (now destruct N);
        unfold next_attack, next_decay; cbn [e_state e_t e_attack e_decay e_sustain e_slope with_tsv fst snd];
        try (repeat split; congruence).
      - destruct (fge _ _); cbn [e_state e_t e_attack e_decay e_sustain e_slope with_tsv fst snd]; repeat split; congruence.
      - destruct (fle _ _); cbn [e_state e_t e_attack e_decay e_sustain e_slope with_tsv fst snd]; repeat split; congruence. }
    induction k as [|k IH]; intros f f' H1 H2 H3 H4 H5 H6 H7; destruct (T f f' H1 H2 H3 H4 H5 H6 H7) as (Q0 & Q1 & Q2 & Q3 & Q4 & Q5 & Q6 & Q7 & Q8 & Q9 & Q10 & Q11).
    - exact Q0.
    - cbn [ticks]. apply IH; congruence. }
  apply G; unfold trigger_on; destruct S as [S|S]; destruct S' as [S'|S']; rewrite ?S, ?S'; cbn; congruence.
Qed.
Print Assumptions C54_restart_from_zero.

(** Retriggered from any other stage the clock goes on from where it was: once it is within one
    attack step of 1, the next tick jumps to 1 and the envelope decays again. *)
Theorem C54_retrigger_jumps : forall (NP : NanPolicy) (MO : MathOps f32) (e : adsr),
  power_ok -> reachable e -> (e_state e = Decay \/ e_state e = Sustain \/ e_state e = Release) ->
  1 <= val (e_t e) + val (e_attack e) ->
  fst (tick (trigger_on e)) = of_int 1 /\ e_state (snd (tick (trigger_on e))) = Decay.
Proof.
  intros NP MO e P R S H. pose proof (reachable_inv e P R) as I.
  assert (E : trigger_on e = with_tsv e (e_t e) Attack (e_value e)) by (unfold trigger_on; destruct S as [S|[S|S]]; now rewrite S).
  rewrite E. set (e1 := with_tsv e (e_t e) Attack (e_value e)).
  assert (I1 : inv e1) by (apply inv_tsv; auto; [apply (i_t e I)|intros [?|?]; discriminate|apply (i_v e I)]).
  change (tick e1) with (next_attack e1). destruct (i_t e I) as [Ft Ht]. destruct (i_a e I) as [Fa Ha].
  assert (L : 1 <= val (fadd (e_t e) (e_attack e))).
  { pose proof big_ge. pose proof (bpow_gt_0 radix2 (-23)).
    destruct (add_within (e_t e) (e_attack e) 1 3 Ft Fa) as [[_ B] _]; [apply (repr_int 1); lia|apply (repr_int 3); lia|lra|lra|lra|lra]. }
  destruct (attack_tick e1 P I1) as (_ & _ & V & [(_ & Q)|(Q1 & Q2 & Q)]); rewrite Q; [auto|].
  change (e_t e1) with (e_t e) in *. change (e_attack e1) with (e_attack e) in *. lra.
Qed.
Print Assumptions C54_retrigger_jumps.
Example C54_jump_met : ex_stage (TriggerOn :: repeat Tick 32) = Ret Sustain /\
  obits (do e <- ex_after (TriggerOn :: repeat Tick 32) ; Ret (e_t e)) = Ret 1065353216%Z /\
  obits (do e <- ex_after (TriggerOn :: repeat Tick 32) ; Ret (let MO := id_math in let NP := default_policy in fst (tick (trigger_on e)))) = Ret 1065353216%Z.
Proof. vm_compute. auto. Qed.

(** Released after an attack or decay tick that returned v, the envelope never goes above v. *)
Theorem C54_release_from_level : forall (NP : NanPolicy) (MO : MathOps f32) (e : adsr),
  power_ok -> reachable e -> (e_state e = Attack \/ e_state e = Decay) ->
  let v := fst (tick e) in let e1 := snd (tick e) in
  e_state (trigger_off e1) = Release /\ 0 <= val (fst (tick (trigger_off e1))) <= val v.
Proof.
  intros NP MO e P R S v e1. pose proof (reachable_inv e P R) as I. destruct (tick_inv e P I) as [W I1]. fold v in W. fold e1 in I1.
  assert (V : e_value e1 = v /\ (e_state e1 = Attack \/ e_state e1 = Decay \/ e_state e1 = Sustain)).
  { unfold e1, v, tick. destruct S as [S|S]; rewrite S.
    - unfold next_attack. destruct (fge _ _); cbn; auto.
    - unfold next_decay. destruct (fle _ _); cbn; auto. }
  destruct V as [V S1].
  set (e2 := ADSR (e_attack e1) (e_decay e1) (e_sustain e1) (e_release e1) (e_slope e1) (of_int 0) Release (e_value e1) (e_value e1) (e_sr e1)).
  assert (E2 : trigger_off e1 = e2) by (unfold trigger_off; destruct S1 as [S1|[S1|S1]]; now rewrite S1).
  assert (I2 : inv e2) by (destruct I1; constructor; auto using zero_within2; intros; apply zero_lt1).
  rewrite E2. split; [reflexivity|]. change (tick e2) with (next_release e2). destruct W as [Fv Hv].
  destruct (release_tick e2 P I2) as (_ & _ & _ & _ & [(L & Q)|(L & _ & Q)]); [apply zero_lt1| |]; rewrite Q; cbn [fst].
  - destruct (of_int_exact 0 ltac:(lia)) as [_ ->]. lra.
  - change (e_release_val e2) with (e_value e1) in L |- *. rewrite V in *. pose proof (bpow_gt_0 radix2 (-23)). lra.
Qed.
Print Assumptions C54_release_from_level.

(** But a sustain level set during Sustain is heard at once and yet ignored by the release, which
    starts from the level of the time the decay ended: its outputs are those of the release without
    the change. *)
Theorem C54_stale_release_level_refuted : forall (NP : NanPolicy) (MO : MathOps f32) (e e1 : adsr) (s : f32) (n : nat),
  e_state e = Sustain -> set_sustain e s = Ret e1 ->
  fclamp s (of_int 0) (of_int 1) = Ret (fst (tick e1)) /\
  fst (tick (ticks n (trigger_off e1))) = fst (tick (ticks n (trigger_off e))).
Proof.
  intros NP MO e e1 s n S H. unfold set_sustain in H. destruct (fclamp s (of_int 0) (of_int 1)) as [s'| |]; try discriminate H.
  cbn [bind] in H. injection H as <-. unfold tick at 1. cbn [e_state]. rewrite S. cbn [fst e_sustain]. split; [reflexivity|].
  assert (G : forall k f f', (e_state f = Release \/ e_state f = Idle) -> e_state f = e_state f' -> e_t f = e_t f' -> e_release f = e_release f' ->
    e_slope f = e_slope f' -> e_release_val f = e_release_val f' -> fst (tick (ticks k f)) = fst (tick (ticks k f'))).
  { induction k as [|k IH]; intros [a d su r sl t st v rv sr] [a' d' su' r' sl' t' st' v' rv' sr'];
      cbn [e_state e_t e_release e_slope e_release_val]; intros H0 -> -> -> -> ->.
    - cbn [ticks]. unfold tick. cbn [e_state]. destruct H0 as [H0|H0]; rewrite H0; [|reflexivity].
      unfold next_release. cbn [e_t e_release e_slope e_release_val]. destruct (fle _ _); reflexivity.
    - cbn [ticks]. unfold tick at 2 4. cbn [e_state]. destruct H0 as [H0|H0]; rewrite H0.
      + unfold next_release. cbn [e_t e_release e_slope e_release_val]. destruct (fle _ _); cbn [snd]; apply IH; cbn; auto.
      + cbn [snd]. apply IH; cbn; auto. }
  unfold trigger_off. cbn [e_state]. rewrite S. apply G; cbn; auto.
Qed.
Print Assumptions C54_stale_release_level_refuted.
(** Sustain 1/2, then set to 0: the output is 0, and the release then starts near 1/2. *)
Example C54_stale_met : let MO := id_math in let NP := default_policy in
  obits (do e <- ex_after (TriggerOn :: repeat Tick 32 ++ [SetSustain (of_int 0)]) ; Ret (fst (tick e))) = Ret 0%Z /\
  obits (do e <- ex_after (TriggerOn :: repeat Tick 32 ++ [SetSustain (of_int 0); TriggerOff]) ; Ret (fst (tick e))) = Ret (to_bits (lit 15 (-5))).
Proof. vm_compute. auto. Qed.

(** ** Changing the sample rate *)

(** C55: a change of the sample rate has no effect on anything heard until a stage time is set
    again: every history of other calls gives the same outputs (or panics alike) with and without it. *)
Theorem C55_sample_rate_inert : forall (NP : NanPolicy) (MO : MathOps f32) (cs : list call) (e : adsr) (sr : f32) (o : list f32),
  forallb (fun c => negb (sets_time c)) cs = true ->
  ((exists e', run cs e = Ret (o, e')) <-> (exists e', run cs (set_sr e sr) = Ret (o, e'))).
Proof.
  intros NP MO cs.
  assert (G : forall e sr o e', forallb (fun c => negb (sets_time c)) cs = true -> run cs e = Ret (o, e') -> exists e'', run cs (set_sr e sr) = Ret (o, e'')).
  { induction cs as [|c cs IH]; intros e sr o e' F R; cbn [run forallb] in *.
    - injection R as <- <-. eauto.
    - apply andb_prop in F. destruct F as [F1 F2]. destruct (do_call c e) as [[o1 e1]| |] eqn:E; try discriminate R. cbn [bind fst snd] in R.
      destruct (run cs e1) as [[o2 e2]| |] eqn:E2; try discriminate R. cbn [bind fst snd] in R. injection R as <- <-.
      assert (K : exists sr', do_call c (set_sr e sr) = Ret (o1, set_sr e1 sr')).
      { destruct c as [| | | |v|v|v|v|v|v]; try discriminate F1; cbn [do_call] in *.
        - injection E as <- <-. exists sr. unfold tick. change (e_state (set_sr e sr)) with (e_state e). destruct (e_state e); try reflexivity;
            unfold next_attack, next_decay, next_release; cbn [set_sr e_t e_attack e_decay e_release e_slope e_sustain e_release_val];
            destruct (fle _ _) || destruct (fge _ _); reflexivity.
        - injection E as <- <-. exists sr. unfold trigger_on. change (e_state (set_sr e sr)) with (e_state e). destruct (e_state e); reflexivity.
        - injection E as <- <-. exists sr. unfold trigger_off. change (e_state (set_sr e sr)) with (e_state e). destruct (e_state e); reflexivity.
        - injection E as <- <-. exists sr. reflexivity.
        - unfold set_sustain in *. destruct (fclamp _ _ _); try discriminate E. cbn [bind] in *. injection E as <- <-. exists sr. reflexivity.
        - unfold set_slope in *. destruct (fclamp _ _ _); try discriminate E. cbn [bind] in *. injection E as <- <-. exists sr. reflexivity.
        - injection E as <- <-. exists v. reflexivity. }
      destruct K as [sr' K]. rewrite K. cbn [bind fst snd]. destruct (IH e1 sr' o2 e2 F2 E2) as [e'' R']. rewrite R'. cbn [bind fst snd]. eauto. }
  intros e sr o F. split; intros [e' R].
  - now apply (G e sr o e').
  - destruct (G (set_sr e sr) (e_sr e) o e' F R) as [e'' R']. exists e''. rewrite <- R'. f_equal. now destruct e.
Qed.
Print Assumptions C55_sample_rate_inert.
(** So a note set up at 1024 Hz keeps its 16 sample attack when the rate is doubled. *)
Example C55_met : ex_stage (SetSr (of_int 2048) :: TriggerOn :: repeat Tick 15) = Ret Attack /\
  ex_stage (SetSr (of_int 2048) :: TriggerOn :: repeat Tick 16) = Ret Decay.
Proof. vm_compute. auto. Qed.
