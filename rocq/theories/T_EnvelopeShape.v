(** * Theorems: envelope parameters and stage curves (C82-C83). *)

From Coq Require Import ZArith List Bool Reals Lia Lra.
From Flocq Require Import Core IEEE754.BinarySingleNaN IEEE754.Binary.
From Verif Require Import Base F32 F32Lemmas F32Exact F32Range F32Over Num P_Interp P_SineFloat P_Levels M_Envelope S_Envelope S_EnvelopeParams P_Envelope Examples T_Envelope.
Import ListNotations.
Local Open Scope R_scope.

(** ** Parameters *)

Section Params.
Context {NP : NanPolicy} {MO : MathOps f32}.

Lemma tick_params e : e_attack (snd (tick e)) = e_attack e /\ e_decay (snd (tick e)) = e_decay e /\ e_release (snd (tick e)) = e_release e /\
  e_sustain (snd (tick e)) = e_sustain e /\ e_slope (snd (tick e)) = e_slope e /\ e_sr (snd (tick e)) = e_sr e.
Proof.
  unfold tick, next_attack, next_decay, next_release.
  destruct (e_state e); try (repeat split; reflexivity); destruct (fle _ _) || destruct (fge _ _); repeat split; reflexivity.
Qed.

Definition eff (c : call) (e e' : adsr) : Prop :=
  (match attack_of c with Some v => set_time_parameter v (e_sr e) = Ret (e_attack e') | None => e_attack e' = e_attack e end) /\
  (match decay_of c with Some v => set_time_parameter v (e_sr e) = Ret (e_decay e') | None => e_decay e' = e_decay e end) /\
  (match release_of c with Some v => set_time_parameter v (e_sr e) = Ret (e_release e') | None => e_release e' = e_release e end) /\
  (match sustain_of c with Some v => fclamp v (of_int 0) (of_int 1) = Ret (e_sustain e') | None => e_sustain e' = e_sustain e end) /\
  (match slope_of c with Some v => fclamp v (fdiv (of_int 1) (of_int 20)) (of_int 20) = Ret (e_slope e') | None => e_slope e' = e_slope e end) /\
  e_sr e' = sr_after (e_sr e) c.

Lemma call_eff c e o e' : do_call c e = Ret (o, e') -> eff c e e'.
Proof.
  unfold eff. destruct c as [| | | |v|v|v|v|v|v]; cbn [do_call attack_of decay_of release_of sustain_of slope_of sr_after]; intros H.
  - injection H as <- <-. apply tick_params.
  - injection H as <- <-. unfold trigger_on. destruct (e_state e); cbn; tauto.
  - injection H as <- <-. unfold trigger_off. destruct (e_state e); cbn; tauto.
  - injection H as <- <-. cbn. tauto.
  - unfold set_attack in H. destruct (set_time_parameter _ _) eqn:E; cbn in H; try discriminate. injection H as <- <-. cbn. tauto.
  - unfold set_decay in H. destruct (set_time_parameter _ _) eqn:E; cbn in H; try discriminate. injection H as <- <-. cbn. tauto.
  - unfold set_release in H. destruct (set_time_parameter _ _) eqn:E; cbn in H; try discriminate. injection H as <- <-. cbn. tauto.
  - unfold set_sustain in H. destruct (fclamp _ _ _) eqn:E; cbn in H; try discriminate. injection H as <- <-. cbn. tauto.
  - unfold set_slope in H. destruct (fclamp _ _ _) eqn:E; cbn in H; try discriminate. injection H as <- <-. cbn. tauto.
  - injection H as <- <-. cbn. tauto.
Qed.

Lemma time_run (pick : call -> option f32) (get : adsr -> f32) :
  (forall c e o e', do_call c e = Ret (o, e') ->
     match pick c with Some v => set_time_parameter v (e_sr e) = Ret (get e') | None => get e' = get e end) ->
  forall cs e o e', run cs e = Ret (o, e') ->
     match last_time pick (e_sr e) cs with Some (v, sr) => set_time_parameter v sr = Ret (get e') | None => get e' = get e end.
Proof.
  intros H. induction cs as [|c cs IH]; intros e o e' R; cbn [run last_time] in *.
  - now injection R as <- <-.
  - destruct (do_call c e) as [[o1 e1]| |] eqn:C; try discriminate R. cbn [bind fst snd] in R.
    destruct (run cs e1) as [[o2 e2]| |] eqn:R2; try discriminate R. cbn [bind fst snd] in R. injection R as <- <-.
    specialize (IH _ _ _ R2). pose proof (call_eff _ _ _ _ C) as (_ & _ & _ & _ & _ & S). rewrite S in IH.
    destruct (last_time pick (sr_after (e_sr e) c) cs) as [[v sr]|]; [exact IH|]. specialize (H _ _ _ _ C).
    destruct (pick c); congruence.
Qed.
Lemma level_run (pick : call -> option f32) (get : adsr -> f32) (f : f32 -> outcome f32) :
  (forall c e o e', do_call c e = Ret (o, e') ->
     match pick c with Some v => f v = Ret (get e') | None => get e' = get e end) ->
  forall cs e o e', run cs e = Ret (o, e') ->
     match last_set pick cs with Some v => f v = Ret (get e') | None => get e' = get e end.
Proof.
  intros H. induction cs as [|c cs IH]; intros e o e' R; cbn [run last_set] in *.
  - now injection R as <- <-.
  - destruct (do_call c e) as [[o1 e1]| |] eqn:C; try discriminate R. cbn [bind fst snd] in R.
    destruct (run cs e1) as [[o2 e2]| |] eqn:R2; try discriminate R. cbn [bind fst snd] in R. injection R as <- <-.
    specialize (IH _ _ _ R2). destruct (last_set pick cs); [exact IH|]. specialize (H _ _ _ _ C).
    destruct (pick c); congruence.
Qed.
End Params.

(** C82: after every history of calls that returns, each stage's rate is the one computed from the
    time last set for that stage, at the sample rate that was in force when it was set (the
    constructor's time and rate if that stage was never set); the sustain level is the last one set,
    clamped to [0, 1]; the slope is the last one set, clamped to [1/20, 20], or the constructor's
    slope exactly as given if none was set; the sample rate is the last one set. No other call
    changes any of them. *)
Theorem C82_parameters_in_force : forall (NP : NanPolicy) (MO : MathOps f32) (a d s r slope sr : f32) (cs : list call) (e0 e : adsr) (outs : list f32),
  adsr_new a d s r slope sr = Ret e0 -> run cs e0 = Ret (outs, e) ->
  let rate t := set_time_parameter (fst t) (snd t) in
  rate (or_else (last_time attack_of sr cs) (a, sr)) = Ret (e_attack e) /\
  rate (or_else (last_time decay_of sr cs) (d, sr)) = Ret (e_decay e) /\
  rate (or_else (last_time release_of sr cs) (r, sr)) = Ret (e_release e) /\
  fclamp (or_else (last_set sustain_of cs) s) (of_int 0) (of_int 1) = Ret (e_sustain e) /\
  match last_set slope_of cs with
  | Some v => fclamp v (fdiv (of_int 1) (of_int 20)) (of_int 20) = Ret (e_slope e)
  | None => e_slope e = slope
  end /\
  e_sr e = or_else (last_set sr_of cs) sr.
Proof.
  intros NP MO a d s r slope sr cs e0 e outs N R rate. unfold adsr_new in N.
  destruct (fclamp s (of_int 0) (of_int 1)) as [s'| |] eqn:Es; try discriminate N. cbn [bind] in N.
  destruct (set_time_parameter d sr) as [d'| |] eqn:Ed; try discriminate N. cbn [bind] in N.
  destruct (set_time_parameter a sr) as [a'| |] eqn:Ea; try discriminate N. cbn [bind] in N.
  destruct (set_time_parameter r sr) as [r'| |] eqn:Er; try discriminate N. cbn [bind] in N. injection N as <-.
  set (e0 := ADSR _ _ _ _ _ _ _ _ _ _) in *.
  assert (TA := time_run attack_of e_attack (fun c e o e' H => proj1 (call_eff c e o e' H)) _ _ _ _ R).
  assert (TD := time_run decay_of e_decay (fun c e o e' H => proj1 (proj2 (call_eff c e o e' H))) _ _ _ _ R).
  assert (TR := time_run release_of e_release (fun c e o e' H => proj1 (proj2 (proj2 (call_eff c e o e' H)))) _ _ _ _ R).
  assert (TS := level_run sustain_of e_sustain _ (fun c e o e' H => proj1 (proj2 (proj2 (proj2 (call_eff c e o e' H))))) _ _ _ _ R).
  assert (TL := level_run slope_of e_slope _ (fun c e o e' H => proj1 (proj2 (proj2 (proj2 (proj2 (call_eff c e o e' H)))))) _ _ _ _ R).
  assert (TQ := level_run sr_of e_sr (fun v => Ret v)).
  assert (HQ : forall c e o e', do_call c e = Ret (o, e') -> match sr_of c with Some v => Ret v = Ret (e_sr e') | None => e_sr e' = e_sr e end).
  { intros c f o f' H. pose proof (call_eff c f o f' H) as (_ & _ & _ & _ & _ & Q). clear - Q. destruct c; cbn [sr_of sr_after] in *; congruence. }
  specialize (TQ HQ _ _ _ _ R). change (e_sr e0) with sr in *.
  split; [destruct (last_time attack_of sr cs) as [[v q]|]; cbn; [exact TA|rewrite TA; exact Ea]|].
  split; [destruct (last_time decay_of sr cs) as [[v q]|]; cbn; [exact TD|rewrite TD; exact Ed]|].
  split; [destruct (last_time release_of sr cs) as [[v q]|]; cbn; [exact TR|rewrite TR; exact Er]|].
  split; [destruct (last_set sustain_of cs); cbn; [exact TS|rewrite TS; exact Es]|].
  split; [exact TL|]. destruct (last_set sr_of cs); cbn; [now injection TQ|exact TQ].
Qed.
Print Assumptions C82_parameters_in_force.

(** A history that sets everything, some of it twice and across a change of sample rate. *)
Definition ex_sets : list call := [SetAttack (of_int 1); TriggerOn; Tick; SetSr (of_int 44100); SetDecay (lit 1 (-2));
  SetAttack (lit 1 (-3)); SetSustain (of_int 3); Tick; SetSlope (of_int 2); TriggerOff; SetRelease (lit 1 (-1)); SetSr (of_int 96000); Tick].
Example C82_met : let NP := default_policy in let MO := id_math in
  obits_run (do e <- ex_new ; run ex_sets e) = Ret [981467136; 983025401; 983024950]%Z /\
  last_time attack_of (of_int 1024) ex_sets = Some (lit 1 (-3), of_int 44100) /\
  last_time decay_of (of_int 1024) ex_sets = Some (lit 1 (-2), of_int 44100) /\
  last_set sr_of ex_sets = Some (of_int 96000).
Proof. split; [vm_compute; reflexivity|]. repeat split. Qed.

(** ** Stage curves *)

Section Shape.
Context {NP : NanPolicy} {MO : MathOps f32}.

Lemma clock_step t r : fin t = true -> 0 <= val t <= 1 -> rate_ok r ->
  Rabs (val (fadd t r) - (val t + val r)) <= pow2 (-24) /\
  (val (fadd t r) < 1 -> Rabs (val (fadd t r) - (val t + val r)) <= pow2 (-25)).
Proof.
  intros Ft Ht [Fr Hr]. pose proof big_ge. pose proof (bpow_gt_0 radix2 (-23)).
  destruct (add_within t r 0 2 Ft Fr) as [[F B] V]; [apply repr_0|apply (repr_int 2); lia|lra|lra|lra|].
  rewrite V. split.
  - apply (rnd_err_bpow (val t + val r) 1); [lia|]. apply Rabs_le. cbn. lra.
  - intros L. destruct (Rle_lt_dec 1 (val t + val r)) as [C|C].
    + assert (1 <= rnd (val t + val r)) by (apply rnd_ge_repr; [apply (repr_int 1); lia|exact C]). lra.
    + apply (rnd_err_bpow (val t + val r) 0); [lia|]. apply Rabs_le. cbn. lra.
Qed.

Lemma ticks_params n : forall e, e_attack (ticks n e) = e_attack e /\ e_decay (ticks n e) = e_decay e /\ e_release (ticks n e) = e_release e /\
  e_sustain (ticks n e) = e_sustain e /\ e_slope (ticks n e) = e_slope e.
Proof.
  induction n as [|n IH]; intros e; [cbn; tauto|]. cbn [ticks]. destruct (IH (snd (tick e))) as (-> & -> & -> & -> & ->).
  destruct (tick_params e) as (A & D & R & U & L & _). auto.
Qed.
Lemma ticks_rv n : forall e, e_release_val (ticks n e) = e_release_val e.
Proof.
  induction n as [|n IH]; intros e; [reflexivity|]. cbn [ticks]. rewrite IH. unfold tick, next_attack, next_decay, next_release.
  destruct (e_state e); try reflexivity; destruct (fle _ _) || destruct (fge _ _); reflexivity.
Qed.
Lemma after_decay n : forall e, e_state e = Decay \/ e_state e = Sustain -> e_state (ticks n e) = Decay \/ e_state (ticks n e) = Sustain.
Proof.
  induction n as [|n IH]; intros e S; [exact S|]. cbn [ticks]. apply IH. unfold tick. destruct S as [S|S]; rewrite S; [|right; exact S].
  unfold next_decay. destruct (fle _ _); cbn; auto.
Qed.

(** The stage clock after k ticks that stayed in the stage. *)
Lemma attack_clock k : forall e, power_ok -> inv e -> e_state e = Attack -> val (e_t e) < 1 -> e_state (ticks k e) = Attack ->
  val (e_t (ticks k e)) < 1 /\ Rabs (val (e_t (ticks k e)) - (val (e_t e) + INR k * val (e_attack e))) <= INR k * pow2 (-25).
Proof.
  induction k as [|k IH]; intros e P I S T0 SK.
  - cbn [ticks INR]. split; [exact T0|]. rewrite Rmult_0_l, Rplus_0_r, Rminus_diag_eq, Rabs_R0 by reflexivity. lra.
  - assert (T : tick e = next_attack e) by (unfold tick; now rewrite S).
    destruct (tick_inv e P I) as [_ I']. cbn [ticks] in *. rewrite T in *. destruct (i_t e I) as [Ft Ht].
    destruct (attack_tick e P I) as (_ & _ & _ & [(L & E)|(L & T1 & E)]); rewrite E in *; cbn [snd] in *.
    + destruct (after_decay k (with_tsv e (of_int 0) Decay (of_int 1)) ltac:(left; reflexivity)) as [Q|Q]; rewrite Q in SK; discriminate SK.
    + destruct (IH _ P I' eq_refl T1 SK) as [A B]. split; [exact A|]. cbn [e_t with_tsv e_attack] in B.
      destruct (clock_step (e_t e) (e_attack e) Ft ltac:(lra) (i_a e I)) as [_ C]. specialize (C T1).
      rewrite S_INR. apply Rabs_le_inv in B. apply Rabs_le_inv in C. apply Rabs_le. lra.
Qed.
Lemma decay_clock k : forall e, power_ok -> inv e -> e_state e = Decay -> e_state (ticks k e) = Decay ->
  Rabs (val (e_t (ticks k e)) - (val (e_t e) + INR k * val (e_decay e))) <= INR k * pow2 (-25).
Proof.
  induction k as [|k IH]; intros e P I S SK.
  - cbn [ticks INR]. rewrite Rmult_0_l, Rplus_0_r, Rminus_diag_eq, Rabs_R0 by reflexivity. lra.
  - assert (T : tick e = next_decay e) by (unfold tick; now rewrite S). pose proof (i_t1 e I (or_introl S)) as T0.
    destruct (tick_inv e P I) as [_ I']. cbn [ticks] in *. rewrite T in *. destruct (i_t e I) as [Ft Ht].
    destruct (decay_tick e P I T0) as (_ & _ & _ & _ & [(L & E)|(L & T1 & E)]); rewrite E in *; cbn [snd] in *.
    + rewrite sustain_stays in SK by reflexivity. discriminate SK.
    + specialize (IH _ P I' eq_refl SK). cbn [e_t with_tsv e_decay] in IH.
      destruct (clock_step (e_t e) (e_decay e) Ft ltac:(lra) (i_d e I)) as [_ C]. specialize (C T1).
      rewrite S_INR. apply Rabs_le_inv in IH. apply Rabs_le_inv in C. apply Rabs_le. lra.
Qed.
Lemma release_clock k : forall e, power_ok -> inv e -> e_state e = Release -> e_state (ticks k e) = Release ->
  Rabs (val (e_t (ticks k e)) - (val (e_t e) + INR k * val (e_release e))) <= INR k * pow2 (-25).
Proof.
  induction k as [|k IH]; intros e P I S SK.
  - cbn [ticks INR]. rewrite Rmult_0_l, Rplus_0_r, Rminus_diag_eq, Rabs_R0 by reflexivity. lra.
  - assert (T : tick e = next_release e) by (unfold tick; now rewrite S). pose proof (i_t1 e I (or_intror S)) as T0.
    destruct (tick_inv e P I) as [_ I']. cbn [ticks] in *. rewrite T in *. destruct (i_t e I) as [Ft Ht].
    destruct (release_tick e P I T0) as (_ & _ & _ & _ & [(L & E)|(L & T1 & E)]); rewrite E in *; cbn [snd] in *.
    + rewrite idle_stays in SK by reflexivity. discriminate SK.
    + specialize (IH _ P I' eq_refl SK). cbn [e_t with_tsv e_release] in IH.
      destruct (clock_step (e_t e) (e_release e) Ft ltac:(lra) (i_r e I)) as [_ C]. specialize (C T1).
      rewrite S_INR. apply Rabs_le_inv in IH. apply Rabs_le_inv in C. apply Rabs_le. lra.
Qed.

Lemma step_total t r x k : fin t = true -> 0 <= val t < 1 -> rate_ok r -> Rabs (val t - (x + INR k * val r)) <= INR k * pow2 (-25) ->
  Rabs (val (fadd t r) - (x + INR (S k) * val r)) <= INR (k + 2) * pow2 (-25).
Proof.
  intros F H R B. destruct (clock_step t r F ltac:(lra) R) as [C _]. rewrite S_INR, plus_INR. cbn [INR].
  assert (E : pow2 (-24) = 2 * pow2 (-25)) by (cbn; lra). rewrite E in C.
  apply Rabs_le_inv in B. apply Rabs_le_inv in C. apply Rabs_le. lra.
Qed.

Lemma rnd_near1 x : Rabs x <= 1 -> Rabs (rnd x - x) <= pow2 (-25).
Proof. intros H. apply (rnd_err_bpow x 0); [lia|]. exact H. Qed.
Lemma rnd01 x : 0 <= x <= 1 -> 0 <= rnd x <= 1.
Proof. intros H. split; [apply rnd_pos; lra|]. apply rnd_le_repr; [apply (repr_int 1); lia|lra]. Qed.

Lemma decay_near s p : within s 0 1 -> fin p = true -> 0 <= val p <= 1 ->
  Rabs (val (decay_value s p) - (val s + (1 - val s) * (1 - val p))) <= pow2 (-22).
Proof.
  intros [Fs Hs] Fp Hp. destruct (decay_spec s p (conj Fs Hs) Fp (proj1 Hp)) as (_ & U & V & _ & L). specialize (L (proj2 Hp)).
  rewrite V in *. set (q := 1 - val p) in *. set (u := 1 - val s) in *.
  assert (Hq : 0 <= q <= 1) by (unfold q; lra). assert (Hu : 0 <= u <= 1) by (unfold u; lra).
  pose proof (rnd_near1 q ltac:(apply Rabs_le; lra)) as Q. pose proof (rnd_near1 u ltac:(apply Rabs_le; lra)) as W.
  pose proof (rnd01 q Hq) as Q1. pose proof (rnd01 u Hu) as W1.
  assert (M1 : 0 <= rnd q * rnd u <= 1) by nra.
  pose proof (rnd_near1 (rnd q * rnd u) ltac:(apply Rabs_le; lra)) as M. pose proof (rnd01 _ M1) as M2.
  assert (A : Rabs (rnd (rnd (rnd q * rnd u) + val s) - (rnd (rnd q * rnd u) + val s)) <= pow2 (-24)).
  { apply (rnd_err_bpow _ 1); [lia|]. apply Rabs_le. cbn. lra. }
  assert (E22 : pow2 (-22) = 8 * pow2 (-25)) by (cbn; lra). assert (E24 : pow2 (-24) = 2 * pow2 (-25)) by (cbn; lra).
  rewrite E22. rewrite E24 in A. set (ep := pow2 (-25)) in *. assert (0 <= ep) by (apply bpow_ge_0).
  assert (X : Rabs (rnd q * rnd u - q * u) <= 2 * ep).
  { replace (rnd q * rnd u - q * u) with ((rnd q - q) * rnd u + q * (rnd u - u)) by ring.
    apply Rle_trans with (1 := Rabs_triang _ _). rewrite !Rabs_mult. rewrite (Rabs_pos_eq (rnd u)), (Rabs_pos_eq q) by lra.
    pose proof (Rabs_pos (rnd q - q)). pose proof (Rabs_pos (rnd u - u)). nra. }
  replace (val s + u * q) with (q * u + val s) by ring.
  apply Rabs_le_inv in A. apply Rabs_le_inv in M. apply Rabs_le_inv in X. apply Rabs_le. lra.
Qed.
Lemma release_near r p : within r 0 1 -> fin p = true -> 0 <= val p <= 1 ->
  Rabs (val (release_value r p) - val r * (1 - val p)) <= pow2 (-24) /\ 0 <= val (release_value r p).
Proof.
  intros [Fr Hr] Fp Hp. destruct (release_spec r p (conj Fr Hr) Fp (proj1 Hp)) as (_ & U & V & _).
  rewrite V in *. set (q := 1 - val p) in *. assert (Hq : 0 <= q <= 1) by (unfold q; lra).
  pose proof (rnd_near1 q ltac:(apply Rabs_le; lra)) as Q. pose proof (rnd01 q Hq) as Q1.
  assert (M1 : 0 <= rnd q * val r <= 1) by nra.
  pose proof (rnd_near1 (rnd q * val r) ltac:(apply Rabs_le; lra)) as M. pose proof (rnd01 _ M1) as M2. split; [|apply M2].
  assert (E24 : pow2 (-24) = 2 * pow2 (-25)) by (cbn; lra). rewrite E24. set (ep := pow2 (-25)) in *. assert (0 <= ep) by (apply bpow_ge_0).
  assert (X : Rabs (rnd q * val r - val r * q) <= ep).
  { replace (rnd q * val r - val r * q) with ((rnd q - q) * val r) by ring. rewrite Rabs_mult, (Rabs_pos_eq (val r)) by lra.
    pose proof (Rabs_pos (rnd q - q)). nra. }
  apply Rabs_le_inv in M. apply Rabs_le_inv in X. apply Rabs_le. lra.
Qed.
End Shape.

(** C83, attack: triggered from Idle or during an attack, the (k+1)-th tick of the attack evaluates
    the power curve at a clock value c within (k+2) * 2^-25 of (k+1) * rate: it returns
    c^(1/slope) and stays in the attack as long as that is below 1, and otherwise returns exactly 1
    and enters the decay. *)
Theorem C83_attack_curve : forall (NP : NanPolicy) (MO : MathOps f32) (e : adsr) (k : nat),
  power_ok -> reachable e -> e_state e = Idle \/ e_state e = Attack ->
  e_state (ticks k (trigger_on e)) = Attack ->
  exists c : f32, fin c = true /\ Rabs (val c - INR (S k) * val (e_attack e)) <= INR (k + 2) * pow2 (-25) /\
    let p := m_powf c (fdiv (of_int 1) (e_slope e)) in
    let y := fst (tick (ticks k (trigger_on e))) in let e' := snd (tick (ticks k (trigger_on e))) in
    (val p < 1 -> y = p /\ e_state e' = Attack) /\ (1 <= val p -> y = of_int 1 /\ e_state e' = Decay).
Proof.
  intros NP MO e k P R S SK. pose proof (reachable_inv e P R) as I.
  set (e1 := trigger_on e) in *. assert (E1 : e1 = with_tsv e (of_int 0) Attack (e_value e)) by (unfold e1, trigger_on; destruct S as [S|S]; now rewrite S).
  assert (I1 : inv e1) by (rewrite E1; apply inv_tsv; auto using zero_within2; [intros [?|?]; discriminate|apply (i_v e I)]).
  destruct (of_int_exact 0 ltac:(lia)) as [F0 V0].
  assert (T0 : val (e_t e1) = 0) by (rewrite E1; exact V0).
  destruct (attack_clock k e1 P I1 ltac:(rewrite E1; reflexivity) ltac:(lra) SK) as [L B].
  pose proof (ticks_inv k e1 P I1) as IK. destruct (ticks_params k e1) as (A & _ & _ & _ & Sl).
  assert (A1 : e_attack (ticks k e1) = e_attack e) by (rewrite A, E1; reflexivity).
  assert (S1 : e_slope (ticks k e1) = e_slope e) by (rewrite Sl, E1; reflexivity).
  set (ek := ticks k e1) in *. destruct (i_t ek IK) as [Ft Ht]. rewrite <- A, A1, T0 in B.
  exists (fadd (e_t ek) (e_attack e)). pose proof (i_a ek IK) as Ra. rewrite A1 in Ra.
  split; [apply (clock (e_t ek) (e_attack e) Ft Ht Ra)|]. split.
  { pose proof (step_total (e_t ek) (e_attack e) 0 k Ft ltac:(lra) Ra B) as Q. rewrite Rplus_0_l in Q. exact Q. }
  cbv zeta. assert (T : tick ek = next_attack ek) by (unfold tick; now rewrite SK). rewrite T.
  destruct (attack_tick ek P IK) as (_ & _ & _ & D). rewrite A1, S1 in D.
  destruct D as [(L1 & E)|(L1 & T1 & E)]; rewrite E; cbn [fst snd]; split; intros; try lra; split; reflexivity.
Qed.
Print Assumptions C83_attack_curve.

(** C83, decay: from the tick that ends the attack on, the (k+1)-th tick of the decay evaluates the
    power curve at a clock value c within (k+2) * 2^-25 of (k+1) * rate: with p = c^slope below 1 it
    returns s + (1-s)(1-p) to within 2^-22, and stays in the decay exactly as long as that is above s, and with p at least 1 it returns the sustain level s and
    enters Sustain. *)
Theorem C83_decay_curve : forall (NP : NanPolicy) (MO : MathOps f32) (e : adsr) (k : nat),
  power_ok -> reachable e -> e_state e = Attack ->
  let e1 := snd (tick e) in e_state e1 = Decay -> e_state (ticks k e1) = Decay ->
  exists c : f32, fin c = true /\ Rabs (val c - INR (S k) * val (e_decay e)) <= INR (k + 2) * pow2 (-25) /\
    let p := val (m_powf c (e_slope e)) in let s := e_sustain e in
    let y := fst (tick (ticks k e1)) in let e' := snd (tick (ticks k e1)) in
    (p < 1 -> Rabs (val y - (val s + (1 - val s) * (1 - p))) <= pow2 (-22) /\
      ((e_state e' = Decay /\ val s < val y) \/ (e_state e' = Sustain /\ y = s))) /\
    (1 <= p -> y = s /\ e_state e' = Sustain).
Proof.
  intros NP MO e k P R S e1 S1 SK. pose proof (reachable_inv e P R) as I. destruct (tick_inv e P I) as [_ I1]. fold e1 in I1.
  assert (T1 : tick e = next_attack e) by (unfold tick; now rewrite S).
  destruct (of_int_exact 0 ltac:(lia)) as [F0 V0].
  assert (T0 : val (e_t e1) = 0).
  { unfold e1 in *. rewrite T1 in *. unfold next_attack in *. destruct (fge _ _); [exact V0|discriminate S1]. }
  pose proof (decay_clock k e1 P I1 S1 SK) as B. pose proof (ticks_inv k e1 P I1) as IK.
  destruct (ticks_params k e1) as (_ & D & _ & U & Sl). destruct (tick_params e) as (_ & D' & _ & U' & Sl' & _). fold e1 in D', U', Sl'.
  rewrite D' in *. rewrite U' in U. rewrite Sl' in Sl. rewrite T0 in B.
  set (ek := ticks k e1) in *. destruct (i_t ek IK) as [Ft Ht]. pose proof (i_t1 ek IK (or_introl SK)) as LT.
  pose proof (i_d ek IK) as Rd. rewrite D in Rd.
  exists (fadd (e_t ek) (e_decay e)). split; [apply (clock (e_t ek) (e_decay e) Ft Ht Rd)|]. split.
  { pose proof (step_total (e_t ek) (e_decay e) 0 k Ft ltac:(lra) Rd B) as Q. rewrite Rplus_0_l in Q. exact Q. }
  cbv zeta. assert (T : tick ek = next_decay ek) by (unfold tick; now rewrite SK). rewrite T.
  destruct (decay_tick ek P IK LT) as (_ & Fp & P0 & _ & X). rewrite D, Sl, U in *.
  set (p := m_powf (fadd (e_t ek) (e_decay e)) (e_slope e)) in *.
  pose proof (i_s ek IK) as Ws. rewrite U in Ws. destruct (decay_spec (e_sustain e) p Ws Fp P0) as (_ & _ & _ & Hi & Lo). split.
  - intros H. pose proof (decay_near (e_sustain e) p Ws Fp ltac:(lra)) as N. specialize (Lo ltac:(lra)).
    destruct X as [(L & E)|(L & _ & E)]; rewrite E; cbn [fst snd]; [split; [|right; split; reflexivity]|split; [exact N|left; split; [reflexivity|lra]]].
    assert (Q : val (decay_value (e_sustain e) p) = val (e_sustain e)) by lra. rewrite Q in N. exact N.
  - intros H. specialize (Hi H). destruct X as [(L & E)|(L & _ & E)]; rewrite E; cbn [fst snd]; [split; reflexivity|lra].
Qed.
Print Assumptions C83_decay_curve.

(** C83, release: released right after a tick of the attack or of the decay that returned v, the
    (k+1)-th tick of the release evaluates the power curve at a clock value c within (k+2) * 2^-25
    of (k+1) * rate: with p = c^slope below 1 it returns v (1-p) to within 2^-22, and with p at
    least 1 it returns 0 and the envelope is idle.  The release is cut off at 2^-23: some w within
    2^-24 of v (1-p) is returned if it is above 2^-23, and otherwise 0 is returned and the envelope
    is idle. *)
Theorem C83_release_curve : forall (NP : NanPolicy) (MO : MathOps f32) (e : adsr) (k : nat),
  power_ok -> reachable e -> e_state e = Attack \/ e_state e = Decay ->
  let v := fst (tick e) in let e1 := trigger_off (snd (tick e)) in e_state (ticks k e1) = Release ->
  exists c : f32, fin c = true /\ Rabs (val c - INR (S k) * val (e_release e)) <= INR (k + 2) * pow2 (-25) /\
    let p := val (m_powf c (e_slope e)) in
    let y := fst (tick (ticks k e1)) in let e' := snd (tick (ticks k e1)) in
    (p < 1 -> Rabs (val y - val v * (1 - p)) <= pow2 (-22) /\
      exists w, Rabs (w - val v * (1 - p)) <= pow2 (-24) /\
        ((pow2 (-23) < w /\ val y = w /\ e_state e' = Release) \/ (w <= pow2 (-23) /\ y = of_int 0 /\ e_state e' = Idle))) /\
    (1 <= p -> y = of_int 0 /\ e_state e' = Idle).
Proof.
  intros NP MO e k P R S v e1 SK. pose proof (reachable_inv e P R) as I. destruct (tick_inv e P I) as [W I0].
  destruct (of_int_exact 0 ltac:(lia)) as [F0 V0].
  assert (V : e_value (snd (tick e)) = v /\ (e_state (snd (tick e)) = Attack \/ e_state (snd (tick e)) = Decay \/ e_state (snd (tick e)) = Sustain)).
  { unfold v, tick. destruct S as [S|S]; rewrite S.
    - unfold next_attack. destruct (fge _ _); cbn; auto.
    - unfold next_decay. destruct (fle _ _); cbn; auto. }
  destruct V as [V S0].
  assert (E1 : e_state e1 = Release /\ val (e_t e1) = 0 /\ e_release e1 = e_release e /\ e_slope e1 = e_slope e /\ e_release_val e1 = v /\ inv e1).
  { destruct (tick_params e) as (_ & _ & Rr & _ & Sl & _). unfold e1, trigger_off.
    assert (IX : inv (ADSR (e_attack (snd (tick e))) (e_decay (snd (tick e))) (e_sustain (snd (tick e))) (e_release (snd (tick e))) (e_slope (snd (tick e)))
      (of_int 0) Release (e_value (snd (tick e))) (e_value (snd (tick e))) (e_sr (snd (tick e))))).
    { destruct I0; constructor; auto using zero_within2. intros; apply zero_lt1. }
    destruct S0 as [S0|[S0|S0]]; rewrite S0; cbn [e_state e_t e_release e_slope e_release_val]; auto 10. }
  destruct E1 as (S1 & T0 & Rr & Sl & Rv & I1).
  pose proof (release_clock k e1 P I1 S1 SK) as B. pose proof (ticks_inv k e1 P I1) as IK.
  destruct (ticks_params k e1) as (_ & _ & Rk & _ & Lk). pose proof (ticks_rv k e1) as Vk. rewrite Rr in *. rewrite Sl in Lk. rewrite Rv in Vk. rewrite T0 in B.
  set (ek := ticks k e1) in *. destruct (i_t ek IK) as [Ft Ht]. pose proof (i_t1 ek IK (or_intror SK)) as LT.
  pose proof (i_r ek IK) as Ra. rewrite Rk in Ra.
  exists (fadd (e_t ek) (e_release e)). split; [apply (clock (e_t ek) (e_release e) Ft Ht Ra)|]. split.
  { pose proof (step_total (e_t ek) (e_release e) 0 k Ft ltac:(lra) Ra B) as Q. rewrite Rplus_0_l in Q. exact Q. }
  cbv zeta. assert (T : tick ek = next_release ek) by (unfold tick; now rewrite SK). rewrite T.
  destruct (release_tick ek P IK LT) as (_ & Fp & P0 & _ & X). rewrite Rk, Lk, Vk in *.
  set (p := m_powf (fadd (e_t ek) (e_release e)) (e_slope e)) in *.
  pose proof (i_rv ek IK) as Ws. rewrite Vk in Ws. destruct (release_spec v p Ws Fp P0) as (_ & _ & _ & Hi). 
  assert (E22 : pow2 (-22) = 2 * pow2 (-23)) by (cbn; lra). assert (E24 : pow2 (-24) = pow2 (-23) / 2) by (cbn; lra). pose proof (bpow_gt_0 radix2 (-23)). split.
  - intros Hp1. destruct (release_near v p Ws Fp ltac:(lra)) as [N0 N1]. pose proof N0 as N. rewrite E24 in N0. rewrite E22. apply Rabs_le_inv in N0.
    destruct X as [(L & E)|(L & _ & E)]; rewrite E; cbn [fst snd]; (split; [apply Rabs_le; [rewrite ?V0]; lra|exists (val (release_value v p)); split; [exact N|]]); [right|left]; (split; [lra|split; reflexivity]).
  - intros H1. specialize (Hi H1). destruct X as [(L & E)|(L & _ & E)]; rewrite E; cbn [fst snd]; [split; reflexivity|lra].
Qed.
Print Assumptions C83_release_curve.

(** C83 in seconds: a fresh envelope with an attack time of [a] seconds (at least one sample, at
    most two seconds), triggered, evaluates its attack curve at (k+1) / (a * sr). *)
Theorem C83_attack_in_seconds : forall (NP : NanPolicy) (MO : MathOps f32) (a d s r slope sr : f32) (e0 : adsr) (k : nat),
  power_ok -> good_new a d s r slope sr -> fin a = true -> 1 <= val a * val sr -> val a <= 2 ->
  adsr_new a d s r slope sr = Ret e0 -> e_state (ticks k (trigger_on e0)) = Attack ->
  exists c : f32, fin c = true /\
    Rabs (val c - INR (S k) / (val a * val sr)) <= INR (k + 2) * (pow2 (-25) + pow2 (-22) / (val a * val sr)) /\
    let p := m_powf c (fdiv (of_int 1) slope) in
    let y := fst (tick (ticks k (trigger_on e0))) in let e' := snd (tick (ticks k (trigger_on e0))) in
    (val p < 1 -> y = p /\ e_state e' = Attack) /\ (1 <= val p -> y = of_int 1 /\ e_state e' = Decay).
Proof.
  intros NP MO a d s r slope sr e0 k P G Fa La Ha E SK.
  assert (R : reachable e0) by (exists a, d, s, r, slope, sr, e0, [], []; cbn; auto).
  destruct (new_inv a d s r slope sr G) as (e1 & E1 & _ & _ & St & _). rewrite E in E1. injection E1 as <-.
  destruct (C83_attack_curve NP MO e0 k P R (or_introl St) SK) as (c & Fc & Bc & H).
  destruct (C82_parameters_in_force NP MO a d s r slope sr [] e0 e0 [] E eq_refl) as (A & _ & _ & _ & Sl & _). cbn in A, Sl.
  rewrite Sl in H. exists c. split; [exact Fc|]. split; [|exact H].
  destruct (C53_rate_accuracy NP a sr (proj1 G) (fin_notnan a Fa)) as [Q _].
  assert (pow2 (-100) <= 1) by (change 1 with (pow2 0); apply bpow_le; lia).
  destruct (Q Fa ltac:(lra) Ha) as (r' & E' & B). rewrite E' in A. injection A as A. rewrite A in B.
  set (y := val a * val sr) in *. assert (Y : 0 < / y) by (apply Rinv_0_lt_compat; lra).
  unfold Rdiv in *. rewrite Rmult_1_l in B. rewrite plus_INR in *. rewrite S_INR in *. cbn [INR] in *.
  pose proof (pos_INR k). pose proof (bpow_ge_0 radix2 (-22)). pose proof (bpow_ge_0 radix2 (-25)).
  apply Rabs_le_inv in Bc. apply Rabs_le_inv in B. apply Rabs_le.
  set (q := pow2 (-22) * / y) in *. assert (0 <= q) by (unfold q; nra). nra.
Qed.
Print Assumptions C83_attack_in_seconds.

(** The hypotheses are met by the 1024 Hz envelope of C52: triggered; 17 ticks after; released there. *)
Example C83_met : @power_ok default_policy id_math /\
  ex_stage [] = Ret Idle /\ ex_stage (TriggerOn :: repeat Tick 5) = Ret Attack /\
  ex_stage (TriggerOn :: repeat Tick 15) = Ret Attack /\ ex_stage (TriggerOn :: repeat Tick 16) = Ret Decay /\
  ex_stage (TriggerOn :: repeat Tick 20) = Ret Decay /\
  ex_stage (TriggerOn :: repeat Tick 20 ++ TriggerOff :: repeat Tick 3) = Ret Release.
Proof. split; [apply id_power|]. vm_compute. auto 10. Qed.
