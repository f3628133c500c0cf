(** * C114: a network dies away with its input. *)

From Coq Require Import ZArith List Bool Reals Lia Lra.
From Flocq Require Import Core.
From Verif Require Import Base F32 F32Lemmas F32Exact F32Ints F32Range F32Over Num M_Memory M_Delay M_Biquad M_Oscillator M_Envelope
  S_Memory S_Delay S_Biquad S_BiquadF32 S_Comb S_Rack S_Oscillator S_Envelope S_Network S_NetworkF32 S_Voice S_Tail S_NetworkTail
  P_Interp P_Levels P_Oscillator T_Oscillator P_Envelope P_Network P_Tail P_TailComb P_NetworkTail T_BiquadF32 T_Envelope T_Network T_Voice T_Tail T_TailComb Examples.
Import ListNotations.
Local Open Scope R_scope.

(** Once the input of a network stays within D, its output in the end stays within a * D + b * 2^-149, for the a and b of its wiring. *)
Theorem C114_network_fades : forall (NP : NanPolicy) (B : Build) (h : heap f32) n p ss (x : nat -> f32) e e' a b D,
  fresh h n p ss -> apart ss -> level p e e' -> fades p e a b -> (forall k, bounded (pow2 e) (x k)) -> settles_within D x ->
  exists N, forall k, (N <= k)%nat ->
    exists h' n' ys, net_run h n (map x (seq 0 (S k))) = Ret (h', n', ys) /\ length ys = S k /\
      fin (last ys (of_int 0)) = true /\ Rabs (val (last ys (of_int 0))) <= a * D + b * tiny.
Proof.
  intros NP B h n p ss x e e' a b D FR AP LV FD Hx [N0 H0].
  assert (HD : 0 <= D) by (destruct (H0 N0 (le_n _)) as [_ Q]; eapply Rle_trans; [apply Rabs_pos|exact Q]).
  destruct (fades_sound p e a b FD x D Hx HD) as [N HN]; [exists N0; intros k Hk; now apply H0|].
  exists N. intros k Hk. destruct (C111_network_is_composition f32 _ B h n p ss (map x (seq 0 (S k))) FR AP) as (h' & n' & E & _).
  exists h', n'. eexists. split; [exact E|]. rewrite signal_stream, map_length, seq_length, last_seq. split; [reflexivity|].
  split; [apply (stream_level p e e' x LV Hx)|exact (HN k Hk)].
Qed.
Print Assumptions C114_network_fades.

(** In particular, once nothing comes in any more, only b * 2^-149 is left. *)
Theorem C114_network_quiet : forall (NP : NanPolicy) (B : Build) (h : heap f32) n p ss (x : nat -> f32) e e' a b,
  fresh h n p ss -> apart ss -> level p e e' -> fades p e a b -> (forall k, bounded (pow2 e) (x k)) -> stops x ->
  exists N, forall k, (N <= k)%nat ->
    exists h' n' ys, net_run h n (map x (seq 0 (S k))) = Ret (h', n', ys) /\ length ys = S k /\
      fin (last ys (of_int 0)) = true /\ Rabs (val (last ys (of_int 0))) <= b * tiny.
Proof.
  intros NP B h n p ss x e e' a b FR AP LV FD Hx [N0 H0].
  destruct (C114_network_fades NP B h n p ss x e e' a b 0 FR AP LV FD Hx) as [N HN].
  { exists N0. intros k Hk. destruct (H0 k Hk) as [F V]. rewrite V, Rabs_R0. split; [exact F|lra]. }
  exists N. intros k Hk. destruct (HN k Hk) as (h' & n' & ys & E & L & F & V). exists h', n', ys. rewrite Rmult_0_r, Rplus_0_l in V. auto.
Qed.
Print Assumptions C114_network_quiet.

Section Note.
Context {NP : NanPolicy} {B : Build} {MO : MathOps f32}.
Lemma voice_run_app vs : forall ws s ys s1, voice_run vs s = Ret (ys, s1) ->
  voice_run (vs ++ ws) s = bind (voice_run ws s1) (fun q => Ret (ys ++ fst q, snd q)).
Proof.
  induction vs as [|v vs IH]; intros ws s ys s1 E; cbn [voice_run app] in *.
  - injection E as <- <-. destruct (voice_run ws s) as [[zs w]| |]; reflexivity.
  - destruct (voice_step v s) as [[xs s2]| |]; try discriminate E. cbn [bind fst snd] in *.
    destruct (voice_run vs s2) as [[zs s3]| |] eqn:E2; try discriminate E. cbn [bind fst snd] in E. injection E as <- <-.
    rewrite (IH ws s2 zs s3 E2). destruct (voice_run ws s3) as [[us w]| |]; cbn [bind fst snd]; try reflexivity. now rewrite app_assoc.
Qed.
Lemma voice_env vs : forall o a ys o' a', voice_run vs (o, a) = Ret (ys, (o', a')) -> exists os, run (env_calls vs) a = Ret (os, a').
Proof.
  induction vs as [|v vs IH]; intros o a ys o' a' E; cbn [voice_run env_calls flat_map] in *.
  - injection E as <- <- <-. now exists [].
  - destruct (voice_step v (o, a)) as [[xs [o1 a1]]| |] eqn:E1; try discriminate E. cbn [bind fst snd] in E.
    destruct (voice_run vs (o1, a1)) as [[zs [o2 a2]]| |] eqn:E2; try discriminate E. cbn [bind fst snd] in E. injection E as <- <- <-.
    destruct (IH _ _ _ _ _ E2) as [os R]. destruct v as [|c|f|p|w|r]; cbn [voice_step env_call app] in *; try (injection E1 as <- <- <-; now exists os).
    + destruct (fo_next o) as [[y o3]| |]; try discriminate E1. cbn [bind fst snd] in E1. injection E1 as <- <- <-.
      cbn [run do_call]. destruct (tick a) as [t a3] eqn:T. cbn [bind fst snd] in *. fold (env_calls vs). rewrite R. cbn [bind fst snd]. eexists. reflexivity.
    + destruct (do_call c a) as [[oc a3]| |] eqn:T; try discriminate E1. cbn [bind fst snd] in E1. injection E1 as <- <- <-.
      cbn [run]. rewrite T. cbn [bind fst snd]. fold (env_calls vs). rewrite R. cbn [bind fst snd]. eexists. reflexivity.
Qed.
Lemma frames_S ctl m : frames ctl (S m) = frames ctl m ++ (ctl m ++ [VSample]).
Proof. unfold frames. rewrite seq_S, flat_map_app. cbn [flat_map Nat.add]. now rewrite app_nil_r. Qed.
Lemma retunes_env e l : Forall (retunes e) l -> env_calls l = [].
Proof. induction 1 as [|v l H _ IH]; [reflexivity|]. destruct v; cbn in H; try contradiction; exact IH. Qed.
Lemma frames_env e ctl m : (forall k, Forall (retunes e) (ctl k)) -> env_calls (frames ctl m) = repeat Tick m.
Proof.
  intros H. induction m as [|m IH]; [reflexivity|]. rewrite frames_S. unfold env_calls in *. rewrite !flat_map_app, IH.
  pose proof (retunes_env e _ (H m)) as Q. unfold env_calls in Q. rewrite Q. cbn [flat_map env_call app]. now rewrite <- repeat_cons.
Qed.
Lemma samples_app u v : samples (u ++ v) = (samples u + samples v)%nat.
Proof. unfold samples. now rewrite filter_app, app_length. Qed.
Lemma frames_samples e ctl m : (forall k, Forall (retunes e) (ctl k)) -> samples (frames ctl m) = m.
Proof.
  intros H. induction m as [|m IH]; [reflexivity|]. rewrite frames_S, !samples_app, IH.
  assert (Q : samples (ctl m) = 0%nat) by (specialize (H m); clear -H; induction H as [|v l H _ IH]; [reflexivity|]; destruct v; cbn in H; try contradiction; exact IH).
  rewrite Q. cbn. lia.
Qed.
Lemma frames_loud e ctl m : (forall k, Forall (retunes e) (ctl k)) -> Forall (no_louder e) (frames ctl m).
Proof.
  intros H. apply Forall_forall. intros v Hv. apply in_flat_map in Hv as (k & _ & Hv). apply in_app_iff in Hv as [Hv|[<-|[]]]; [|exact I].
  specialize (H k). rewrite Forall_forall in H. specialize (H v Hv). destruct v; cbn in *; tauto.
Qed.
Lemma frames_noenv e ctl m : (forall k, Forall (retunes e) (ctl k)) -> ~ exists c, In (VEnv c) (frames ctl m).
Proof.
  intros H [c Hc]. apply in_flat_map in Hc as (k & _ & Hv). apply in_app_iff in Hv as [Hv|[Hv|[]]]; [|discriminate].
  specialize (H k). rewrite Forall_forall in H. exact (H _ Hv).
Qed.
Lemma good_ticks sr : forall cs m, good_calls sr cs -> (forall sr', good_calls sr' (repeat Tick m)) -> good_calls sr (cs ++ repeat Tick m).
Proof. intros cs m. revert sr. induction cs as [|c cs IH]; intros sr H T; cbn in *; [apply T|]. destruct H as [H1 H2]. split; [exact H1|]. now apply IH. Qed.
Lemma all_ticks m : forall sr, good_calls sr (repeat Tick m).
Proof. induction m as [|m IH]; intros sr; cbn; auto. Qed.
End Note.

(** A note that has been released and is left alone dies away, together with everything behind it, while the oscillator may still be
    retuned at will: whatever was played before, in the end only b * 2^-149 is left. *)
Theorem C114_note_fades : forall (NP : NanPolicy) (B : Build) (MO : MathOps f32) (o : fosc) (a d s r slope sr : f32) (e e' : Z) (vs : list vop)
    (ctl : nat -> list vop) (h : heap f32) n p ss ga gb,
  floor_ok MO -> power_ok -> good_new a d s r slope sr -> good_calls sr (env_calls vs) ->
  (0 <= e <= 80)%Z -> (loudness (fo_wave o) <= e)%Z -> Forall (no_louder e) vs -> (forall k, Forall (retunes e) (ctl k)) ->
  fresh h n p ss -> apart ss -> level p e e' -> fades p e ga gb ->
  exists e0 ys w, adsr_new a d s r slope sr = Ret e0 /\ voice_run vs (o, e0) = Ret (ys, w) /\
    (e_state (snd w) = Release -> pow2 (-25) < val (e_release (snd w)) ->
     exists N, forall m, (N <= m)%nat ->
       exists us w' h' n' zs, voice_run (vs ++ frames ctl (S m)) (o, e0) = Ret (us, w') /\ net_run h n us = Ret (h', n', zs) /\
         length zs = (samples vs + S m)%nat /\ fin (last zs (of_int 0)) = true /\ Rabs (val (last zs (of_int 0))) <= gb * tiny).
Proof.
  intros NP B MO o a d s r slope sr e e' vs ctl h n p ss ga gb HF HP G C He L NL RT FR AP LV FD.
  destruct (C112_voice_bounded NP B MO o a d s r slope sr e vs HF HP G C He L NL) as (e0 & ys & [o1 a1] & E0 & E & Ly & Y).
  exists e0, ys, (o1, a1). split; [exact E0|]. split; [exact E|]. cbn [snd]. intros ST RL.
  assert (RCH : reachable a1).
  { destruct (voice_env vs o e0 ys o1 a1 E) as [os R]. exists a, d, s, r, slope, sr, e0, (env_calls vs), os. auto. }
  assert (HR : exists nr, 1 <= INR nr * (val (e_release a1) - pow2 (-25))).
  { set (g := val (e_release a1) - pow2 (-25)). assert (Pg : 0 < g) by (unfold g; lra). pose proof (Rinv_0_lt_compat g Pg) as Pi. destruct (archimed (/ g)) as [Q _].
    exists (Z.to_nat (up (/ g))). rewrite INR_IZR_INZ, Z2Nat.id by (apply le_IZR; lra).
    apply Rle_trans with (/ g * g); [rewrite Rinv_l; lra|]. apply Rmult_le_compat_r; lra. }
  destruct HR as [nr Hr].
  assert (RUN : forall m, exists us w', voice_run (vs ++ frames ctl m) (o, e0) = Ret (us, w') /\ length us = (samples vs + m)%nat /\ Forall (bounded (pow2 e)) us).
  { intros m. assert (C' : good_calls sr (env_calls (vs ++ frames ctl m))).
    { unfold env_calls. rewrite flat_map_app. fold (env_calls vs). fold (env_calls (frames ctl m)). rewrite (frames_env e) by exact RT. apply good_ticks; [exact C|apply all_ticks]. }
    destruct (C112_voice_bounded NP B MO o a d s r slope sr e (vs ++ frames ctl m) HF HP G C' He L) as (e1 & us & w' & E1 & R & Lu & U).
    { apply Forall_app. split; [exact NL|now apply frames_loud]. }
    rewrite E1 in E0. injection E0 as ->. exists us, w'. split; [exact R|]. split; [|exact U]. now rewrite Lu, samples_app, (frames_samples e). }
  set (out := fun m => match voice_run (vs ++ frames ctl m) (o, e0) with Ret (us, _) => us | _ => [] end).
  assert (OUT : forall m, exists w', voice_run (vs ++ frames ctl m) (o, e0) = Ret (out m, w') /\ length (out m) = (samples vs + m)%nat /\ Forall (bounded (pow2 e)) (out m)).
  { intros m. destruct (RUN m) as (us & w' & R & Lu & U). exists w'. unfold out. rewrite R. auto. }
  assert (STEP : forall m, exists z, out (S m) = out m ++ z).
  { intros m. destruct (OUT m) as (w1 & R1 & _). destruct (OUT (S m)) as (w2 & R2 & _). rewrite frames_S, app_assoc, (voice_run_app _ _ _ _ _ R1) in R2.
    destruct (voice_run (ctl m ++ [VSample]) w1) as [[zs w3]| |]; cbn [bind fst snd] in R2; try discriminate R2. injection R2 as <- _. now exists zs. }
  assert (STAB : forall i j k, (k < samples vs + i)%nat -> nth k (out (i + j)%nat) (of_int 0) = nth k (out i) (of_int 0)).
  { intros i j k Hk. induction j as [|j IH]; [now rewrite Nat.add_0_r|]. rewrite Nat.add_succ_r. destruct (STEP (i + j)%nat) as [z ->].
    rewrite app_nth1; [exact IH|]. destruct (OUT (i + j)%nat) as (_ & _ & Lo & _). lia. }
  set (x := fun k => nth k (out (S k)) (of_int 0)).
  assert (MAP : forall m, out m = map x (seq 0 (samples vs + m))).
  { intros m. destruct (OUT m) as (_ & _ & Lo & _). apply nth_ext with (of_int 0) (x 0%nat); [now rewrite map_length, seq_length|].
    intros k Hk. rewrite map_nth, seq_nth by lia. cbn [Nat.add]. unfold x. destruct (Nat.le_gt_cases (S k) m) as [Q|Q].
    - replace m with (S k + (m - S k))%nat at 1 by lia. apply STAB. lia.
    - replace (S k) with (m + (S k - m))%nat by lia. symmetry. apply STAB. lia. }
  assert (BX : forall k, bounded (pow2 e) (x k)).
  { intros k. destruct (OUT (S k)) as (_ & _ & Lo & U). rewrite Forall_forall in U. apply U, nth_In. lia. }
  assert (SX : stops x).
  { exists (samples vs + nr)%nat. intros k Hk. unfold x. destruct (OUT (S k)) as (w' & R & Lo & _). rewrite (voice_run_app _ _ _ _ _ E) in R.
    destruct (voice_run (frames ctl (S k)) (o1, a1)) as [[zs w3]| |] eqn:R3; cbn [bind fst snd] in R; try discriminate R. injection R as Eo _. rewrite <- Eo in Lo |- *.
    rewrite app_length, Ly in Lo. rewrite app_nth2 by lia. rewrite Ly.
    destruct (C112_note_ends NP B MO o1 a1 nr (frames ctl (S k)) zs w3 HF HP RCH ST Hr (frames_noenv e ctl (S k) RT) R3 (k - samples vs)%nat (nth (k - samples vs) zs (of_int 0))) as [F V].
    - lia.
    - apply nth_error_nth'. lia.
    - split; assumption. }
  destruct (C114_network_quiet NP B h n p ss x e e' ga gb FR AP LV FD BX SX) as [N HN]. exists N. intros m Hm.
  destruct (OUT (S m)) as (w' & R & _). destruct (HN (samples vs + m)%nat ltac:(lia)) as (h' & n' & zs & R2 & Lz & F & V).
  exists (out (S m)), w', h', n', zs. split; [exact R|]. rewrite MAP, Nat.add_succ_r. split; [exact R2|]. split; [exact Lz|]. split; assumption.
Qed.
Print Assumptions C114_note_fades.

(** The reverberator of T_Network, for inputs within 1: of an input within D it leaves 3 D + 200 * 2^-149 in the end. *)
Example C114_met (NP : NanPolicy) (B : Build) :
  fresh (room_heap (F := f32)) room room_plan room_slices /\ apart room_slices /\ level (room_plan (F := f32)) 0 9 /\
  exists a b, fades (room_plan (F := f32)) 0 a b /\ a <= 3 /\ b <= 200.
Proof.
  split; [apply C111_met|]. split; [apply (C111_met f32 _ B)|]. split; [apply C111_level_met|].
  destruct (of_int_exact 0 ltac:(lia)) as [F0 V0].
  destruct (lit_exact 1 (-2) ltac:(lia) ltac:(lia)) as [Fd Vd]. destruct (lit_exact 1 (-1) ltac:(lia) ltac:(lia)) as [Ff Vf]. destruct (lit_exact 1 (-4) ltac:(lia) ltac:(lia)) as [Fg Vg].
  destruct (lit_exact 1 (-8) ltac:(lia) ltac:(lia)) as [_ W0]. destruct (lit_exact 2 (-8) ltac:(lia) ltac:(lia)) as [_ W1].
  assert (Z : forall k e, Forall (bounded (pow2 e)) (zeros k : list f32)).
  { intros k e. unfold zeros. apply Forall_forall. intros x Hx. apply repeat_spec in Hx. subst x. change (nint 0 : f32) with (of_int 0). split; [exact F0|]. rewrite V0, Rabs_R0. apply bpow_ge_0. }
  assert (DO : damp_ok room_damp). { split; [exact Fd|]. change (room_damp : f32) with (lit 1 (-2)). rewrite Vd. cbn. lra. }
  assert (FO : fb_ok (1 - pow2 (- (1))) room_feedback). { split; [exact Ff|]. change (room_feedback : f32) with (lit 1 (-1)). rewrite Vf. rewrite Rabs_pos_eq; cbn; lra. }
  assert (LC : forall k, level (PComb (zeros k) room_damp room_feedback) 0 2).
  { intros k. apply (level_comb _ _ _ 0 1); unfold mid; try lia; auto. }
  assert (AC : forall k, (0 < k)%nat -> fades (PComb (zeros k) room_damp room_feedback) 0 (101 / 100 * pow2 1) (40 * pow2 1)).
  { intros k Hk. apply (fades_comb _ _ _ 0 1); unfold mid; try lia; auto. destruct k; [lia|discriminate]. }
  destruct (C95_met NP) as (H1 & H2 & H3 & H4). change (BC (lit 1 (-8)) (lit 2 (-8)) (lit 1 (-8)) (lit (-1859) (-10)) (lit 851 (-10))) with (room_coeffs (F := f32)) in *.
  assert (WF : forward_weight (exact_coeffs (room_coeffs (F := f32))) = 4 / 256).
  { unfold forward_weight, exact_coeffs, room_coeffs. cbn [b0 b1 b2]. change (@ndy f32 _) with lit. rewrite W0, W1.
    replace (IZR 1 * pow2 (-8)) with (1 / 256) by (cbn; lra). replace (IZR 2 * pow2 (-8)) with (1 / 128) by (cbn; lra).
    rewrite (Rabs_pos_eq (1 / 256)), (Rabs_pos_eq (1 / 128)) by lra. lra. }
  do 2 eexists. split.
  - unfold room_plan. apply fades_series with (e1 := 5%Z).
    + apply level_series with 3%Z; [|apply (level_pass _ 3); [discriminate|unfold mid; lia|apply Z]]. apply (level_mix _ _ 0 2); [unfold mid; lia|apply LC|apply LC].
    + apply fades_series with (e1 := 3%Z); [apply (level_mix _ _ 0 2); [unfold mid; lia|apply LC|apply LC]| |].
      * apply fades_mix with (e1 := 2%Z); [unfold mid; lia|apply LC|apply LC|apply AC; lia|apply AC; lia].
      * apply fades_pass; [discriminate|unfold mid; lia|apply Z].
    + apply fades_series with (e1 := 13%Z).
      * apply level_filter with 130; try assumption; rewrite WF.
        -- replace (4 / 256 * pow2 5) with (pow2 (-1)) by (cbn; lra). split; apply bpow_le; lia.
        -- cbn. lra.
      * apply fades_filter with (G := 130); try assumption. rewrite WF. replace (4 / 256 * pow2 5) with (pow2 (-1)) by (cbn; lra). split; apply bpow_le; lia.
      * apply (fades_scale _ 13 (-4)); [unfold mid; lia|exact Fg|]. change (ndy 1 (-4) : f32) with (lit 1 (-4)). rewrite Vg. rewrite Rabs_pos_eq; cbn; lra.
  - rewrite WF. cbn. split; lra.
Qed.

(** The voice of [C112_note_met], released at once and retuned before every sample. *)
Example C114_note_met (NP : NanPolicy) (B : Build) : let MO := voice_math NP in let ctl := fun k => [VFreq (of_int (Z.of_nat k)); VWave Triangle] in
  exists e0 ys w, adsr_new ex_ms10 ex_ms10 (lit 1 (-1)) (of_int (-1)) (of_int 1) ex_sr = Ret e0 /\
    voice_run [VEnv TriggerOn; VEnv TriggerOff] (FO (pa_new (of_int 440) ex_sr) Sawtooth, e0) = Ret (ys, w) /\
    e_state (snd w) = Release /\ pow2 (-25) < val (e_release (snd w)) /\ forall k, Forall (retunes 0) (ctl k).
Proof.
  intros MO ctl. destruct (C112_note_met NP B) as (e0 & E0 & St & RCH & SR & HR). exists e0, [], (FO (pa_new (of_int 440) ex_sr) Sawtooth, trigger_off (trigger_on e0)).
  split; [exact E0|]. split; [reflexivity|]. cbn [snd]. split; [exact SR|]. split.
  - destruct (Rlt_le_dec (pow2 (-25)) (val (e_release (trigger_off (trigger_on e0))))) as [Q|Q]; [exact Q|]. exfalso.
    pose proof (pos_INR (Z.to_nat 192000)) as PI. set (i := INR (Z.to_nat 192000)) in *. clearbody i.
    assert (i * (val (e_release (trigger_off (trigger_on e0))) - pow2 (-25)) <= i * 0) by (apply Rmult_le_compat_l; lra). lra.
  - intros k. unfold ctl. repeat constructor. cbn. lia.
Qed.
