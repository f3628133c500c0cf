(** * Theorems: histories of calls on whole oscillators (C87). *)

From Coq Require Import ZArith List Bool Reals Lia Lra.
From Flocq Require Import Core.
From Verif Require Import Base F32 F32Lemmas F32Exact F32Ints F32Range F32Over Num M_Memory S_Memory P_Memory P_Lerp P_Interp P_Bits
  M_Sine S_Sine P_Sine P_SineAcc P_SineFloat M_Oscillator S_Oscillator P_Oscillator S_OscHistory T_Interp T_Oscillator Examples.
Import ListNotations.
Open Scope Z_scope.

Section Shift.
Context {NP : NanPolicy}.
Lemma shift_ok (t : f32) : shift_u32 t = shift_of t.
Proof.
  unfold shift_u32, shift_of. rewrite max_f. destruct isv_2_32 as [F32 V32]. destruct (isnan t) eqn:N.
  { apply to_u32_sgn. right. apply fmul_nan. now left. }
  assert (S32 : sgn (of_int (2 ^ 32)) = false) by (apply sgn_pos_val; [exact F32|rewrite V32; apply bpow_gt_0]).
  destruct (not_nan_cases t N) as [F|[-> | ->]].
  - rewrite ext_fin by exact F. destruct (Rle_bool_spec (val t) 0) as [L|G].
    { destruct (Rle_lt_or_eq_dec _ _ L) as [L'|E]; [|now apply fmul_zero_u32].
      destruct (isnan (fmul t (of_int (2 ^ 32)))) eqn:Nm; [apply to_u32_sgn; now right|].
      apply to_u32_sgn. left. rewrite fmul_sgn by exact Nm. rewrite S32, (sgn_neg_val t F L'). reflexivity. }
    destruct (Rle_bool_spec 1 (val t)) as [G1|L1].
    { apply to_u32_big. destruct (fmul_cases t (of_int (2 ^ 32)) F F32) as [(_ & Fm & Vm & _)|[_ Em]].
      - right. split; [exact Fm|]. rewrite Vm, V32. apply rnd_ge_repr; [apply repr_bpow; lia|].
        assert (0 < pow2 32)%R by apply bpow_gt_0. nra.
      - left. rewrite Em, S32, (sgn_pos_val t F G). reflexivity. }
    assert (P : (0 < pow2 32)%R) by apply bpow_gt_0.
    destruct (mul_exact t (of_int (2 ^ 32)) (val t) (pow2 32)) as [Fm Vm]; [now apply isv_self|now split|apply repr_up; [apply repr_val|lia]| |].
    { rewrite Rabs_pos_eq by nra. apply Rlt_trans with (pow2 32); [nra|unfold big; apply bpow_lt; lia]. }
    unfold to_u32. rewrite to_int_fin by exact Fm. rewrite Vm. change (IZR (2 ^ 32)) with (pow2 32).
    rewrite Ztrunc_floor by nra.
    assert (0 <= Zfloor (val t * pow2 32)) by (apply Zfloor_lub; nra).
    assert (Zfloor (val t * pow2 32) < 2 ^ 32).
    { apply lt_IZR. apply Rle_lt_trans with (1 := Zfloor_lb _). change (IZR (2 ^ 32)) with (pow2 32). nra. }
    lia.
  - change (ext f_inf) with big. pose proof big_pos. assert (1 <= big)%R by (change 1%R with (pow2 0); unfold big; apply bpow_le; lia).
    rewrite Rle_bool_false by lra. rewrite Rle_bool_true by lra. vm_compute. reflexivity.
  - match goal with |- context [ext ?x] => change (ext x) with (- big)%R end. pose proof big_pos. rewrite Rle_bool_true by lra. vm_compute. reflexivity.
Qed.

Lemma shift_of_range t : is_u32 (shift_of t).
Proof.
  rewrite <- shift_ok. unfold shift_u32, to_u32, is_u32. pose proof (to_int_range 0 (2 ^ 32 - 1) (fmul t u32_max_f) ltac:(lia)). lia.
Qed.
Lemma acc_calls_ok cs : Forall call_ok (acc_calls cs).
Proof.
  induction cs as [|[| | | |] cs IH]; cbn [acc_calls]; try exact IH; constructor; try exact IH; cbn; try exact I. apply shift_of_range.
Qed.
End Shift.

(** C87: a phase shift of t turns, 0 <= t <= 1, moves every later sample by t to within 2^-32 turns,
    and nothing else (both oscillators). *)
Theorem C87_phase_shift_turns : forall (NP : NanPolicy) (o : fosc) (w : wosc) (t : f32),
  fin t = true -> (0 <= val t <= 1)%R -> exists z, is_u32 z /\ (Rabs (turn z - val t) <= pow2 (-32))%R /\
    next_phase (fo_acc (fo_set_phase_shift_unchecked o t)) = (next_phase (fo_acc (fo_set_phase_shift_unchecked o (of_int 0))) + z) mod 2 ^ 32 /\
    fo_wave (fo_set_phase_shift_unchecked o t) = fo_wave o /\
    next_phase (wo_acc (wo_set_phase_shift_unchecked w t)) = (next_phase (wo_acc (wo_set_phase_shift_unchecked w (of_int 0))) + z) mod 2 ^ 32 /\
    wo_table (wo_set_phase_shift_unchecked w t) = wo_table w.
Proof.
  intros NP o w t F H. exists (shift_of t). split; [apply shift_of_range|].
  assert (Z0 : shift_u32 (of_int 0) = 0) by (vm_compute; reflexivity).
  split; [|split; [|split; [reflexivity|split; [|reflexivity]]]].
  - unfold shift_of. rewrite (fin_notnan _ F), ext_fin by exact F. unfold turn. assert (P : (0 < pow2 32)%R) by apply bpow_gt_0. change (IZR (2 ^ 32)) with (pow2 32).
    assert (E : pow2 (-32) = (/ pow2 32)%R) by (change (-32)%Z with (- (32)); apply bpow_opp). rewrite E.
    assert (Q : (0 < / pow2 32)%R) by now apply Rinv_0_lt_compat.
    destruct (Rle_bool_spec (val t) 0) as [L|G]; [|destruct (Rle_bool_spec 1 (val t)) as [G1|L1]].
    + assert (E0 : val t = 0%R) by lra. rewrite E0. unfold Rdiv. rewrite Rmult_0_l, Rminus_0_r, Rabs_R0. lra.
    + assert (E0 : val t = 1%R) by lra. rewrite E0. rewrite minus_IZR. change (IZR (2 ^ 32)) with (pow2 32).
      replace ((pow2 32 - 1) / pow2 32 - 1)%R with (- / pow2 32)%R by (field; lra). rewrite Rabs_Ropp, Rabs_pos_eq; lra.
    + pose proof (Zfloor_lb (val t * pow2 32)) as A. pose proof (Zfloor_ub (val t * pow2 32)) as U. set (k := IZR (Zfloor (val t * pow2 32))) in *.
      replace (k / pow2 32 - val t)%R with ((k - val t * pow2 32) * / pow2 32)%R by (field; lra).
      rewrite Rabs_mult, (Rabs_pos_eq (/ pow2 32)) by lra. rewrite <- (Rmult_1_l (/ pow2 32)) at 2. apply Rmult_le_compat_r; [lra|]. apply Rabs_le. lra.
  - unfold fo_set_phase_shift_unchecked, next_phase, pa_set_phase_shift, pa_next_value, pa_tick, u32_wrapping_add. cbn [fo_acc fst pa_counter pa_shift pa_freq pa_min_step].
    rewrite Z0, shift_ok, Z.add_0_r, !Z.mod_mod by lia. reflexivity.
  - unfold wo_set_phase_shift_unchecked, next_phase, pa_set_phase_shift, pa_next_value, pa_tick, u32_wrapping_add. cbn [wo_acc fst pa_counter pa_shift pa_freq pa_min_step].
    rewrite Z0, shift_ok, Z.add_0_r, !Z.mod_mod by lia. reflexivity.
Qed.
Print Assumptions C87_phase_shift_turns.

(** C87: outside [0, 1] the shift is not taken modulo a turn: every negative number (and NaN) is the
    same as no shift, and every number from 1 on is the same as 1. *)
Theorem C87_phase_shift_wrap_refuted : forall (NP : NanPolicy) (o : fosc) (w : wosc) (t : f32),
  (isnan t = true \/ (ext t <= 0)%R ->
     fo_set_phase_shift_unchecked o t = fo_set_phase_shift_unchecked o (of_int 0) /\
     wo_set_phase_shift_unchecked w t = wo_set_phase_shift_unchecked w (of_int 0)) /\
  (isnan t = false -> (1 <= ext t)%R ->
     fo_set_phase_shift_unchecked o t = fo_set_phase_shift_unchecked o (of_int 1) /\
     wo_set_phase_shift_unchecked w t = wo_set_phase_shift_unchecked w (of_int 1)).
Proof.
  intros NP o w t.
  assert (Z0 : shift_u32 (of_int 0) = 0) by (vm_compute; reflexivity). assert (Z1 : shift_u32 (of_int 1) = 2 ^ 32 - 1) by (vm_compute; reflexivity).
  unfold fo_set_phase_shift_unchecked, wo_set_phase_shift_unchecked. rewrite Z0, Z1, shift_ok. unfold shift_of. split.
  - intros H. destruct (isnan t); [split; reflexivity|]. destruct H as [H|H]; [discriminate|]. rewrite Rle_bool_true by exact H. split; reflexivity.
  - intros -> H. rewrite Rle_bool_false by lra. rewrite Rle_bool_true by exact H. split; reflexivity.
Qed.
Print Assumptions C87_phase_shift_wrap_refuted.

Lemma wave_next {NP : NanPolicy} {B : Build} {MO : MathOps f32} (o : fosc) : floor_ok MO ->
  exists y, fo_next o = Ret (y, FO (snd (pa_next_value (fo_acc o))) (fo_wave o)) /\ fin y = true /\ waveform_value (fo_wave o) (next_phase (fo_acc o)) y.
Proof.
  intros Hf. destruct (fo_wave o) eqn:W; cbn [waveform_value].
  - destruct (C46_sine_oscillator NP B MO o W) as (y & E & F & _ & A). exists y. auto.
  - destruct (C45_rectangle_refuted NP B MO o Hf W) as (y & E & _). exists y. split; [exact E|].
    assert (Y : y = of_int (if next_phase (fo_acc o) <? 2 ^ 31 - 64 then -1 else if next_phase (fo_acc o) <? 2 ^ 32 - 128 then 1 else 3)).
    { revert E. unfold fo_next. rewrite W. unfold fo_next_rect, fo_next_saw. destruct (norm_next (fo_acc o)) as [E1 E2].
      destruct (pa_next_value_normalized (fo_acc o)) as [v a']. cbn [fst snd] in *. subst v a'. intros E. injection E as <- _.
      exact (rect_spec (next_phase (fo_acc o)) Hf (next_phase_range (fo_acc o))). }
    split; [|exact Y]. rewrite Y. destruct (_ <? _); [|destruct (_ <? _)]; apply of_int_exact; lia.
  - destruct (C44_sawtooth NP B MO o W) as (y & E & F & _ & _ & A). exists y. auto.
  - destruct (C44_triangle NP B MO o W) as (y & E & F & _ & A). exists y. auto.
Qed.

(** C87: after every history of calls on a new functional oscillator no call has panicked, there was
    one finite sample per [next], and the next sample is that of the waveform last set (the sine if
    none was) at the phase last reached: all increments so far, each at the frequency and sample rate
    in force at its tick, plus the last shift set. *)
Theorem C87_functional_history : forall (NP : NanPolicy) (B : Build) (MO : MathOps f32) (freq sr : f32) (cs : list osc_call), floor_ok MO ->
  exists ys o y o', fo_run (fo_new (pa_new freq sr)) cs = Ret (ys, o) /\ length ys = nexts cs /\ Forall (fun v => fin v = true) ys /\
    fo_next o = Ret (y, o') /\ fin y = true /\ waveform_value (last_wave Sine cs) (phase_after freq sr cs) y.
Proof.
  intros NP B MO freq sr cs Hf.
  assert (G : forall cs o, exists ys o', fo_run o cs = Ret (ys, o') /\ length ys = nexts cs /\ Forall (fun v => fin v = true) ys /\
    fo_acc o' = pa_run (fo_acc o) (acc_calls cs) /\ fo_wave o' = last_wave (fo_wave o) cs).
  { clear cs. induction cs as [|c cs IH]; intros o.
    - exists [], o. repeat split; constructor.
    - destruct c as [|f|s|t|w].
      + destruct (wave_next o Hf) as (y & E & F & _). destruct (IH (FO (snd (pa_next_value (fo_acc o))) (fo_wave o))) as (ys & o' & R & L & A & Ea & Ew).
        exists (y :: ys), o'. cbn [fo_run]. rewrite E. cbn [bind fst snd]. rewrite R. cbn [bind fst snd length nexts]. rewrite L.
        split; [reflexivity|]. split; [reflexivity|]. split; [now constructor|]. split; [exact Ea|exact Ew].
      + exact (IH (fo_set_freq_unchecked o f)).
      + exact (IH (fo_set_sr_unchecked o s)).
      + destruct (IH (fo_set_phase_shift_unchecked o t)) as (ys & o' & R & L & A & Ea & Ew). exists ys, o'. split; [exact R|]. split; [exact L|].
        split; [exact A|]. split; [|exact Ew]. rewrite Ea. unfold fo_set_phase_shift_unchecked. rewrite shift_ok. reflexivity.
      + exact (IH (fo_set_wave o w)). }
  destruct (G cs (fo_new (pa_new freq sr))) as (ys & o & R & L & A & Ea & Ew).
  destruct (wave_next o Hf) as (y & E & F & V). exists ys, o, y, (FO (snd (pa_next_value (fo_acc o))) (fo_wave o)).
  split; [exact R|]. split; [exact L|]. split; [exact A|]. split; [exact E|]. split; [exact F|].
  rewrite Ew in V. cbn [fo_wave fo_new] in V. rewrite Ea in V. cbn [fo_acc fo_new] in V.
  unfold next_phase in V. rewrite C39_phase_history in V; [exact V|].
  apply acc_calls_ok.
Qed.
Print Assumptions C87_functional_history.

(** C87: the same for the wavetable oscillator, as long as it has not read outside its table: after
    every such history the next sample interpolates the table, at a position within n 2^-23 of
    n times the phase. *)
Theorem C87_wavetable_history : forall (NP : NanPolicy) (B : Build) (h : heap f32) s l (freq sr : f32) (cs : list osc_call) ys o,
  covers h s l -> 1 <= ms_len s <= 2 ^ 24 -> Forall (fun v => fin v = true) l ->
  wo_run h (wo_new s (pa_new freq sr)) cs = Ret (ys, o) ->
  length ys = nexts cs /\ wo_table o = s /\
  exists x, (0 <= x)%R /\ (Rabs (x - IZR (ms_len s) * turn (phase_after freq sr cs)) <= IZR (ms_len s) * pow2 (-23))%R /\
    let k := Zfloor x in let f := (x - IZR k)%R in
    (k + 1 < ms_len s -> exists p q y o', nthz l k = Some p /\ nthz l (k + 1) = Some q /\ wo_next h o = Ret (y, o') /\ fin y = true /\
      (Rabs (val y - (val p * (1 - f) + val q * f)) <= pow2 (-22) * Rmax (Rabs (val p)) (Rabs (val q)) + pow2 (-148))%R) /\
    (ms_len s <= k + 1 -> ends_allocation h s -> wo_next h o = UB).
Proof.
  intros NP B h s l freq sr cs ys o C Hn Fl R.
  assert (G : forall cs o ys o', wo_run h o cs = Ret (ys, o') -> length ys = nexts cs /\ wo_table o' = wo_table o /\ wo_acc o' = pa_run (wo_acc o) (acc_calls cs)).
  { clear. induction cs as [|c cs IH]; intros o ys o' R.
    - injection R as <- <-. repeat split.
    - destruct c as [|f|sr|t|w]; cbn [wo_run] in R.
      + destruct (wo_next h o) as [[y o1]| |] eqn:E; try discriminate R. cbn [bind fst snd] in R.
        destruct (wo_run h o1 cs) as [[ys1 o2]| |] eqn:E2; try discriminate R. cbn [bind fst snd] in R. injection R as <- <-.
        destruct (IH _ _ _ E2) as (L & T & A). cbn [length nexts]. rewrite L.
        assert (O1 : o1 = WO (wo_table o) (snd (pa_next_value (wo_acc o)))).
        { unfold wo_next in E. destruct (norm_next (wo_acc o)) as [_ E3]. destruct (pa_next_value_normalized (wo_acc o)) as [v a]. cbn [snd] in E3. subst a.
          destruct (ms_lerp_unchecked _ _ _); try discriminate E. cbn [bind] in E. now injection E as _ <-. }
        subst o1. split; [reflexivity|]. split; [exact T|exact A].
      + exact (IH _ _ _ R).
      + exact (IH _ _ _ R).
      + destruct (IH _ _ _ R) as (L & T & A). split; [exact L|]. split; [exact T|]. rewrite A. unfold wo_set_phase_shift_unchecked. rewrite shift_ok. reflexivity.
      + exact (IH _ _ _ R). }
  destruct (G _ _ _ _ R) as (L & T & A). cbn [wo_table wo_new wo_acc] in T, A. split; [exact L|]. split; [exact T|].
  assert (P : next_phase (wo_acc o) = phase_after freq sr cs).
  { rewrite A. unfold next_phase. rewrite C39_phase_history; [reflexivity|].
    apply acc_calls_ok. }
  assert (Eo : o = wo_new s (wo_acc o)) by (destruct o as [t a]; cbn [wo_table] in T; now rewrite T).
  destruct (C47_wavetable_reads NP B h s l (wo_acc o) C) as (Fx & K0 & Vx & I1 & I2). rewrite <- Eo in I1, I2.
  destruct (norm_next (wo_acc o)) as [En _]. rewrite En in *. rewrite P in *.
  assert (Hz : is_u32 (phase_after freq sr cs)) by (rewrite <- P; apply next_phase_range).
  destruct (norm_spec _ Hz) as [[_ Bv] _]. pose proof (norm_close _ Hz) as NC. set (v := val (norm_f (phase_after freq sr cs))) in *.
  set (X := fmul (of_int (ms_len s)) (norm_f (phase_after freq sr cs))) in *. set (n := IZR (ms_len s)) in *.
  assert (N1 : (1 <= n)%R) by (apply (IZR_le 1); lia). rewrite (rnd_repr n) in Vx by (apply repr_int; lia).
  assert (X0 : (0 <= val X)%R) by (rewrite Vx; apply rnd_ge_repr; [apply repr_0|nra]).
  exists (val X). split; [exact X0|]. split.
  - rewrite Vx. pose proof (rnd_err (n * v)) as RE. rewrite (Rabs_pos_eq (n * v)) in RE by nra.
    replace (rnd (n * v) - n * turn (phase_after freq sr cs))%R with ((rnd (n * v) - n * v) + n * (v - turn (phase_after freq sr cs)))%R by ring.
    apply Rle_trans with (1 := Rabs_triang _ _). rewrite Rabs_mult, (Rabs_pos_eq n) by lra.
    assert (T1 : (n * Rabs (v - turn (phase_after freq sr cs)) <= n * pow2 (-25))%R) by (apply Rmult_le_compat_l; lra).
    assert (T2 : (pow2 (-24) * (n * v) <= pow2 (-24) * n)%R) by (apply Rmult_le_compat_l; [apply bpow_ge_0|nra]).
    assert (T3 : (pow2 (-150) <= n * pow2 (-25))%R).
    { apply Rle_trans with (1 * pow2 (-25))%R; [rewrite Rmult_1_l; apply bpow_le; lia|apply Rmult_le_compat_r; [apply bpow_ge_0|exact N1]]. }
    replace (pow2 (-24)) with (2 * pow2 (-25))%R in * by (cbn; lra). replace (pow2 (-23)) with (4 * pow2 (-25))%R by (cbn; lra). lra.
  - cbv zeta. rewrite <- (Ztrunc_floor (val X)) by exact X0. split; [|exact I2]. intros Lk. destruct (I1 Lk) as (p & q & Hp & Hq & E & Vf).
    assert (IN : forall i x, nthz l i = Some x -> fin x = true).
    { intros i x H. unfold nthz in H. destruct (i <? 0); [discriminate|]. apply nth_error_In in H. exact (proj1 (Forall_forall _ _) Fl x H). }
    assert (U : unit_range (fsub X (of_int (Ztrunc (val X))))).
    { destruct (frac_exact X (Ztrunc (val X)) Fx X0) as (_ & _ & Q1 & _); auto; [lia|]. split; [exact Q1|]. rewrite Vf.
      rewrite (Ztrunc_floor (val X)) by exact X0. pose proof (Zfloor_lb (val X)). pose proof (Zfloor_ub (val X)). lra. }
    eexists p, q, _, _. split; [exact Hp|]. split; [exact Hq|]. split; [exact E|]. split; [apply lerp_exact_form; eauto|].
    pose proof (lerp_accuracy p q _ (IN _ _ Hp) (IN _ _ Hq) U) as LA. rewrite Vf in LA.
    apply Rle_trans with (1 := LA). apply Rplus_le_compat_r. apply Rmult_le_compat_r; [|replace (pow2 (-22)) with (4 * pow2 (-24))%R by (cbn; lra); assert (0 < pow2 (-24))%R by apply bpow_gt_0; lra].
    apply Rle_trans with (2 := Rmax_l _ _). apply Rabs_pos.
Qed.
Print Assumptions C87_wavetable_history.

Example C87_met : let cs := [OscNext; OscWave Triangle; OscShift (lit 1 (-2)); OscSr (of_int 44100); OscNext] in
  floor_ok (ref_math (NP := default_policy)) /\
  obits (do q <- fo_run (NP := default_policy) (B := dbg32) (MO := ref_math (NP := default_policy)) (fo_new (pa_new (NP := default_policy) (of_int 12000) (of_int 48000))) cs ;
         Ret (last (fst q) (of_int 7))) = Ret 3182763424.
Proof. cbv zeta. split; [apply ref_floor_ok|]. vm_compute. reflexivity. Qed.
