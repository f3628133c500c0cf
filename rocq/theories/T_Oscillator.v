(** * Theorems: phase accumulator and oscillators (C39-C47). *)

From Coq Require Import ZArith List Bool Reals Lia Lra.
From Flocq Require Import Core.
From Verif Require Import Base F32 F32Lemmas F32Exact F32Ints F32Range F32Over Num M_Memory S_Memory P_Memory P_Interp
  M_Sine S_Sine P_Sine P_SineAcc P_SineFloat M_Oscillator S_Oscillator P_Oscillator Examples.
Import ListNotations.
Open Scope Z_scope.

(** ** The phase accumulator *)

(** C39: after any history of calls on a new accumulator, the next phase is the sum of all
    the increments, each taken at the frequency and sample rate in force at its tick, plus
    the last shift set, modulo 2^32. *)
Theorem C39_phase_history : forall (NP : NanPolicy) (freq sr : f32) (cs : list pa_call), Forall call_ok cs ->
  fst (pa_next_value (pa_run (pa_new freq sr) cs)) =
  (phase_sum freq sr (cs ++ [CallNext]) + last_shift 0 cs) mod 2 ^ 32.
Proof.
  intros NP freq sr cs _. unfold pa_new. rewrite pa_run_new by lia. unfold pa_next_value, pa_tick.
  cbn [fst pa_counter pa_freq pa_shift pa_min_step]. rewrite step_eq. unfold u32_wrapping_add.
  rewrite phase_sum_app. cbn [phase_sum]. rewrite Z.add_0_l, Z.add_0_r.
  rewrite Z.add_mod_idemp_l by lia. rewrite <- Z.add_assoc, Z.add_mod_idemp_l by lia. f_equal. lia.
Qed.
Print Assumptions C39_phase_history.

(** C39: at a constant setting the n-th call gives (c0 + n*step + shift) mod 2^32, from
    every state, whichever of the two output functions was used in between. *)
Theorem C39_phase_closed_form : forall (NP : NanPolicy) (a : phase_acc) (cs : list pa_call),
  (forall c, In c cs -> c = CallNext \/ c = CallNextNormalized) ->
  fst (pa_next_value (pa_run a cs)) =
  (pa_counter a + (Z.of_nat (length cs) + 1) * to_u32 (fmul (pa_freq a) (pa_min_step a)) + pa_shift a) mod 2 ^ 32.
Proof.
  intros NP a cs. revert a. induction cs as [|x cs IH]; intros a H.
  - unfold pa_run, pa_next_value, pa_tick, u32_wrapping_add. cbn [fold_left fst length pa_counter pa_shift].
    rewrite Z.add_mod_idemp_l by lia. f_equal. lia.
  - assert (E : pa_run a (x :: cs) = pa_run (pa_tick a) cs).
    { unfold pa_run. cbn [fold_left]. f_equal. destruct (H x (or_introl eq_refl)) as [-> | ->]; reflexivity. }
    rewrite E, IH by (intros c Hc; apply H; now right).
    unfold pa_tick, u32_wrapping_add. cbn [pa_counter pa_shift pa_freq pa_min_step length].
    rewrite <- Z.add_assoc, Z.add_mod_idemp_l by lia. f_equal. lia.
Qed.
Print Assumptions C39_phase_closed_form.

(** C39: the shift only offsets the output: two accumulators that differ in the shift alone
    stay at a constant distance under any calls that do not touch the shift. *)
Theorem C39_shift_only_offsets : forall (NP : NanPolicy) (a : phase_acc) (s : Z) (cs : list pa_call),
  (forall c s', In c cs -> c <> CallSetShift s') ->
  fst (pa_next_value (pa_run (pa_set_phase_shift a s) cs)) =
  (fst (pa_next_value (pa_run (pa_set_phase_shift a 0) cs)) + s) mod 2 ^ 32.
Proof.
  intros NP a s cs H.
  assert (G : forall a b, pa_counter a = pa_counter b -> pa_freq a = pa_freq b -> pa_min_step a = pa_min_step b ->
     pa_shift a = s -> pa_shift b = 0 ->
     fst (pa_next_value (pa_run a cs)) = (fst (pa_next_value (pa_run b cs)) + s) mod 2 ^ 32).
  { clear a. induction cs as [|x cs IH]; intros a b Hc Hf Hm Ha Hb.
    - unfold pa_run, pa_next_value, pa_tick, u32_wrapping_add. cbn [fold_left fst pa_counter pa_shift].
      rewrite Hc, Hf, Hm, Ha, Hb, Z.add_0_r. rewrite !Z.add_mod_idemp_l by lia. reflexivity.
    - assert (Hr : forall c s', In c cs -> c <> CallSetShift s') by (intros; apply H; now right).
      unfold pa_run. cbn [fold_left]. apply (IH Hr); destruct x; unfold pa_call_step, pa_next_value, pa_next_value_normalized, pa_tick,
        pa_set_freq_unchecked, pa_set_sr_unchecked, pa_set_phase_shift; cbn [snd pa_counter pa_freq pa_shift pa_min_step];
        try congruence; exfalso; eapply (H _ _ (or_introl eq_refl)); reflexivity. }
  apply G; reflexivity.
Qed.
Print Assumptions C39_shift_only_offsets.

(** C39: changing the frequency keeps the phase continuous: the next phase is the previous
    one plus one increment at the new frequency. *)
Theorem C39_frequency_continuity : forall (NP : NanPolicy) (freq sr f2 : f32) (cs : list pa_call), Forall call_ok cs ->
  let a := pa_run (pa_new freq sr) cs in
  let '(z1, a1) := pa_next_value a in
  fst (pa_next_value (pa_set_freq_unchecked a1 f2)) = (z1 + phase_step f2 (last_sr sr cs)) mod 2 ^ 32.
Proof.
  intros NP freq sr f2 cs _. cbv zeta. unfold pa_new. rewrite pa_run_new by lia. unfold pa_next_value, pa_tick, pa_set_freq_unchecked.
  cbn [fst pa_counter pa_freq pa_shift pa_min_step]. rewrite !step_eq. unfold u32_wrapping_add.
  rewrite !Z.add_mod_idemp_l by lia. f_equal. lia.
Qed.
Print Assumptions C39_frequency_continuity.

Example C39_example (NP : NanPolicy) :
  let cs := [CallSetShift 7; CallNext; CallSetFreq (of_int 3); CallNextNormalized; CallSetSr (of_int 16)] in
  Forall call_ok cs /\
  fst (pa_next_value (pa_run (pa_new (of_int 1) (of_int 8)) cs)) =
    (2 ^ 32 / 8 * 1 + 2 ^ 32 / 8 * 3 + 2 ^ 32 / 16 * 3 + 7).
Proof. split; [repeat constructor; unfold is_u32; simpl; lia|vm_compute; reflexivity]. Qed.

(** C40: the normalised phase is the 32-bit phase rounded to 24 bits over 2^32; it lies in
    [0,1] and is 1 exactly for the top 128 phases. It never moves the phase differently
    from [next_value]. *)
Theorem C40_normalized_range : forall (NP : NanPolicy) (a : phase_acc),
  let z := fst (pa_next_value a) in
  let v := fst (pa_next_value_normalized a) in
  snd (pa_next_value_normalized a) = snd (pa_next_value a) /\
  0 <= z < 2 ^ 32 /\ fin v = true /\ (0 <= val v <= 1)%R /\
  val v = (rnd (IZR z) / IZR (2 ^ 32))%R /\
  (val v = 1%R <-> 2 ^ 32 - 128 <= z) /\ (Rabs (val v - IZR z / IZR (2 ^ 32)) <= pow2 (-25))%R.
Proof.
  intros NP a. cbv zeta. destruct (norm_next a) as [-> E2]. split; [exact E2|].
  pose proof (next_phase_range a) as Hz. change (fst (pa_next_value a)) with (next_phase a).
  destruct (norm_spec _ Hz) as [[F B] V]. destruct (norm_top _ Hz) as [T1 T2].
  split; [exact Hz|]. split; [exact F|]. split; [exact B|]. split; [exact V|]. split.
  - split; [|exact T1]. intros E. destruct (Z.le_gt_cases (2 ^ 32 - 128) (next_phase a)) as [L|L]; [exact L|].
    specialize (T2 L). rewrite E in T2. pose proof (bpow_gt_0 radix2 (-24)). lra.
  - exact (norm_close _ Hz).
Qed.
Print Assumptions C40_normalized_range.

Example C40_example (NP : NanPolicy) :
  to_bits (fst (pa_next_value_normalized (PA (2 ^ 32 - 128) (of_int 0) 0 (of_int 1)))) = to_bits (of_int 1) /\
  to_bits (fst (pa_next_value_normalized (PA (2 ^ 32 - 129) (of_int 0) 0 (of_int 1)))) = to_bits (lit 16777215 (-24)).
Proof. vm_compute. split; reflexivity. Qed.

(** C41: with a positive sample rate a negative, zero or NaN frequency freezes the phase,
    for any number of calls. *)
Theorem C41_frozen : forall (NP : NanPolicy) (freq sr : f32) (c s : Z) (cs : list pa_call),
  isnan freq = true \/ fle freq (of_int 0) = true -> fgt sr (of_int 0) = true -> is_u32 c -> is_u32 s ->
  (forall x, In x cs -> x = CallNext \/ x = CallNextNormalized) ->
  let a := pa_set_sr_unchecked (PA c freq s (of_int 0)) sr in
  fst (pa_next_value (pa_run a cs)) = (c + s) mod 2 ^ 32.
Proof.
  intros NP freq sr c s cs Hf Hs Hc _ Hcs. cbv zeta. rewrite C39_phase_closed_form by exact Hcs.
  unfold pa_set_sr_unchecked. cbn [pa_counter pa_freq pa_shift pa_min_step]. rewrite step_eq, step_frozen by auto.
  rewrite Z.mul_0_r, Z.add_0_r. reflexivity.
Qed.
Print Assumptions C41_frozen.

(** C41: a frequency above the sample rate (by more than the rounding error) or infinite
    saturates the increment, so the phase moves backwards by one per tick. *)
Theorem C41_saturates : forall (NP : NanPolicy) (freq sr : f32) (c s : Z) (cs : list pa_call),
  fin sr = true -> (0 < val sr)%R -> is_u32 c -> is_u32 s ->
  freq = f_inf \/ (fin freq = true /\ ((1 + pow2 (-22)) * val sr <= val freq)%R) ->
  (forall x, In x cs -> x = CallNext \/ x = CallNextNormalized) ->
  let a := pa_set_sr_unchecked (PA c freq s (of_int 0)) sr in
  fst (pa_next_value (pa_run a cs)) = (c + s - (Z.of_nat (length cs) + 1)) mod 2 ^ 32.
Proof.
  intros NP freq sr c s cs Fs Ps _ _ Hf Hcs. cbv zeta. rewrite C39_phase_closed_form by exact Hcs.
  unfold pa_set_sr_unchecked. cbn [pa_counter pa_freq pa_shift pa_min_step]. rewrite step_eq.
  assert (E : phase_step freq sr = 2 ^ 32 - 1).
  { destruct Hf as [-> | [Ff Hf]]; [|now apply step_saturates].
    unfold phase_step. apply to_u32_big. left.
    destruct (min_step_cases sr Fs Ps) as [-> |(Fd & Pd & _)]; [reflexivity|].
    generalize dependent (fdiv (of_int (2 ^ 32)) sr). intros m Fd Pd. pose proof (sgn_pos_val m Fd Pd) as S.
    destruct m as [b|b|b pl H|b m e H]; try discriminate Fd.
    - unfold val in Pd. cbn in Pd. lra.
    - cbn in S. subst b. reflexivity. }
  rewrite E. set (n := Z.of_nat (length cs) + 1).
  replace (c + n * (2 ^ 32 - 1) + s) with (c + s - n + n * 2 ^ 32) by ring. now rewrite Z.mod_add.
Qed.
Print Assumptions C41_saturates.

Example C41_example (NP : NanPolicy) :
  fle (of_int (- 5)) (of_int 0) = true /\ fgt (of_int 48000) (of_int 0) = true /\
  fst (pa_next_value (pa_set_sr_unchecked (PA 10 (of_int (- 5)) 3 (of_int 0)) (of_int 48000))) = 13 /\
  fst (pa_next_value (pa_set_sr_unchecked (PA 10 (of_int 96000) 3 (of_int 0)) (of_int 48000))) = 12.
Proof. vm_compute. repeat split; reflexivity. Qed.
Example C41_example_bound : ((1 + pow2 (-22)) * val (of_int 48000) <= val (of_int 96000))%R.
Proof.
  destruct (of_int_exact 48000 ltac:(lia)) as [_ ->]. destruct (of_int_exact 96000 ltac:(lia)) as [_ ->].
  replace (pow2 (-22)) with (1 / 4194304)%R by (cbn; lra). lra.
Qed.

(** C42: the phase moved by one call is within 1 + 2^-22 of the ideal 2^32*freq/sr. *)
Theorem C42_frequency_accuracy : forall (NP : NanPolicy) (freq sr : f32) (c : Z),
  fin freq = true -> fin sr = true -> (1 <= val sr <= IZR (2 ^ 24))%R -> (0 <= val freq <= val sr)%R -> is_u32 c ->
  exists inc : Z, is_u32 inc /\
    fst (pa_next_value (pa_set_sr_unchecked (PA c freq 0 (of_int 0)) sr)) = (c + inc) mod 2 ^ 32 /\
    (Rabs (IZR inc - IZR (2 ^ 32) * val freq / val sr) <= 1 + pow2 (-22) * (IZR (2 ^ 32) * val freq / val sr))%R.
Proof.
  intros NP freq sr c Ff Fs Hs Hf _. exists (phase_step freq sr).
  split; [|split; [|now apply step_accuracy]].
  - unfold is_u32, phase_step, to_u32. pose proof (to_int_range 0 (2 ^ 32 - 1) (fmul freq (fdiv (of_int (2 ^ 32)) sr)) ltac:(lia)). lia.
  - unfold pa_next_value, pa_tick, pa_set_sr_unchecked, u32_wrapping_add. cbn [fst pa_counter pa_freq pa_shift pa_min_step].
    rewrite step_eq, Z.add_0_r, Z.mod_mod by lia. reflexivity.
Qed.
Print Assumptions C42_frequency_accuracy.

Example C42_example (NP : NanPolicy) :
  fst (pa_next_value (pa_set_sr_unchecked (PA 0 (of_int 1000) 0 (of_int 0)) (of_int 48000))) = 89478488.
Proof. vm_compute. reflexivity. Qed.

(** C43: what [set_freq] answers, for every f32. *)
Theorem C43_set_freq_answers : forall (NP : NanPolicy) (a : phase_acc) (freq : f32),
  let r := fst (pa_set_freq a freq) in
  (r = Err FreqZero <-> (fin freq = true /\ val freq = 0%R)) /\
  (r = Err FreqNegative <-> flt freq (of_int 0) = true) /\
  (r = Ok tt <-> (isnan freq = true \/ fgt freq (of_int 0) = true)) /\
  r <> Err BiggerThanNyquist.
Proof.
  intros NP a freq. cbv zeta. unfold pa_set_freq, fgt. destruct (of_int_exact 0 ltac:(lia)) as [F0 V0].
  assert (N0 : isnan (of_int 0) = false) by reflexivity.
  destruct (isnan freq) eqn:N.
  { rewrite feq_nan, !flt_nan by auto. cbn [fst]. repeat split; try discriminate; auto.
    intros [F _]. apply fin_notnan in F. congruence. }
  rewrite feq_ext, !flt_ext by auto. rewrite (ext_fin (of_int 0)), V0 by exact F0.
  assert (Ez : (fin freq = true /\ val freq = 0%R) <-> ext freq = 0%R).
  { destruct (not_nan_cases freq N) as [F|[-> | ->]].
    - rewrite ext_fin by exact F. tauto.
    - split; [intros [F _]; discriminate F|]. cbn. pose proof big_pos. lra.
    - split; [intros [F _]; discriminate F|]. cbn. pose proof big_pos. lra. }
  rewrite Ez. destruct (Req_bool_spec (ext freq) 0) as [E|E].
  - cbn [fst]. rewrite E. rewrite Rlt_bool_false by lra. repeat split; try discriminate; auto. intros [H|H]; discriminate.
  - destruct (Rlt_bool_spec (ext freq) 0) as [L|L].
    + rewrite Rlt_bool_false by lra. cbn [fst]. repeat split; try discriminate; auto; try contradiction. intros [H|H]; discriminate.
    + rewrite Rlt_bool_true by lra. cbn [fst]. repeat split; try discriminate; auto. intros H. contradiction.
Qed.
Print Assumptions C43_set_freq_answers.

(** C43: the call has no effect anyone can see: it moves the accumulator out of the
    caller's hands, and the moved value (which is where the new frequency went) is dropped.
    Modelled on a store of named accumulators: the call empties the name it is given and
    leaves all the others as they were. *)
Definition store := nat -> option phase_acc.
Definition call_set_freq {NP : NanPolicy} (st : store) (x : nat) (freq : f32)
  : option (result unit FrequencyError * store) :=
  match st x with
  | None => None                                  (* use of a moved value: rejected by the compiler *)
  | Some a => Some (fst (pa_set_freq a freq), fun y => if Nat.eqb y x then None else st y)
  end.
Theorem C43_set_freq_no_effect_refuted : forall (NP : NanPolicy) (st : store) (x : nat) (freq : f32) r st',
  call_set_freq st x freq = Some (r, st') ->
  st' x = None /\ (forall y, y <> x -> st' y = st y) /\
  (forall y a, st' y = Some a -> st y = Some a).
Proof.
  intros NP st x freq r st' H. unfold call_set_freq in H. destruct (st x) as [a|] eqn:E; [|discriminate].
  injection H as _ <-. rewrite Nat.eqb_refl. split; [reflexivity|]. split.
  - intros y Hy. destruct (Nat.eqb_spec y x); [contradiction|reflexivity].
  - intros y b. destruct (Nat.eqb_spec y x); [discriminate|auto].
Qed.
Print Assumptions C43_set_freq_no_effect_refuted.

Example C43_example (NP : NanPolicy) :
  fst (pa_set_freq (pa_new (of_int 1) (of_int 8)) (of_int 100)) = Ok tt /\
  fst (pa_set_freq (pa_new (of_int 1) (of_int 8)) (of_int (- 1))) = Err FreqNegative /\
  fst (pa_set_freq (pa_new (of_int 1) (of_int 8)) (fneg (of_int 0))) = Err FreqZero /\
  exists r st', call_set_freq (fun n => if Nat.eqb n 1 then Some (pa_new (of_int 1) (of_int 8)) else None) 1 (of_int 2) = Some (r, st').
Proof. split; [vm_compute; reflexivity|]. split; [vm_compute; reflexivity|]. split; [vm_compute; reflexivity|]. eexists. eexists. reflexivity. Qed.

(** ** The functional oscillator *)

(** C44: sawtooth. *)
Theorem C44_sawtooth : forall (NP : NanPolicy) (B : Build) (MO : MathOps f32) (o : fosc), fo_wave o = Sawtooth ->
  exists y, fo_next o = Ret (y, FO (snd (pa_next_value (fo_acc o))) Sawtooth) /\
    fin y = true /\ (-1 <= val y <= 1)%R /\
    val y = rnd (2 * val (fst (pa_next_value_normalized (fo_acc o))) - 1) /\
    (Rabs (val y - (2 * turn (next_phase (fo_acc o)) - 1)) <= pow2 (-23))%R.
Proof.
  intros NP B MO o Hw. unfold fo_next. rewrite Hw. unfold fo_next_saw. destruct (norm_next (fo_acc o)) as [E1 E2].
  destruct (pa_next_value_normalized (fo_acc o)) as [v a']. cbn [fst snd] in *. subst v a'. rewrite Hw.
  pose proof (next_phase_range (fo_acc o)) as Hz. destruct (saw_spec _ Hz) as [[F Bs] V].
  exists (saw_f (next_phase (fo_acc o))). split; [reflexivity|]. split; [exact F|]. split; [exact Bs|].
  split; [exact V|]. now apply saw_close.
Qed.
Print Assumptions C44_sawtooth.

Lemma tri_next (NP : NanPolicy) (B : Build) (MO : MathOps f32) (o : fosc) : fo_wave o = Triangle ->
  fo_next o = Ret (tri_f (next_phase (fo_acc o)), FO (snd (pa_next_value (fo_acc o))) Triangle).
Proof.
  intros Hw. unfold fo_next. rewrite Hw. unfold fo_next_tri, fo_next_saw. destruct (norm_next (fo_acc o)) as [E1 E2].
  destruct (pa_next_value_normalized (fo_acc o)) as [v a']. cbn [fst snd] in *. subst v a'. rewrite Hw.
  unfold tri_f, saw_f. destruct (is_sign_positive _); reflexivity.
Qed.

(** C44: triangle: in range, close to the ideal triangle for every phase. *)
Theorem C44_triangle : forall (NP : NanPolicy) (B : Build) (MO : MathOps f32) (o : fosc), fo_wave o = Triangle ->
  exists y, fo_next o = Ret (y, FO (snd (pa_next_value (fo_acc o))) Triangle) /\
    fin y = true /\ (-1 <= val y <= 1)%R /\
    (Rabs (val y - ideal_triangle (turn (next_phase (fo_acc o)))) <= pow2 (-21))%R.
Proof.
  intros NP B MO o Hw. pose proof (next_phase_range (fo_acc o)) as Hz. destruct (tri_spec _ Hz) as [[F Bs] _].
  exists (tri_f (next_phase (fo_acc o))). split; [now apply tri_next|]. split; [exact F|]. split; [exact Bs|]. now apply tri_close.
Qed.
Print Assumptions C44_triangle.

(** C44: for the phases that are multiples of 256 (normalised phase a multiple of 2^-24)
    both shapes are exact; so the triangle takes the same value at [v] and [1 - v]. *)
Theorem C44_exact_symmetric : forall (NP : NanPolicy) (B : Build) (MO : MathOps f32) (o o' : fosc) (k : Z),
  next_phase (fo_acc o) = 256 * k -> next_phase (fo_acc o') = 2 ^ 32 - 256 * k ->
  fo_wave o = Triangle -> fo_wave o' = Triangle ->
  exists y y' s s', fo_next o = Ret (y, s) /\ fo_next o' = Ret (y', s') /\ 
    val y = ideal_triangle (turn (256 * k)) /\ val y' = val y.
Proof.
  intros NP B MO o o' k Hk Hk' Hw Hw'.
  pose proof (next_phase_range (fo_acc o)) as Hz. pose proof (next_phase_range (fo_acc o')) as Hz'.
  rewrite Hk in Hz. rewrite Hk' in Hz'. unfold is_u32 in *.
  do 4 eexists. split; [now apply tri_next|]. split; [now apply tri_next|]. rewrite Hk, Hk'.
  replace (2 ^ 32 - 256 * k) with (256 * (2 ^ 24 - k)) by lia.
  destruct (tri_exact k ltac:(lia)) as [E1 _]. destruct (tri_exact (2 ^ 24 - k) ltac:(lia)) as [E2 _].
  split; [exact E1|]. rewrite E1, E2. unfold ideal_triangle.
  replace (4 * turn (256 * (2 ^ 24 - k)) - 2)%R with (- (4 * turn (256 * k) - 2))%R; [now rewrite Rabs_Ropp|].
  unfold turn. rewrite !mult_IZR, minus_IZR. change (IZR (2 ^ 32)) with 4294967296%R. change (IZR (2 ^ 24)) with 16777216%R. lra.
Qed.
Print Assumptions C44_exact_symmetric.

Example C44_example (NP : NanPolicy) :
  let o := FO (PA 0 (of_int 1) 0 (of_int (2 ^ 30))) Triangle in
  let o' := FO (PA (2 ^ 31) (of_int 1) 0 (of_int (2 ^ 30))) Triangle in
  next_phase (fo_acc o) = 256 * 2 ^ 22 /\ next_phase (fo_acc o') = 2 ^ 32 - 256 * 2 ^ 22 /\
  to_bits (fst (fo_next_tri o)) = to_bits (of_int 0).
Proof. vm_compute. repeat split; reflexivity. Qed.

(** C45: rectangle: -1, +1, and 3 for the 128 phases that normalise to one, with any floor
    routine that is right on small numbers. *)
Theorem C45_rectangle_refuted : forall (NP : NanPolicy) (B : Build) (MO : MathOps f32) (o : fosc),
  floor_ok MO -> fo_wave o = Rectangle ->
  let z := fst (pa_next_value (fo_acc o)) in
  let v := val (fst (pa_next_value_normalized (fo_acc o))) in
  exists y, fo_next o = Ret (y, FO (snd (pa_next_value (fo_acc o))) Rectangle) /\
    ((v < 1 / 2)%R -> y = of_int (-1)) /\
    ((1 / 2 <= v < 1)%R -> y = of_int 1) /\
    (v = 1%R -> y = of_int 3) /\
    (y = of_int (-1) <-> z < 2 ^ 31 - 64) /\
    (y = of_int 3 <-> 2 ^ 32 - 128 <= z).
Proof.
  intros NP B MO o HF Hw. cbv zeta. unfold fo_next. rewrite Hw. unfold fo_next_rect, fo_next_saw. destruct (norm_next (fo_acc o)) as [E1 E2].
  destruct (pa_next_value_normalized (fo_acc o)) as [v a']. cbn [fst snd] in *. subst v a'. rewrite Hw.
  pose proof (next_phase_range (fo_acc o)) as Hz.
  exists (rect_f (next_phase (fo_acc o))). split; [unfold rect_f, saw_f; reflexivity|].
  pose proof (rect_spec _ HF Hz) as R. change (fst (pa_next_value (fo_acc o))) with (next_phase (fo_acc o)).
  destruct (norm_half _ Hz) as [H1 H2]. destruct (norm_top _ Hz) as [T1 T2].
  pose proof (bpow_gt_0 radix2 (-24)) as P24. pose proof (bpow_gt_0 radix2 (-25)) as P25.
  assert (D : forall a b, Z.abs a <= 2 ^ 24 -> Z.abs b <= 2 ^ 24 -> of_int a = of_int b -> a = b).
  { intros a b Ha Hb E. destruct (of_int_exact a Ha) as [_ Va]. destruct (of_int_exact b Hb) as [_ Vb].
    apply eq_IZR. congruence. }
  generalize dependent (next_phase (fo_acc o)). intros z Hz R H1 H2 T1 T2. rewrite R. unfold is_u32 in Hz.
  destruct (Z.ltb_spec z (2 ^ 31 - 64)) as [L|L].
  - specialize (H2 L). repeat split; auto; try lra; try lia. intros E. apply D in E; lia.
  - specialize (H1 ltac:(lia)). destruct (Z.ltb_spec z (2 ^ 32 - 128)) as [L2|L2].
    + specialize (T2 L2). repeat split; auto; try lra; try lia; intros E; try (apply D in E; lia).
    + specialize (T1 ltac:(lia)). repeat split; auto; try lra; try lia; intros E; try (apply D in E; lia).
Qed.
Print Assumptions C45_rectangle_refuted.

Example C45_example (NP : NanPolicy) : floor_ok ref_math /\
  obits (match @fo_next NP dbg32 ref_math (FO (PA (2 ^ 32 - 100) (of_int 0) 0 (of_int 0)) Rectangle) with
         | Ret p => Ret (fst p) | Panic => Panic | UB => UB end) = Ret (to_bits (of_int 3)).
Proof. split; [apply ref_floor_ok|vm_compute; reflexivity]. Qed.

(** C46: sine range; [fixed_point_sin] for every f32 at all. *)
Theorem C46_fixed_point_sin_range : forall (NP : NanPolicy) (B : Build) (x : f32),
  exists v, fixed_point_sin x = Ret v /\ fin v = true /\ (rnd (-32768 / 32767) <= val v <= 1)%R.
Proof.
  intros NP B x. destruct (fixed_point_sin_ok x) as (p & Hp & _ & _ & E). eexists. split; [exact E|].
  assert (R : - 32768 <= sin_fixed p 4 <= 32767) by (unfold sin_fixed, clamp16; lia).
  destruct (div32767 _ R) as (F & V & L & U). split; [exact F|]. split; [exact L|].
  eapply Rle_trans; [exact U|]. apply rnd_le_repr; [apply (repr_int 1); lia|].
  assert (IZR (sin_fixed p 4) <= 32767)%R by (apply IZR_le; lia). lra.
Qed.
Print Assumptions C46_fixed_point_sin_range.

(** C46: sine oscillator: finite, in range, and within 1.6e-4 of the real sine of the
    32-bit phase, for every state. *)
Theorem C46_sine_oscillator : forall (NP : NanPolicy) (B : Build) (MO : MathOps f32) (o : fosc), fo_wave o = Sine ->
  exists y, fo_next o = Ret (y, FO (snd (pa_next_value (fo_acc o))) Sine) /\
    fin y = true /\ (rnd (-32768 / 32767) <= val y <= 1)%R /\
    (Rabs (val y - sin (2 * PI * turn (next_phase (fo_acc o)))) <= 16 / 100000)%R.
Proof.
  intros NP B MO o Hw. unfold fo_next. rewrite Hw. unfold fo_next_sine. destruct (norm_next (fo_acc o)) as [E1 E2].
  destruct (pa_next_value_normalized (fo_acc o)) as [v a']. cbn [fst snd] in *. subst v a'. rewrite Hw.
  pose proof (next_phase_range (fo_acc o)) as Hz. destruct (sine_close _ Hz) as (Fx & C & Bx).
  generalize dependent (lerp_unchecked (of_int 0) f_tau (norm_f (next_phase (fo_acc o)))). intros x Fx C Bx.
  destruct (C46_fixed_point_sin_range NP B x) as (y & E & Fy & By).
  destruct (fixed_point_sin_accuracy x Fx) as (y' & E' & _ & A). rewrite E in E'. injection E' as <-.
  exists y. rewrite E. cbn [bind]. split; [reflexivity|]. split; [exact Fy|]. split; [exact By|].
  pose proof (sin_lip (val x) (2 * PI * turn (next_phase (fo_acc o)))) as L.
  replace (pow2 (-22)) with (1 / 4194304)%R in A by (cbn; lra). rewrite (Rabs_right (val x)) in A by lra.
  assert (M := Rle_trans _ _ _ L C). apply Rabs_le_inv in M, A. apply Rabs_le. lra.
Qed.
Print Assumptions C46_sine_oscillator.

Example C46_example (NP : NanPolicy) :
  obits (match @fo_next NP dbg32 ref_math (fo_new (pa_new (of_int 12000) (of_int 48000))) with
         | Ret p => Ret (fst p) | Panic => Panic | UB => UB end) = Ret 1065352704.
Proof. vm_compute. reflexivity. Qed.

(** ** The wavetable oscillator *)

(** C47: with k the integer part of (table length as f32) * phase, [next] interpolates
    between samples k and k+1, which is inside the table iff k+1 < n; otherwise it reads
    past the end, undefined behaviour if the table ends its allocation. *)
Theorem C47_wavetable_reads : forall (NP : NanPolicy) (B : Build) (h : heap f32) (s : mslice) (l : list f32) (a : phase_acc),
  covers h s l ->
  let v := fst (pa_next_value_normalized a) in
  let x := fmul (of_int (ms_len s)) v in
  let k := Ztrunc (val x) in
  fin x = true /\ 0 <= k /\ val x = rnd (rnd (IZR (ms_len s)) * val v) /\
  (k + 1 < ms_len s -> exists p q, nthz l k = Some p /\ nthz l (k + 1) = Some q /\
     wo_next h (wo_new s a) = Ret (interpolation p q (fsub x (of_int k)), WO s (snd (pa_next_value a))) /\
     val (fsub x (of_int k)) = (val x - IZR k)%R) /\
  (ms_len s <= k + 1 -> ends_allocation h s -> wo_next h (wo_new s a) = UB).
Proof.
  intros NP B h s l a C. cbv zeta. unfold wo_next, wo_new. cbn [wo_table wo_acc]. destruct (norm_next a) as [E1 E2].
  destruct (pa_next_value_normalized a) as [v a']. cbn [fst snd] in *. subst v a'.
  pose proof (next_phase_range a) as Hz. destruct (norm_spec _ Hz) as [W _].
  pose proof (covers_len _ _ _ C) as [Hn Hm].
  destruct (table_pos (ms_len s) _ Hn Hm W) as (Fx & Px & Vx & Hk & Eu).
  generalize dependent (fmul (of_int (ms_len s)) (norm_f (next_phase a))). intros x Fx Px Vx Hk Eu.
  split; [exact Fx|]. split; [tauto|]. split; [exact Vx|].
  destruct (lerp_unchecked_at h s l x _ C Eu Hk) as [I O]. split.
  - intros L. destruct (I L) as (p & q & Hp & Hq & E). exists p, q. rewrite E. cbn [bind].
    split; [exact Hp|]. split; [exact Hq|]. split; [reflexivity|].
    destruct (frac_exact x (Ztrunc (val x)) Fx Px) as (_ & _ & _ & V & _); auto.
    pose proof usize_max_le. lia.
  - intros L He. rewrite (O L He). reflexivity.
Qed.
Print Assumptions C47_wavetable_reads.

(** C47: so for every table of at most 2^24 samples that ends its allocation, every phase
    from (n-1)/n on is undefined behaviour. *)
Theorem C47_wavetable_over_read_refuted : forall (NP : NanPolicy) (B : Build) (h : heap f32) (s : mslice) (l : list f32) (a : phase_acc),
  covers h s l -> ms_len s <= 2 ^ 24 -> ends_allocation h s ->
  (IZR (ms_len s) - 1 <= IZR (ms_len s) * val (fst (pa_next_value_normalized a)))%R ->
  wo_next h (wo_new s a) = UB.
Proof.
  intros NP B h s l a C Hn He Hv. destruct (C47_wavetable_reads NP B h s l a C) as (_ & _ & V & _ & O).
  apply O; [|exact He]. pose proof (covers_len _ _ _ C) as [H0 _].
  rewrite V. rewrite (rnd_repr (IZR (ms_len s))) by (apply repr_int; lia).
  assert (L : (IZR (ms_len s - 1) <= rnd (IZR (ms_len s) * val (fst (pa_next_value_normalized a))))%R).
  { apply rnd_ge_repr; [apply repr_int; lia|]. rewrite minus_IZR. exact Hv. }
  apply Ztrunc_le in L. rewrite Ztrunc_IZR in L. lia.
Qed.
Print Assumptions C47_wavetable_over_read_refuted.

(** C47: and where the allocation goes on behind the table, the sample behind the table is heard instead. *)
Theorem C47_foreign_sample_refuted : forall (NP : NanPolicy) (B : Build) (h : heap f32) (s : mslice) (l : list f32) (a : phase_acc) b o p q,
  covers h s l ->
  let x := fmul (of_int (ms_len s)) (fst (pa_next_value_normalized a)) in
  let k := Ztrunc (val x) in
  ms_len s <= k + 1 -> addr s k = Some (b, o) -> cell h b o = Some p -> cell h b (o + 1) = Some q ->
  wo_next h (wo_new s a) = Ret (interpolation p q (fsub x (of_int k)), WO s (snd (pa_next_value a))) /\
  forall i, 0 <= i < ms_len s -> addr s i <> Some (b, o + 1).
Proof.
  intros NP B h s l a b o p q C. cbv zeta. unfold wo_next, wo_new. cbn [wo_table wo_acc]. destruct (norm_next a) as [E1 E2].
  destruct (pa_next_value_normalized a) as [v a']. cbn [fst snd] in *. subst v a'.
  pose proof (next_phase_range a) as Hz. destruct (norm_spec _ Hz) as [W _].
  pose proof (covers_len _ _ _ C) as [Hn Hm].
  destruct (table_pos (ms_len s) _ Hn Hm W) as (Fx & Px & Vx & Hk & Eu).
  generalize dependent (fmul (of_int (ms_len s)) (norm_f (next_phase a))). intros x Fx Px Vx Hk Eu L A Hp Hq.
  set (k := Ztrunc (val x)) in *. clearbody k. unfold addr in A. destruct s as [[|b0 o0] n]; [discriminate|]. cbn [ms_ptr ms_len] in *.
  injection A as -> <-. split.
  - unfold ms_lerp_unchecked. rewrite Eu. rewrite (get_unchecked_cell h b o0 n k p Hp). cbn [bind].
    rewrite usize_add_ok by lia. cbn [bind].
    rewrite (get_unchecked_cell h b o0 n (k + 1) q) by (rewrite Z.add_assoc; exact Hq). reflexivity.
  - intros i Hi E. unfold addr in E. cbn [ms_ptr] in E. injection E as E. lia.
Qed.
Print Assumptions C47_foreign_sample_refuted.

Example C47_foreign_met (NP : NanPolicy) :
  let h := [[of_int 0; of_int 1; of_int 0; of_int (-1); of_int 9]] in let s := MS (PAt 0 0) 4 in
  @covers f32 dbg32 h s [of_int 0; of_int 1; of_int 0; of_int (-1)] /\
  obits (match @wo_next NP dbg32 h (wo_new s (pa_new (of_int 7) (of_int 8))) with
         | Ret p => Ret (fst p) | Panic => Panic | UB => UB end) = Ret (to_bits (of_int 4)).
Proof.
  cbv zeta. split; [|vm_compute; reflexivity].
  split; [reflexivity|]. split; [vm_compute; discriminate|]. exists [], [of_int 9]. split; reflexivity.
Qed.

Example C47_example (NP : NanPolicy) :
  let h := [[of_int 0; of_int 1; of_int 0; of_int (-1)]] in let s := MS (PAt 0 0) 4 in
  @covers f32 dbg32 h s [of_int 0; of_int 1; of_int 0; of_int (-1)] /\ ends_allocation h s /\
  obits (match @wo_next NP dbg32 h (wo_new s (pa_new (of_int 3) (of_int 8))) with
         | Ret p => Ret (fst p) | Panic => Panic | UB => UB end) = Ret (to_bits (lit 1 (-1))) /\
  obits (match @wo_next NP dbg32 h (wo_new s (pa_new (of_int 6) (of_int 8))) with
         | Ret p => Ret (fst p) | Panic => Panic | UB => UB end) = UB.
Proof.
  cbv zeta. split; [|split; [|split; vm_compute; reflexivity]].
  - split; [reflexivity|]. split; [vm_compute; discriminate|]. exists [], []. split; reflexivity.
  - eexists. split; reflexivity.
Qed.
