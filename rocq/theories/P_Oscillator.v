(** * Proofs about the phase accumulator and the oscillators. *)

From Coq Require Import ZArith List Bool Reals Lia Lra.
From Flocq Require Import Core Plus_error Mult_error.
From Verif Require Import Base F32 F32Lemmas F32Exact F32Ints F32Range F32Over Num M_Memory S_Memory P_Memory P_Lerp P_Interp
  M_Sine S_Sine P_Sine P_SineAcc P_SineFloat M_Oscillator S_Oscillator.
Import ListNotations.
Local Open Scope R_scope.

(** ** Constants *)

Lemma max_f : u32_max_f = of_int (2 ^ 32).
Proof. apply bits_inj. vm_compute. reflexivity. Qed.
Lemma isv_2_32 : isv (of_int (2 ^ 32)) (pow2 32).
Proof.
  destruct (of_int_spec (2 ^ 32) ltac:(lia)) as [F V]. split; [exact F|]. rewrite V.
  change (IZR (2 ^ 32)) with (pow2 32). apply rnd_repr, repr_bpow. lia.
Qed.
Lemma isv_tau : isv f_tau (13176795 / 2097152).
Proof. eapply isv_eq; [apply isv_lit; [reflexivity|lia]|]. cbn. lra. Qed.
Lemma pow32 : pow2 32 = 4294967296. Proof. reflexivity. Qed.

Section Acc.
Context {NP : NanPolicy}.

Lemma den_f : fadd u32_max_f (of_int 1) = of_int (2 ^ 32).
Proof. apply bits_inj. vm_compute. reflexivity. Qed.

(** ** Histories *)

Lemma step_eq f sr : to_u32 (fmul f (fdiv u32_max_f sr)) = phase_step f sr.
Proof. unfold phase_step. now rewrite max_f. Qed.

Lemma pa_run_new freq sr cs :
  forall c s, (0 <= c < 2 ^ 32)%Z ->
  pa_run (PA c freq s (fdiv u32_max_f sr)) cs =
  PA ((c + phase_sum freq sr cs) mod 2 ^ 32) (last_freq freq cs) (last_shift s cs) (fdiv u32_max_f (last_sr sr cs)).
Proof.
  revert freq sr. induction cs as [|x cs IH]; intros freq sr c s Hc.
  - cbn [pa_run fold_left phase_sum last_freq last_sr last_shift]. rewrite Z.add_0_r, Z.mod_small by exact Hc. reflexivity.
  - unfold pa_run. cbn [fold_left]. fold (pa_run (pa_call_step (PA c freq s (fdiv u32_max_f sr)) x) cs).
    destruct x; cbn [pa_call_step phase_sum last_freq last_sr last_shift];
      unfold pa_next_value, pa_next_value_normalized, pa_tick, pa_set_freq_unchecked, pa_set_sr_unchecked, pa_set_phase_shift;
      cbn [snd pa_counter pa_freq pa_shift pa_min_step].
    + rewrite step_eq. rewrite IH by (unfold u32_wrapping_add; apply Z.mod_pos_bound; lia).
      unfold u32_wrapping_add. rewrite Z.add_mod_idemp_l by lia. f_equal. f_equal. lia.
    + rewrite step_eq. rewrite IH by (unfold u32_wrapping_add; apply Z.mod_pos_bound; lia).
      unfold u32_wrapping_add. rewrite Z.add_mod_idemp_l by lia. f_equal. f_equal. lia.
    + now rewrite IH.
    + now rewrite IH.
    + now rewrite IH.
Qed.

Lemma phase_sum_app f sr cs ds :
  phase_sum f sr (cs ++ ds) = (phase_sum f sr cs + phase_sum (last_freq f cs) (last_sr sr cs) ds)%Z.
Proof.
  revert f sr. induction cs as [|x cs IH]; intros f sr; [reflexivity|].
  destruct x; cbn [app phase_sum last_freq last_sr]; rewrite IH; lia.
Qed.

Lemma next_phase_range a : is_u32 (next_phase a).
Proof. unfold next_phase, pa_next_value, is_u32. cbn [fst]. unfold u32_wrapping_add. apply Z.mod_pos_bound. lia. Qed.

(** ** The normalised phase *)

Definition norm_f (z : Z) : f32 := fdiv (of_int z) (of_int (2 ^ 32)).

Lemma norm_next a : fst (pa_next_value_normalized a) = norm_f (next_phase a) /\
  snd (pa_next_value_normalized a) = snd (pa_next_value a).
Proof. unfold pa_next_value_normalized. cbn [fst snd]. rewrite den_f. split; reflexivity. Qed.

Lemma repr_div32 z : (0 <= z)%Z -> repr (rnd (IZR z) / pow2 32).
Proof.
  intros Hz. unfold Rdiv. rewrite <- bpow_opp. 
  destruct (Z.eq_dec z 0) as [->|N].
  - rewrite rnd_0, Rmult_0_l. apply repr_0.
  - apply mult_bpow_exact_FLT; [apply repr_rnd|].
    assert (1 <= rnd (IZR z)).
    { apply rnd_ge_repr; [apply (repr_int 1); lia|]. apply (IZR_le 1). lia. }
    assert (1 <= mag radix2 (rnd (IZR z)))%Z; [|lia].
    apply mag_ge_bpow. rewrite Rabs_right by lra. cbn. lra.
Qed.

Lemma norm_spec z : is_u32 z -> within (norm_f z) 0 1 /\ val (norm_f z) = rnd (IZR z) / pow2 32.
Proof.
  intros [H0 H1]. destruct (of_int_spec z ltac:(lia)) as [Fz Vz]. destruct isv_2_32 as [F32 V32].
  assert (P : 0 < pow2 32) by apply bpow_gt_0.
  assert (B : 0 <= rnd (IZR z) <= pow2 32).
  { split; [apply rnd_pos; apply (IZR_le 0); lia|]. apply rnd_le_repr; [apply repr_bpow; lia|].
    change (pow2 32) with (IZR (2 ^ 32)). apply IZR_le. lia. }
  assert (Bq : 0 <= rnd (IZR z) / pow2 32 <= 1).
  { split; [apply Rmult_le_pos; [tauto|left; now apply Rinv_0_lt_compat]|].
    apply Rmult_le_reg_r with (pow2 32); [exact P|]. unfold Rdiv. rewrite Rmult_assoc, Rinv_l by lra. lra. }
  destruct (div_within (of_int z) (of_int (2 ^ 32)) 0 1) as [W V]; auto.
  - rewrite V32. lra.
  - apply repr_0.
  - apply (repr_int 1). lia.
  - pose proof big_pos. lra.
  - pose proof big_ge. lra.
  - rewrite Vz, V32. exact Bq.
  - split; [exact W|]. unfold norm_f. rewrite V, Vz, V32. apply rnd_repr. now apply repr_div32.
Qed.

Lemma norm_close z : is_u32 z -> Rabs (val (norm_f z) - turn z) <= pow2 (-25).
Proof.
  intros Hz. destruct (norm_spec z Hz) as [_ V]. rewrite V. unfold turn. change (IZR (2 ^ 32)) with (pow2 32).
  assert (E : Rabs (rnd (IZR z) - IZR z) <= pow2 (32 - 25)).
  { apply rnd_err_bpow; [lia|]. rewrite <- abs_IZR. change (pow2 32) with (IZR (2 ^ 32)). apply IZR_le.
    destruct Hz. lia. }
  change (pow2 (32 - 25)) with 128 in E. rewrite pow32. replace (pow2 (-25)) with (1 / 33554432) by (cbn; lra).
  apply Rabs_le_inv in E. apply Rabs_le. lra.
Qed.

Lemma of_int_mono a b c : of_int a = of_int b -> (Z.abs a < 2 ^ 127)%Z -> (Z.abs b < 2 ^ 127)%Z -> 
  repr (IZR b) -> ((c <= a)%Z -> rnd (IZR c) <= IZR b) /\ ((a <= c)%Z -> IZR b <= rnd (IZR c)).
Proof.
  intros E Ha Hb R. destruct (of_int_spec a Ha) as [_ Va]. destruct (of_int_spec b Hb) as [_ Vb].
  rewrite E in Va. rewrite Vb in Va. rewrite rnd_repr in Va by exact R. rewrite Va.
  split; intros H; apply rnd_le; now apply IZR_le.
Qed.

Lemma repr_big_int m e : (Z.abs m <= 2 ^ 24)%Z -> (0 <= e)%Z -> repr (IZR (m * 2 ^ e)).
Proof.
  intros Hm He. rewrite mult_IZR. change (IZR (2 ^ e)) with (IZR (Zpower radix2 e)). rewrite IZR_Zpower by exact He.
  apply repr_dy; lia.
Qed.

(** The two places where rounding to 24 bits crosses a boundary. *)
Lemma norm_top z : is_u32 z ->
  ((2 ^ 32 - 128 <= z)%Z -> val (norm_f z) = 1) /\ ((z < 2 ^ 32 - 128)%Z -> val (norm_f z) <= 1 - pow2 (-24)).
Proof.
  intros Hz. destruct (norm_spec z Hz) as [[_ Bv] V]. rewrite V in *. rewrite pow32 in *.
  replace (pow2 (-24)) with (1 / 16777216) by (cbn; lra). split; intros H.
  - destruct (of_int_mono (2 ^ 32 - 128) (2 ^ 32) z) as [_ M]; try lia.
    + apply bits_inj. vm_compute. reflexivity.
    + exact (repr_big_int 1 32 ltac:(lia) ltac:(lia)).
    + specialize (M H). change (IZR (2 ^ 32)) with 4294967296 in M. lra.
  - destruct (of_int_mono (2 ^ 32 - 129) (2 ^ 32 - 256) z) as [M _]; try lia.
    + apply bits_inj. vm_compute. reflexivity.
    + exact (repr_big_int 16777215 8 ltac:(lia) ltac:(lia)).
    + specialize (M ltac:(lia)). change (IZR (2 ^ 32 - 256)) with 4294967040 in M. lra.
Qed.
Lemma norm_half z : is_u32 z ->
  ((2 ^ 31 - 64 <= z)%Z -> 1 / 2 <= val (norm_f z)) /\ ((z < 2 ^ 31 - 64)%Z -> val (norm_f z) <= 1 / 2 - pow2 (-25)).
Proof.
  intros Hz. destruct (norm_spec z Hz) as [[_ Bv] V]. rewrite V in *. rewrite pow32 in *.
  replace (pow2 (-25)) with (1 / 33554432) by (cbn; lra). split; intros H.
  - destruct (of_int_mono (2 ^ 31 - 64) (2 ^ 31) z) as [_ M]; try lia.
    + apply bits_inj. vm_compute. reflexivity.
    + exact (repr_big_int 1 31 ltac:(lia) ltac:(lia)).
    + specialize (M H). change (IZR (2 ^ 31)) with 2147483648 in M. lra.
  - destruct (of_int_mono (2 ^ 31 - 65) (2 ^ 31 - 128) z) as [M _]; try lia.
    + apply bits_inj. vm_compute. reflexivity.
    + exact (repr_big_int 16777215 7 ltac:(lia) ltac:(lia)).
    + specialize (M ltac:(lia)). change (IZR (2 ^ 31 - 128)) with 2147483520 in M. lra.
Qed.

(** ** Saw, triangle, rectangle as functions of the phase *)

Definition saw_f (z : Z) : f32 := fsub (fmul (norm_f z) (of_int 2)) (of_int 1).

Lemma twice_exact x lo hi : within x lo hi -> -1 <= lo -> hi <= 1 -> isv (fmul x (of_int 2)) (2 * val x).
Proof.
  intros [Fx Bx] Hl Hh. rewrite (Rmult_comm 2). destruct (isv_int 2 ltac:(lia)) as [F2 V2].
  apply mul_exact; [now apply isv_self|split; [exact F2|exact V2]| |].
  - destruct (repr_form _ (repr_val x)) as (m & e & E & Hm & He). rewrite E.
    replace (IZR m * pow2 e * 2) with (IZR m * pow2 (e + 1)) by (rewrite bpow_plus; cbn; ring).
    apply repr_dy; lia.
  - pose proof big_ge. apply Rabs_lt. lra.
Qed.

Lemma saw_spec z : is_u32 z -> within (saw_f z) (-1) 1 /\ val (saw_f z) = rnd (2 * val (norm_f z) - 1).
Proof.
  intros Hz. destruct (norm_spec z Hz) as [W _]. pose proof W as [Fv Bv].
  destruct (twice_exact _ _ _ W ltac:(lra) ltac:(lra)) as [Fd Vd].
  destruct (isv_int 1 ltac:(lia)) as [F1 V1]. pose proof big_ge.
  destruct (sub_within (fmul (norm_f z) (of_int 2)) (of_int 1) (-1) 1) as [W2 V2]; auto; try lra.
  - apply (repr_int (-1)). lia.
  - apply (repr_int 1). lia.
  - split; [exact W2|]. unfold saw_f. now rewrite V2, V1, Vd.
Qed.

Lemma saw_close z : is_u32 z -> Rabs (val (saw_f z) - (2 * turn z - 1)) <= pow2 (-23).
Proof.
  intros Hz. destruct (saw_spec z Hz) as [_ V]. pose proof (norm_close z Hz) as C.
  destruct (norm_spec z Hz) as [[_ Bv] _].
  assert (E : Rabs (rnd (2 * val (norm_f z) - 1) - (2 * val (norm_f z) - 1)) <= pow2 (0 - 25)).
  { apply rnd_err_bpow; [lia|]. apply Rabs_le. cbn. lra. }
  rewrite V. replace (pow2 (0 - 25)) with (1 / 33554432) in E by (cbn; lra).
  replace (pow2 (-25)) with (1 / 33554432) in C by (cbn; lra). replace (pow2 (-23)) with (1 / 8388608) by (cbn; lra).
  apply Rabs_le_inv in E, C. apply Rabs_le. lra.
Qed.

Definition tri_f (z : Z) : f32 := 
  fsub (fmul (fsub (of_int 1) (if is_sign_positive (saw_f z) then saw_f z else fneg (saw_f z))) (of_int 2)) (of_int 1).

Lemma tri_spec z : is_u32 z -> within (tri_f z) (-1) 1 /\
  val (tri_f z) = rnd (2 * rnd (1 - Rabs (val (saw_f z))) - 1).
Proof.
  intros Hz. destruct (saw_spec z Hz) as [[Fs Bs] _]. unfold tri_f.
  set (w := if is_sign_positive (saw_f z) then saw_f z else fneg (saw_f z)).
  assert (W : fin w = true /\ val w = Rabs (val (saw_f z))).
  { unfold w, is_sign_positive. destruct (sgn (saw_f z)) eqn:S; cbn [negb].
    - rewrite fin_fneg, val_fneg. apply sgn_val_le in S. rewrite Rabs_left1 by exact S. auto.
    - apply sgn_val_ge in S. rewrite Rabs_right by lra. auto. }
  destruct W as [Fw Vw]. destruct (isv_int 1 ltac:(lia)) as [F1 V1]. pose proof big_ge.
  assert (BA : 0 <= Rabs (val (saw_f z)) <= 1) by (split; [apply Rabs_pos|apply Rabs_le; lra]).
  destruct (sub_within (of_int 1) w 0 1) as [W1 E1]; auto; try lra.
  { apply repr_0. } { apply (repr_int 1). lia. }
  destruct (twice_exact _ _ _ W1 ltac:(lra) ltac:(lra)) as [Fd Vd]. pose proof W1 as [_ B1].
  destruct (sub_within (fmul (fsub (of_int 1) w) (of_int 2)) (of_int 1) (-1) 1) as [W2 V2]; auto; try lra.
  { apply (repr_int (-1)). lia. } { apply (repr_int 1). lia. }
  split; [exact W2|]. rewrite V2, V1, Vd, E1, V1, Vw. reflexivity.
Qed.

Lemma tri_close z : is_u32 z -> Rabs (val (tri_f z) - ideal_triangle (turn z)) <= pow2 (-21).
Proof.
  intros Hz. destruct (tri_spec z Hz) as [[_ Bt] V]. pose proof (saw_close z Hz) as C.
  destruct (saw_spec z Hz) as [[_ Bs] _]. rewrite V. unfold ideal_triangle.
  replace (4 * turn z - 2) with (2 * (2 * turn z - 1)) by ring. rewrite Rabs_mult, (Rabs_right 2) by lra.
  assert (C2 : Rabs (Rabs (val (saw_f z)) - Rabs (2 * turn z - 1)) <= pow2 (-23)).
  { eapply Rle_trans; [apply Rabs_triang_inv2|exact C]. }
  assert (BA : 0 <= Rabs (val (saw_f z)) <= 1) by (split; [apply Rabs_pos|apply Rabs_le; lra]).
  generalize dependent (Rabs (val (saw_f z))). intros s V C2 BA.
  generalize dependent (Rabs (2 * turn z - 1)). intros u C2.
  assert (B1 : 0 <= rnd (1 - s) <= 1).
  { apply repr_between; [apply repr_0|apply (repr_int 1); lia|lra]. }
  assert (E1 : Rabs (rnd (1 - s) - (1 - s)) <= pow2 (0 - 25)).
  { apply rnd_err_bpow; [lia|]. apply Rabs_le. cbn. lra. }
  assert (E2 : Rabs (rnd (2 * rnd (1 - s) - 1) - (2 * rnd (1 - s) - 1)) <= pow2 (0 - 25)).
  { apply rnd_err_bpow; [lia|]. apply Rabs_le. cbn. lra. }
  replace (pow2 (0 - 25)) with (1 / 33554432) in E1, E2 by (cbn; lra).
  replace (pow2 (-23)) with (1 / 8388608) in C2 by (cbn; lra). replace (pow2 (-21)) with (1 / 2097152) by (cbn; lra).
  apply Rabs_le_inv in E1, E2, C2. apply Rabs_le. lra.
Qed.

(** Exact when the phase has at most 24 significant bits. *)
Lemma tri_exact k : (0 <= k < 2 ^ 24)%Z -> val (tri_f (256 * k)) = ideal_triangle (turn (256 * k)) /\
  val (saw_f (256 * k)) = 2 * turn (256 * k) - 1.
Proof.
  intros Hk. assert (Hz : is_u32 (256 * k)) by (unfold is_u32; lia).
  destruct (norm_spec _ Hz) as [_ Vn].
  assert (N : val (norm_f (256 * k)) = turn (256 * k)).
  { rewrite Vn. unfold turn. change (IZR (2 ^ 32)) with (pow2 32). f_equal. apply rnd_repr.
    rewrite Z.mul_comm. exact (repr_big_int k 8 ltac:(lia) ltac:(lia)). }
  assert (T : turn (256 * k) = IZR k * pow2 (-24)).
  { unfold turn. change (IZR (2 ^ 32)) with 4294967296. rewrite mult_IZR. cbn. lra. }
  assert (S : val (saw_f (256 * k)) = IZR (k - 2 ^ 23) * pow2 (-23)).
  { destruct (saw_spec _ Hz) as [_ ->]. rewrite N, T.
    replace (2 * (IZR k * pow2 (-24)) - 1) with (IZR (k - 2 ^ 23) * pow2 (-23)).
    - apply rnd_repr, repr_dy; lia.
    - rewrite minus_IZR. cbn. lra. }
  split.
  - destruct (tri_spec _ Hz) as [_ ->]. rewrite S. unfold ideal_triangle.
    rewrite Rabs_mult, (Rabs_right (pow2 (-23))) by (left; apply bpow_gt_0). rewrite <- abs_IZR.
    replace (1 - IZR (Z.abs (k - 2 ^ 23)) * pow2 (-23)) with (IZR (2 ^ 23 - Z.abs (k - 2 ^ 23)) * pow2 (-23))
      by (rewrite minus_IZR; cbn; lra).
    rewrite (rnd_repr (IZR (2 ^ 23 - Z.abs (k - 2 ^ 23)) * pow2 (-23))) by (apply repr_dy; lia).
    replace (2 * (IZR (2 ^ 23 - Z.abs (k - 2 ^ 23)) * pow2 (-23)) - 1)
      with (IZR (2 ^ 22 - Z.abs (k - 2 ^ 23)) * pow2 (-22)) by (rewrite !minus_IZR; cbn; lra).
    rewrite rnd_repr by (apply repr_dy; lia).
    rewrite T. replace (4 * (IZR k * pow2 (-24)) - 2) with (IZR (k - 2 ^ 23) * pow2 (-22))
      by (rewrite !minus_IZR; cbn; lra).
    rewrite Rabs_mult, (Rabs_right (pow2 (-22))) by (left; apply bpow_gt_0). rewrite <- abs_IZR.
    rewrite minus_IZR. cbn. lra.
  - rewrite S, T. rewrite minus_IZR. cbn. lra.
Qed.

Section Rect.
Context {MO : MathOps f32}.
Definition rect_f (z : Z) : f32 := fsub (fmul (m_floor (fadd (saw_f z) (of_int 1))) (of_int 2)) (of_int 1).

Lemma rect_of_floor x k : fin x = true -> (0 <= k <= 2)%Z -> val x = IZR k ->
  fsub (fmul x (of_int 2)) (of_int 1) = of_int (2 * k - 1).
Proof.
  intros Fx Hk E. assert (I : isv x (IZR k)) by (split; auto).
  pose proof (mul_int x (of_int 2) k 2 I (isv_int 2 ltac:(lia)) ltac:(lia)) as M.
  pose proof (sub_int _ (of_int 1) (k * 2) 1 M (isv_int 1 ltac:(lia)) ltac:(lia)) as [Fs Vs].
  replace (k * 2 - 1)%Z with (2 * k - 1)%Z in Vs by lia.
  destruct (isv_int (2 * k - 1) ltac:(lia)) as [Fi Vi].
  apply val_inj; auto; [congruence|]. rewrite Vs. apply not_0_IZR. lia.
Qed.

Lemma rect_spec z : floor_ok MO -> is_u32 z ->
  rect_f z = of_int (if (z <? 2 ^ 31 - 64)%Z then -1 else if (z <? 2 ^ 32 - 128)%Z then 1 else 3).
Proof.
  intros FO Hz. destruct (saw_spec z Hz) as [[Fs Bs] Vs]. destruct (isv_int 1 ltac:(lia)) as [F1 V1].
  pose proof big_ge. destruct (norm_spec z Hz) as [[_ Bv] _]. unfold rect_f.
  destruct (norm_half z Hz) as [H1 H2]. destruct (norm_top z Hz) as [T1 T2].
  (* the rounded value of saw + 1 between two representable bounds *)
  assert (G : forall lo hi : R, repr lo -> repr hi -> -1 <= lo -> hi <= 1 ->
     lo <= 2 * val (norm_f z) - 1 <= hi -> repr (lo + 1) -> repr (hi + 1) ->
     within (fadd (saw_f z) (of_int 1)) (lo + 1) (hi + 1)).
  { intros lo hi R1 R2 L1 L2 Hb R3 R4. 
    assert (lo <= val (saw_f z) <= hi) by (rewrite Vs; apply repr_between; tauto).
    apply add_within; auto; try lra. }
  assert (K : forall k, (0 <= k <= 2)%Z -> within (fadd (saw_f z) (of_int 1)) (IZR k) (IZR k + 1) ->
     val (fadd (saw_f z) (of_int 1)) < IZR k + 1 ->
     fsub (fmul (m_floor (fadd (saw_f z) (of_int 1))) (of_int 2)) (of_int 1) = of_int (2 * k - 1)).
  { intros k Hk [Fw Bw] Hlt. assert (0 <= IZR k <= 2) by (split; apply (IZR_le _ _); lia).
    destruct (FO (fadd (saw_f z) (of_int 1)) Fw) as [Ff Vf].
    - change (pow2 31) with 2147483648. apply Rabs_lt. lra.
    - apply rect_of_floor; auto. rewrite Vf. f_equal. apply Zfloor_imp. rewrite plus_IZR. split; [tauto|exact Hlt]. }
  assert (P24 : pow2 (-24) = 1 / 16777216) by (cbn; lra). assert (P25 : pow2 (-25) = 1 / 33554432) by (cbn; lra).
  assert (P23 : pow2 (-23) = 1 / 8388608) by (cbn; lra).
  destruct (Z.ltb_spec z (2 ^ 31 - 64)) as [L|L].
  - specialize (H2 L). destruct (G (-1) (- pow2 (-24))) as [Fg Bg].
    + apply (repr_int (-1)). lia.
    + apply repr_opp, repr_bpow. lia.
    + lra.
    + rewrite P24. lra.
    + rewrite P24, P25 in *. lra.
    + replace (-1 + 1) with 0 by ring. apply repr_0.
    + replace (- pow2 (-24) + 1) with (IZR (2 ^ 24 - 1) * pow2 (-24)) by (rewrite minus_IZR; cbn; lra). apply repr_dy; lia.
    + apply (K 0%Z); [lia| |]; [split; [exact Fg|]|]; rewrite P24 in *; lra.
  - specialize (H1 L). destruct (Z.ltb_spec z (2 ^ 32 - 128)) as [L2|L2].
    + specialize (T2 L2). destruct (G 0 (1 - pow2 (-23))) as [Fg Bg].
      * apply repr_0.
      * replace (1 - pow2 (-23)) with (IZR (2 ^ 23 - 1) * pow2 (-23)) by (rewrite minus_IZR; cbn; lra). apply repr_dy; lia.
      * lra.
      * rewrite P23. lra.
      * rewrite P23, P24 in *. lra.
      * rewrite Rplus_0_l. apply (repr_int 1). lia.
      * replace (1 - pow2 (-23) + 1) with (IZR (2 ^ 24 - 1) * pow2 (-23)) by (rewrite minus_IZR; cbn; lra). apply repr_dy; lia.
      * apply (K 1%Z); [lia| |]; [split; [exact Fg|]|]; rewrite P23 in *; lra.
    + specialize (T1 ltac:(lia)). destruct (G 1 1) as [Fg Bg]; try lra.
      * apply (repr_int 1). lia.
      * apply (repr_int 1). lia.
      * replace (1 + 1) with 2 by ring. apply (repr_int 2). lia.
      * replace (1 + 1) with 2 by ring. apply (repr_int 2). lia.
      * apply (K 2%Z); [lia| |]; [split; [exact Fg|]|]; lra.
Qed.
End Rect.

(** ** The argument handed to the sine *)

Lemma tau_lerp v : within v 0 1 -> exists y, lerp_unchecked (of_int 0) f_tau v = y /\ fin y = true /\
  val y = rnd (13176795 / 2097152 * val v).
Proof.
  intros [Fv Bv]. exists (lerp_unchecked (of_int 0) f_tau v). split; [reflexivity|].
  unfold lerp_unchecked. cbn [nadd nmul nsub num_f32]. change (@nint f32 num_f32 1) with (of_int 1).
  destruct (isv_int 0 ltac:(lia)) as [F0 V0]. destruct (isv_int 1 ltac:(lia)) as [F1 V1]. destruct isv_tau as [Ft Vt].
  pose proof big_ge.
  destruct (sub_within (of_int 1) v 0 1) as [[Fa Ba] _]; auto; try lra.
  { apply repr_0. } { apply (repr_int 1). lia. }
  destruct (mul_within (of_int 0) (fsub (of_int 1) v) 0 0) as [[Fm Bm] _]; auto; try lra.
  { apply repr_0. } { apply repr_0. } { rewrite V0. lra. }
  destruct (mul_within f_tau v 0 7) as [[Fn Bn] En]; auto; try lra.
  { apply repr_0. } { apply (repr_int 7). lia. } { rewrite Vt. split; nra. }
  destruct (add_within (fmul (of_int 0) (fsub (of_int 1) v)) (fmul f_tau v) 0 7) as [[Fr Br] Er]; auto; try lra.
  { apply repr_0. } { apply (repr_int 7). lia. }
  split; [exact Fr|]. rewrite Er. replace (val (fmul (of_int 0) (fsub (of_int 1) v))) with 0 by lra.
  rewrite Rplus_0_l, rnd_repr by apply repr_val. now rewrite En, Vt.
Qed.

Lemma sine_close z : is_u32 z ->
  fin (lerp_unchecked (of_int 0) f_tau (norm_f z)) = true /\
  Rabs (val (lerp_unchecked (of_int 0) f_tau (norm_f z)) - 2 * PI * turn z) <= 1 / 1000000 /\
  0 <= val (lerp_unchecked (of_int 0) f_tau (norm_f z)) <= 7.
Proof.
  intros Hz. destruct (norm_spec z Hz) as [W _]. destruct (tau_lerp _ W) as (y & -> & Fy & Vy).
  split; [exact Fy|]. pose proof (norm_close z Hz) as C. destruct W as [_ Bv]. pose proof PI_tight as HP.
  assert (E : Rabs (rnd (13176795 / 2097152 * val (norm_f z)) - 13176795 / 2097152 * val (norm_f z)) <= pow2 (3 - 25)).
  { apply rnd_err_bpow; [lia|]. apply Rabs_le. cbn. lra. }
  rewrite Vy. replace (pow2 (3 - 25)) with (1 / 4194304) in E by (cbn; lra).
  replace (pow2 (-25)) with (1 / 33554432) in C by (cbn; lra).
  assert (Tz : 0 <= turn z <= 1).
  { unfold turn. change (IZR (2 ^ 32)) with 4294967296. destruct Hz as [Z0 Z1].
    apply (IZR_le 0) in Z0. apply Z.lt_le_incl, IZR_le in Z1. change (IZR (2 ^ 32)) with 4294967296 in Z1. lra. }
  assert (D : Rabs ((13176795 / 2097152 - 2 * PI) * turn z) <= 1 / 5000000).
  { rewrite Rabs_mult, (Rabs_right (turn z)) by lra.
    apply Rle_trans with (1 / 5000000 * 1); [|lra]. apply Rmult_le_compat; try lra; [apply Rabs_pos|]. apply Rabs_le. lra. }
  split.
  - apply Rabs_le_inv in E, C, D. apply Rabs_le. lra.
  - apply repr_between; [apply repr_0|apply (repr_int 7); lia|]. lra.
Qed.

(** ** Frequencies *)

Lemma to_u32_sgn x : sgn x = true \/ isnan x = true -> to_u32 x = 0%Z.
Proof.
  intros H. unfold to_u32. destruct (fin x) eqn:F.
  - rewrite to_int_fin by exact F. destruct H as [S|N]; [|apply fin_notnan in F; congruence].
    apply sgn_val_le in S. apply Ztrunc_le in S. change (Ztrunc 0) with (Ztrunc (IZR 0)) in S. rewrite Ztrunc_IZR in S. lia.
  - destruct x as [s|s|s pl H'|s m e H']; try discriminate F; [|reflexivity].
    destruct H as [S|N]; [|discriminate N]. cbn in S. subst s. reflexivity.
Qed.

Lemma pos_sgn sr : fgt sr (of_int 0) = true -> sgn sr = false.
Proof.
  intros H. apply flt_true in H. destruct H as (_ & N & H). destruct (of_int_exact 0 ltac:(lia)) as [F0 V0].
  rewrite ext_fin, V0 in H by exact F0.
  destruct (not_nan_cases sr N) as [F|[-> | ->]].
  - rewrite ext_fin in H by exact F. now apply sgn_pos_val.
  - reflexivity.
  - cbn in H. pose proof big_pos. lra.
Qed.

Lemma fmul_zero_u32 x y : fin x = true -> val x = 0 -> to_u32 (fmul x y) = 0%Z.
Proof.
  intros Fx Vx. destruct (fin y) eqn:Fy.
  - destruct (fmul_spec x y Fx Fy) as [F V].
    { rewrite Vx, Rmult_0_l, rnd_0, Rabs_R0. apply big_pos. }
    unfold to_u32. rewrite to_int_fin by exact F. rewrite V, Vx, Rmult_0_l, rnd_0.
    change (Ztrunc 0) with (Ztrunc (IZR 0)). rewrite Ztrunc_IZR. reflexivity.
  - assert (E : exists s, x = Binary.B754_zero 24 128 s).
    { destruct x as [s|s|s pl H'|s m e H']; try discriminate Fx; [now exists s|].
      exfalso. unfold val in Vx. simpl in Vx. apply eq_0_F2R in Vx. destruct s; discriminate Vx. }
    destruct E as [s ->]. apply to_u32_sgn. right.
    destruct y as [s'|s'|s' pl H'|s' m e H']; try discriminate Fy;
      unfold fmul, Binary.Bmult; rewrite isnan_BSN2B; reflexivity.
Qed.

Lemma step_frozen freq sr : isnan freq = true \/ fle freq (of_int 0) = true -> fgt sr (of_int 0) = true ->
  phase_step freq sr = 0%Z.
Proof.
  intros H Hs. apply pos_sgn in Hs. unfold phase_step. destruct H as [N|L].
  - apply to_u32_sgn. right. apply fmul_nan. now left.
  - apply fle_true in L. destruct L as (N & _ & L). destruct (of_int_exact 0 ltac:(lia)) as [F0 V0].
    rewrite (ext_fin (of_int 0)), V0 in L by exact F0.
    assert (C : sgn freq = true \/ (fin freq = true /\ val freq = 0)).
    { destruct (not_nan_cases freq N) as [F|[-> | ->]].
      - rewrite ext_fin in L by exact F. destruct (Rle_lt_or_eq_dec _ _ L) as [L'|E]; [|now right].
        left. now apply sgn_neg_val.
      - cbn in L. pose proof big_pos. lra.
      - now left. }
    destruct C as [S|[F E]]; [|now apply fmul_zero_u32].
    set (m := fdiv (of_int (2 ^ 32)) sr).
    destruct (isnan (fmul freq m)) eqn:Nm; [apply to_u32_sgn; now right|].
    apply to_u32_sgn. left. rewrite fmul_sgn by exact Nm. rewrite S.
    destruct (isnan m) eqn:Nd.
    + rewrite fmul_nan in Nm by (now right). discriminate.
    + unfold m in *. rewrite fdiv_sgn by exact Nd. rewrite Hs. reflexivity.
Qed.

(** Shape of the step size for a positive finite rate. *)
Lemma min_step_cases sr : fin sr = true -> 0 < val sr ->
  fdiv (of_int (2 ^ 32)) sr = f_inf \/
  (fin (fdiv (of_int (2 ^ 32)) sr) = true /\ 0 < val (fdiv (of_int (2 ^ 32)) sr) /\
   Rabs (val (fdiv (of_int (2 ^ 32)) sr) - pow2 32 / val sr) <= pow2 (-24) * (pow2 32 / val sr)).
Proof.
  intros Fs Ps. destruct isv_2_32 as [F V].
  destruct (fdiv_cases (of_int (2 ^ 32)) sr F Fs ltac:(lra)) as [(_ & Fd & Vd & _)|[_ E]].
  - right. split; [exact Fd|]. rewrite Vd, V.
    assert (Q : pow2 (-96) < pow2 32 / val sr).
    { pose proof (val_lt_big sr) as Hb. rewrite Rabs_right in Hb by lra. unfold big in Hb.
      apply Rmult_lt_reg_r with (val sr); [exact Ps|]. unfold Rdiv. rewrite Rmult_assoc, Rinv_l, Rmult_1_r by lra.
      replace (pow2 32) with (pow2 (-96) * pow2 128) by (rewrite <- bpow_plus; reflexivity).
      apply Rmult_lt_compat_l; [apply bpow_gt_0|exact Hb]. }
    assert (E : Rabs (rnd (pow2 32 / val sr) - pow2 32 / val sr) <= pow2 (-24) * (pow2 32 / val sr)).
    { pose proof (bpow_gt_0 radix2 (-96)) as P96. rewrite <- (Rabs_right (pow2 32 / val sr)) at 3 by lra.
      apply rnd_err_rel. rewrite Rabs_right by lra. apply Rle_trans with (pow2 (-96)); [apply bpow_le; lia|lra]. }
    split; [|exact E]. apply Rlt_le_trans with (pow2 (-96)); [apply bpow_gt_0|].
    apply rnd_ge_repr; [apply repr_bpow; lia|lra].
  - left. rewrite E. destruct (of_int_exact 0 ltac:(lia)). rewrite (sgn_pos_val sr Fs Ps).
    rewrite (sgn_pos_val _ F) by (rewrite V; apply bpow_gt_0). reflexivity.
Qed.

Lemma to_u32_big x : x = f_inf \/ (fin x = true /\ pow2 32 <= val x) -> to_u32 x = (2 ^ 32 - 1)%Z.
Proof.
  intros [->|[F H]]; [reflexivity|]. unfold to_u32. rewrite to_int_fin by exact F.
  apply Ztrunc_le in H. change (pow2 32) with (IZR (2 ^ 32)) in H. rewrite Ztrunc_IZR in H. lia.
Qed.

Lemma fmul_inf x : fin x = true -> 0 < val x -> fmul x f_inf = f_inf.
Proof.
  intros F P. pose proof (sgn_pos_val x F P) as S.
  destruct x as [s|s|s pl H|s m e H]; try discriminate F.
  - unfold val in P. cbn in P. lra.
  - cbn in S. subst s. reflexivity.
Qed.

Lemma step_saturates freq sr : fin freq = true -> fin sr = true -> 0 < val sr ->
  (1 + pow2 (-22)) * val sr <= val freq -> phase_step freq sr = (2 ^ 32 - 1)%Z.
Proof.
  intros Ff Fs Ps H. assert (P22 : pow2 (-22) = 1 / 4194304) by (cbn; lra).
  assert (Pf : 0 < val freq) by (rewrite P22 in H; lra).
  unfold phase_step. apply to_u32_big. destruct (min_step_cases sr Fs Ps) as [->|(Fd & Pd & E)].
  - left. now apply fmul_inf.
  - set (m := fdiv (of_int (2 ^ 32)) sr) in *.
    assert (Q : pow2 32 <= val freq * val m).
    { replace (pow2 (-24)) with (1 / 16777216) in E by (cbn; lra). apply Rabs_le_inv in E.
      assert (Hm : (1 - 1 / 16777216) * (pow2 32 / val sr) <= val m) by lra.
      apply Rle_trans with (val freq * ((1 - 1 / 16777216) * (pow2 32 / val sr))); [|apply Rmult_le_compat_l; lra].
      apply Rle_trans with ((1 + pow2 (-22)) * val sr * ((1 - 1 / 16777216) * (pow2 32 / val sr))).
      - replace ((1 + pow2 (-22)) * val sr * ((1 - 1 / 16777216) * (pow2 32 / val sr)))
          with ((1 + pow2 (-22)) * (1 - 1 / 16777216) * pow2 32) by (field; lra).
        rewrite P22, pow32. lra.
      - apply Rmult_le_compat_r; [|exact H]. apply Rmult_le_pos; [lra|]. unfold Rdiv.
        apply Rmult_le_pos; [apply bpow_ge_0|]. left. now apply Rinv_0_lt_compat. }
    destruct (fmul_cases freq m Ff Fd) as [(_ & Fm & Vm & _)|[_ Em]].
    + right. split; [exact Fm|]. rewrite Vm. apply rnd_ge_repr; [apply repr_bpow; lia|exact Q].
    + left. rewrite Em, (sgn_pos_val freq Ff Pf), (sgn_pos_val m Fd Pd). reflexivity.
Qed.

Lemma step_accuracy freq sr : fin freq = true -> fin sr = true -> 1 <= val sr <= pow2 24 ->
  0 <= val freq <= val sr ->
  Rabs (IZR (phase_step freq sr) - pow2 32 * val freq / val sr) <= 1 + pow2 (-22) * (pow2 32 * val freq / val sr).
Proof.
  intros Ff Fs Hs Hf. set (I := pow2 32 * val freq / val sr).
  assert (P22 : pow2 (-22) = 1 / 4194304) by (cbn; lra).
  assert (P24 : pow2 (-24) = 1 / 16777216) by (cbn; lra).
  assert (HI : 0 <= I <= pow2 32).
  { unfold I. split.
    - unfold Rdiv. apply Rmult_le_pos; [apply Rmult_le_pos; [apply bpow_ge_0|lra]|]. left. apply Rinv_0_lt_compat. lra.
    - apply Rmult_le_reg_r with (val sr); [lra|]. unfold Rdiv. rewrite Rmult_assoc, Rinv_l, Rmult_1_r by lra.
      apply Rmult_le_compat_l; [apply bpow_ge_0|lra]. }
  destruct (min_step_cases sr Fs ltac:(lra)) as [E|(Fd & Pd & E)].
  { exfalso. destruct isv_2_32 as [F V]. 
    assert (Q : 0 <= pow2 32 / val sr <= pow2 32).
    { split; [unfold Rdiv; apply Rmult_le_pos; [apply bpow_ge_0|left; apply Rinv_0_lt_compat; lra]|].
      apply Rmult_le_reg_r with (val sr); [lra|]. unfold Rdiv. rewrite Rmult_assoc, Rinv_l, Rmult_1_r by lra.
      rewrite <- (Rmult_1_r (pow2 32)) at 1. apply Rmult_le_compat_l; [apply bpow_ge_0|lra]. }
    pose proof big_pos. pose proof big_ge.
    destruct (div_within (of_int (2 ^ 32)) sr 0 (pow2 32)) as [[Fq _] _]; auto; try lra.
    - apply repr_0.
    - apply repr_bpow. lia.
    - unfold big. apply bpow_lt. lia.
    - rewrite V. exact Q.
    - rewrite E in Fq. discriminate. }
  unfold phase_step. set (m := fdiv (of_int (2 ^ 32)) sr) in *.
  assert (Em : Rabs (val freq * val m - I) <= 1 / 16777216 * I).
  { replace (val freq * val m - I) with (val freq * (val m - pow2 32 / val sr)) by (unfold I; field; lra).
    rewrite Rabs_mult, (Rabs_right (val freq)) by lra.
    apply Rle_trans with (val freq * (pow2 (-24) * (pow2 32 / val sr))); [apply Rmult_le_compat_l; lra|].
    right. unfold I. rewrite P24. field. lra. }
  assert (P0 : 0 <= val freq * val m) by (apply Rmult_le_pos; lra).
  rewrite pow32 in HI. apply Rabs_le_inv in Em.
  assert (Bp : Rabs (val freq * val m) <= pow2 33).
  { replace (pow2 33) with 8589934592 by reflexivity. apply Rabs_le. lra. }
  assert (B33 : pow2 33 < big) by (unfold big; apply bpow_lt; lia).
  destruct (fmul_bnd freq m (pow2 33) Ff Fd (repr_bpow 33 ltac:(lia)) B33 Bp) as (Fp & Vp & _).
  pose proof (rnd_err (val freq * val m)) as R. rewrite (Rabs_right (val freq * val m)) in R by lra.
  pose proof (rnd_pos _ P0) as Rp. rewrite <- Vp in R, Rp. rewrite P24 in R. rewrite P22.
  assert (T150 : pow2 (-150) <= pow2 (-40)) by (apply bpow_le; lia).
  unfold to_u32. rewrite to_int_fin by exact Fp.
  set (y := val (fmul freq m)) in *. clearbody y.
  pose proof (Ztrunc_bounds_pos y Rp) as Ty.
  assert (T0 : (0 <= Ztrunc y)%Z) by (apply le_IZR; assert (-1 < IZR (Ztrunc y)) by lra; apply IZR_le; apply (lt_IZR (-1)) in H; lia).
  destruct (Z.le_gt_cases (Ztrunc y) (2 ^ 32 - 1)) as [L|L].
  - rewrite Z.min_r, Z.max_r by lia.
    (* tiny increments truncate to zero; otherwise the absolute term is absorbed *)
    destruct (Rlt_le_dec I (1 / 2)) as [S|S].
    + assert (Z0 : Ztrunc y = 0%Z).
      { assert (y < 1) by (replace (pow2 (-40)) with (1 / 1099511627776) in T150 by (cbn; lra); apply Rabs_le_inv in R; lra).
        rewrite Ztrunc_floor by exact Rp. apply Zfloor_imp. cbn. lra. }
      rewrite Z0. apply Rabs_le. lra.
    + replace (pow2 (-40)) with (1 / 1099511627776) in T150 by (cbn; lra). apply Rabs_le_inv in R. apply Rabs_le. lra.
  - rewrite Z.min_l, Z.max_r by lia. assert (Y : 4294967296 <= y).
    { apply Rle_trans with (IZR (Ztrunc y)); [|lra]. apply (IZR_le 4294967296). lia. }
    replace (pow2 (-40)) with (1 / 1099511627776) in T150 by (cbn; lra). apply Rabs_le_inv in R.
    change (IZR (2 ^ 32 - 1)) with 4294967295. apply Rabs_le. lra.
Qed.
End Acc.

(** ** The wavetable oscillator *)
Section Table.
Context {NP : NanPolicy} {B : Build}.

Lemma get_past_end h s l i : covers h s l -> ends_allocation h s -> (ms_len s <= i)%Z -> get_unchecked h s i = UB.
Proof.
  intros (Hl & Hm & Hp) He Hi. unfold get_unchecked, ptr_add, ends_allocation in *.
  destruct (ms_ptr s) as [|b o].
  - destruct (Z.eqb_spec i 0); reflexivity.
  - destruct He as (blk & Hb & Ho). rewrite Hb.
    destruct ((0 <=? o + i)%Z && (o + i <=? Z.of_nat (length blk))%Z) eqn:E; [|reflexivity]. cbn [bind ptr_read].
    unfold cell. rewrite Hb. rewrite nthz_None by lia. reflexivity.
Qed.

Lemma table_pos n v : (0 <= n)%Z -> (4 * n <= isize_max)%Z -> within v 0 1 ->
  fin (fmul (of_int n) v) = true /\ 0 <= val (fmul (of_int n) v) /\
  val (fmul (of_int n) v) = rnd (rnd (IZR n) * val v) /\
  (0 <= Ztrunc (val (fmul (of_int n) v)) <= usize_max - 1)%Z /\ n_usize (fmul (of_int n) v) = Ztrunc (val (fmul (of_int n) v)).
Proof.
  intros H0 Hn [Fv Bv].
  assert (E : exists e, (0 <= e <= 61)%Z /\ (n <= 2 ^ e)%Z /\ (2 ^ e <= usize_max - 1)%Z).
  { unfold isize_max, usize_max, usize_mod, usize_bits in *. destruct ptr_w; [exists 13%Z|exists 29%Z|exists 61%Z]; lia. }
  destruct E as (e & He & Hne & Hu).
  destruct (of_int_spec n ltac:(assert (2 ^ e <= 2 ^ 61)%Z by (apply Z.pow_le_mono_r; lia); lia)) as [Fn Vn].
  assert (Bn : 0 <= rnd (IZR n) <= pow2 e).
  { apply repr_between; [apply repr_0|apply repr_bpow; lia|]. split; [now apply (IZR_le 0)|].
    rewrite <- IZR_Zpower by lia. now apply IZR_le. }
  pose proof big_pos.
  destruct (mul_within (of_int n) v 0 (pow2 e)) as [[Fm Bm] Vm]; auto.
  - apply repr_0.
  - apply repr_bpow. lia.
  - lra.
  - unfold big. apply bpow_lt. lia.
  - rewrite Vn. split; [apply Rmult_le_pos; lra|]. rewrite <- (Rmult_1_r (pow2 e)). apply Rmult_le_compat; lra.
  - split; [exact Fm|]. split; [tauto|]. split; [now rewrite Vm, Vn|].
    rewrite <- IZR_Zpower in Bm by lia.
    pose proof (trunc_between 0 (2 ^ e) _ Bm) as T. split; [lia|]. apply n_usize_fin; [exact Fm|tauto|lia].
Qed.

Lemma lerp_unchecked_at h s l x k : covers h s l -> n_usize x = k -> (0 <= k <= usize_max - 1)%Z ->
  ((k + 1 < ms_len s)%Z -> exists p q, nthz l k = Some p /\ nthz l (k + 1) = Some q /\
     ms_lerp_unchecked h s x = Ret (lerp_unchecked p q (fsub x (of_int k)))) /\
  ((ms_len s <= k + 1)%Z -> ends_allocation h s -> ms_lerp_unchecked h s x = UB).
Proof.
  intros C Ek Hk. unfold ms_lerp_unchecked. rewrite Ek. pose proof C as (Hl & _). split.
  - intros L. destruct (nthz_ex l k ltac:(lia)) as [p Hp]. destruct (nthz_ex l (k + 1) ltac:(lia)) as [q Hq].
    exists p, q. split; [exact Hp|]. split; [exact Hq|].
    rewrite (get_unchecked_ok h s l k p C Hp). cbn [bind]. rewrite usize_add_ok by lia. cbn [bind].
    rewrite (get_unchecked_ok h s l (k + 1) q C Hq). reflexivity.
  - intros L He. destruct (Z.lt_ge_cases k (ms_len s)) as [K|K].
    + destruct (nthz_ex l k ltac:(lia)) as [p Hp]. rewrite (get_unchecked_ok h s l k p C Hp). cbn [bind].
      rewrite usize_add_ok by lia. cbn [bind]. rewrite (get_past_end h s l (k + 1) C He L). reflexivity.
    + rewrite (get_past_end h s l k C He K). reflexivity.
Qed.
End Table.
