(** * Theorems: fixed-point sine, sine table, float sine (C36-C38, C80-C82). *)

From Coq Require Import ZArith List Bool Reals Lia Lra.
From Flocq Require Import Core.
From Verif Require Import Base F32 F32Lemmas F32Exact F32Range Num M_Memory M_Sine S_Sine P_Interp P_Sine P_SineAcc P_SineFloat Examples.
Import ListNotations.
Open Scope Z_scope.

(** ** The fixed-point polynomial *)

(** C36: for every phase and degree the result is the polynomial in unbounded integers,
    so no step overflows in any build; degrees above 4 act as 4 in the checked function
    and panic in the unchecked one. *)
Theorem C36_sin_i16_exact : forall (B : Build) (phase degree : Z), is_i16 phase -> is_u8 degree ->
  sin_i16 phase degree = Ret (sin_fixed phase (Z.to_nat (Z.min degree 4))) /\
  is_i16 (sin_fixed phase (Z.to_nat (Z.min degree 4))) /\
  (degree <= 4 -> sin_i16_unchecked phase degree = sin_i16 phase degree) /\
  (4 < degree -> sin_i16_unchecked phase degree = Panic).
Proof.
  intros B p d Hp Hd. unfold is_u8 in Hd. unfold sin_i16.
  destruct (Z.ltb_spec 4 d) as [L|L].
  - rewrite Z.min_r by lia. destruct (sin_ok p 4 Hp ltac:(lia)) as [E R].
    split; [exact E|]. split; [exact R|]. split; [lia|]. intros _. apply sin_panics; lia.
  - rewrite Z.min_l by lia. destruct (sin_ok p d Hp ltac:(lia)) as [E R].
    split; [exact E|]. split; [exact R|]. split; [reflexivity|lia].
Qed.
Print Assumptions C36_sin_i16_exact.

Example C36_example : is_i16 12345 /\ is_u8 9 /\ @sin_i16 dbg32 12345 9 = Ret 18279 /\
  @sin_i16 dbg32 (- 32768) 0 = Ret (- 32768) /\ @sin_i16_unchecked rel64 12345 9 = Panic.
Proof. repeat split; try lia; reflexivity. Qed.

(** C37: degree 4 follows the real sine of the phase (32767 is a quarter turn) within 3.11
    units below and 0.34 above, for every phase. *)
Theorem C37_sin_i16_accuracy : forall (B : Build) (p : Z), is_i16 p ->
  exists s : Z, sin_i16 p 4 = Ret s /\
    (- (311 / 100) <= IZR s - 32767 * sin (PI / 2 * (IZR p / 32767)) <= 34 / 100)%R.
Proof.
  intros B p Hp. exists (sin_fixed p 4). split; [exact (proj1 (sin_ok p 4 Hp ltac:(lia)))|].
  unfold is_i16 in Hp. apply sin_accuracy. lia.
Qed.
Print Assumptions C37_sin_i16_accuracy.

(** C37, oddness: the values at opposite phases cancel up to 3 units, downwards only,
    at every degree. *)
Theorem C37_sin_i16_odd : forall (B : Build) (p d : Z), is_i16 p -> is_i16 (- p) -> 0 <= d <= 4 ->
  exists a b : Z, sin_i16 p d = Ret a /\ sin_i16 (- p) d = Ret b /\ - 3 <= a + b <= 0.
Proof.
  intros B p d Hp Hn Hd. exists (sin_fixed p (Z.to_nat d)), (sin_fixed (- p) (Z.to_nat d)).
  unfold sin_i16. destruct (Z.ltb_spec 4 d); [lia|].
  split; [exact (proj1 (sin_ok p d Hp Hd))|]. split; [exact (proj1 (sin_ok (- p) d Hn Hd))|].
  unfold is_i16 in *.
  assert (G : forall q, 0 <= q < 32768 -> - 3 <= sin_fixed q (Z.to_nat d) + sin_fixed (- q) (Z.to_nat d) <= 0).
  { intros q Hq. apply sin_fixed_odd; lia. }
  destruct (Z.le_gt_cases 0 p) as [L|L]; [apply G; lia|].
  specialize (G (- p) ltac:(lia)). rewrite Z.opp_involutive in G. lia.
Qed.
Print Assumptions C37_sin_i16_odd.

(** C37, order: a later phase never falls more than 3 units below an earlier one. *)
Theorem C37_sin_i16_near_monotone : forall (B : Build) (p q : Z), is_i16 p -> is_i16 q -> p <= q ->
  exists a b : Z, sin_i16 p 4 = Ret a /\ sin_i16 q 4 = Ret b /\ a - 3 <= b.
Proof.
  intros B p q Hp Hq L. exists (sin_fixed p 4), (sin_fixed q 4).
  split; [exact (proj1 (sin_ok p 4 Hp ltac:(lia)))|]. split; [exact (proj1 (sin_ok q 4 Hq ltac:(lia)))|].
  unfold is_i16 in *. apply sin_fixed_drop; lia.
Qed.
Print Assumptions C37_sin_i16_near_monotone.

Example C37_example : is_i16 16384 /\ is_i16 (- 16384) /\
  @sin_i16 dbg32 16384 4 = Ret 23170 /\ @sin_i16 dbg32 (- 16384) 4 = Ret (- 23171).
Proof. repeat split; try lia; reflexivity. Qed.

(** ** The table *)

(** C38: [sine_table::<N>()] is total for every length a [u16] can hold, and lists the
    degree-4 sine at the phases [index * (65535 / N) - 32767]. *)
Theorem C38_sine_table : forall (B : Build) (N : Z), 1 <= N <= 65535 ->
  exists t, sine_table N = Ret t /\ Z.of_nat (length t) = N /\
    forall i : nat, Z.of_nat i < N ->
      is_i16 (Z.of_nat i * (65535 / N) - 32767) /\
      exists s, nth_error t i = Some s /\ sin_i16 (Z.of_nat i * (65535 / N) - 32767) 4 = Ret s.
Proof.
  intros B N HN. pose proof (sine_table_ok N HN) as E. eexists. split; [exact E|].
  split; [rewrite map_length, seq_length; lia|].
  intros i Hi. assert (R : is_i16 (Z.of_nat i * (65535 / N) - 32767)).
  { assert (H1 : N * (65535 / N) <= 65535) by (apply Z.mul_div_le; lia).
    assert (H2 : 0 <= 65535 / N) by (apply Z.div_pos; lia). unfold is_i16. nia. }
  split; [exact R|]. eexists. split; [|exact (proj1 (sin_ok _ 4 R ltac:(lia)))].
  rewrite nth_error_map, (nth_error_nth' _ 0%nat) by (rewrite seq_length; lia).
  rewrite seq_nth by lia. reflexivity.
Qed.
Print Assumptions C38_sine_table.

(** The library's own table (length 4096) stops at phase 28658 of 32767: its entries stay
    below 0.981 of full scale. *)
Theorem C38_table_4096_short_refuted : forall (B : Build) (t : list Z), sine_table 4096 = Ret t ->
  (forall i s, nth_error t i = Some s -> - 32768 <= s <= 32136) /\ nth_error t 4095 = Some 32133.
Proof.
  intros B t Ht.
  assert (T : forall i, 0 <= i < 4096 -> table_index t i = Ret (entry i) /\ Z.of_nat (length t) = 4096).
  { intros i Hi. exact (table_nth 4096 i ltac:(lia) Hi t Ht). }
  assert (Len : Z.of_nat (length t) = 4096) by (apply (T 0); lia).
  assert (G : forall i : nat, Z.of_nat i < 4096 -> nth_error t i = Some (entry (Z.of_nat i))).
  { intros i Hi. destruct (T (Z.of_nat i) ltac:(lia)) as [E _]. unfold table_index, nthz in E.
    destruct (Z.ltb_spec (Z.of_nat i) 0); [lia|]. rewrite Nat2Z.id in E.
    destruct (nth_error t i); [|discriminate]. now injection E as ->. }
  split.
  - intros i s H. assert (Hi : (i < length t)%nat) by (apply nth_error_Some; congruence).
    rewrite G in H by lia. injection H as <-. apply entry_bounds. lia.
  - replace 4095%nat with (Z.to_nat 4095) by reflexivity. rewrite G by lia. rewrite Z2Nat.id by lia.
    vm_compute. reflexivity.
Qed.
Print Assumptions C38_table_4096_short_refuted.

(** C38: [lookup_sin] never indexes outside the table: it returns for every f32, NaN
    exactly for the non-finite ones, and otherwise a value in [-1.0001, 0.981]. *)
Theorem C38_lookup_sin_total : forall (NP : NanPolicy) (B : Build) (x : f32),
  exists v, lookup_sin x = Ret v /\
    (fin x = true -> fin v = true /\ (- (10001 / 10000) <= val v <= 981 / 1000)%R) /\
    (fin x = false -> isnan v = true).
Proof.
  intros NP B x. destruct (fin x) eqn:Fx.
  - destruct (lookup_range x Fx) as (v & E & F & R). exists v. split; [exact E|]. split; [auto|discriminate].
  - destruct (lookup_nan x Fx) as (v & E & N). exists v. split; [exact E|]. split; [discriminate|auto].
Qed.
Print Assumptions C38_lookup_sin_total.

(** C38: other lengths.  A multiple of 65536, zero included, never builds: the step is a division by zero.  Above 65536 the length
    is cut to 16 bits before the division: the phase runs in steps of 65535 / (N mod 65536) and wraps around, so the table is not
    a half wave.  With overflow checks it builds exactly if the last phase still fits an [i32]. *)
Section Long.
Context {B : Build}.

Lemma as_i16_cong a b : a mod 2 ^ 16 = b mod 2 ^ 16 -> as_i16 a = as_i16 b.
Proof. intros H. unfold as_i16. rewrite Z.add_mod, H, <- Z.add_mod by lia. reflexivity. Qed.

Lemma wrap_cong z : i32_wrap z mod 2 ^ 16 = z mod 2 ^ 16.
Proof.
  unfold i32_wrap. rewrite Zminus_mod, <- (Znumtheory.Zmod_div_mod (2 ^ 16) (2 ^ 32)) by (try lia; exists (2 ^ 16); reflexivity).
  rewrite <- Zminus_mod. f_equal. lia.
Qed.

Lemma wrap_small z : - 2 ^ 31 <= z <= 2 ^ 31 - 1 -> i32_wrap z = z.
Proof. intros H. unfold i32_wrap. rewrite Z.mod_small by lia. lia. Qed.

Lemma chk_wraps z : ovf_checks = false -> exists w, i32_chk z = Ret w /\ w mod 2 ^ 16 = z mod 2 ^ 16.
Proof.
  intros Ho. unfold i32_chk. rewrite Ho. destruct (i32_ok z); [exists z; auto|]. exists (i32_wrap z). split; [reflexivity|apply wrap_cong].
Qed.

Lemma as_i16_is z : is_i16 (as_i16 z).
Proof. unfold as_i16, is_i16. pose proof (Z.mod_pos_bound (z + 2 ^ 15) (2 ^ 16) ltac:(lia)). lia. Qed.

Lemma entry_long step i : 0 <= i < 2 ^ 31 -> 0 <= step <= 65535 ->
  (ovf_checks = false \/ i * step < 2 ^ 31 -> sine_entry step i = Ret (sin_fixed (as_i16 (i * step - 32767)) 4)) /\
  (ovf_checks = true -> 2 ^ 31 <= i * step -> sine_entry step i = Panic).
Proof.
  intros Hi Hs. unfold sine_entry. rewrite !wrap_small by lia. unfold i32_mul. split.
  - intros H.
    assert (E : exists p, (do m <- i32_chk (i * step) ; i32_chk (m - 32767)) = Ret p /\ p mod 2 ^ 16 = (i * step - 32767) mod 2 ^ 16).
    { destruct H as [Ho|Hm].
      - destruct (chk_wraps (i * step) Ho) as (m & -> & Em). cbn [bind]. destruct (chk_wraps (m - 32767) Ho) as (p & -> & Ep).
        exists p. split; [reflexivity|]. rewrite Ep, Zminus_mod, Em, <- Zminus_mod. reflexivity.
      - rewrite i32_chk_ok by nia. cbn [bind]. rewrite i32_chk_ok by nia. eauto. }
    destruct E as (p & Ep & Ec). destruct (i32_chk (i * step)) as [m| |]; cbn [bind] in *; try discriminate. rewrite Ep. cbn [bind].
    rewrite (as_i16_cong p _ Ec). apply (sin_ok (as_i16 (i * step - 32767)) 4 (as_i16_is _)). lia.
  - intros Ho Hm. unfold i32_chk at 1, i32_ok. destruct (Z.leb_spec (i * step) (2 ^ 31 - 1)); [lia|]. rewrite andb_false_r, Ho. reflexivity.
Qed.

Lemma fill_long step : 0 <= step <= 65535 -> forall n i, 0 <= i -> i + Z.of_nat n <= 2 ^ 31 ->
  (ovf_checks = false \/ (i + Z.of_nat n - 1) * step < 2 ^ 31 ->
   sine_fill step n i = Ret (map (fun k => sin_fixed (as_i16 ((i + Z.of_nat k) * step - 32767)) 4) (seq 0 n))) /\
  (ovf_checks = true -> (0 < n)%nat -> 2 ^ 31 <= (i + Z.of_nat n - 1) * step -> sine_fill step n i = Panic).
Proof.
  intros Hs. induction n as [|n IH]; intros i Hi Hn; [split; [reflexivity|lia]|].
  destruct (IH (i + 1) ltac:(lia) ltac:(lia)) as [I1 I2]. destruct (entry_long step i ltac:(lia) Hs) as [E1 E2]. cbn [sine_fill]. split.
  - intros H. rewrite E1 by (destruct H; [now left|right; nia]). cbn [bind]. rewrite I1.
    2:{ destruct H as [H|H]; [now left|right]. replace (i + 1 + Z.of_nat n - 1) with (i + Z.of_nat (S n) - 1) by lia. exact H. }
    cbn [bind seq map]. f_equal. f_equal; [do 2 f_equal; lia|].
    rewrite <- seq_shift, map_map. apply map_ext. intros k. do 2 f_equal. lia.
  - intros Ho _ Hb. destruct (Z_lt_le_dec (i * step) (2 ^ 31)) as [L|L].
    + rewrite E1 by auto. cbn [bind]. rewrite I2; [reflexivity|exact Ho| |].
      * destruct n; [exfalso; replace (i + Z.of_nat 1 - 1) with i in Hb by lia; lia|lia].
      * replace (i + 1 + Z.of_nat n - 1) with (i + Z.of_nat (S n) - 1) by lia. exact Hb.
    + rewrite E2 by assumption. reflexivity.
Qed.
End Long.

Theorem C38_table_long_refuted : forall (B : Build) (N : Z), 0 <= N <= 2 ^ 31 ->
  let r := N mod 65536 in let step := 65535 / r in
  (r = 0 -> sine_table N = Panic) /\
  (r <> 0 -> ovf_checks = true -> 2 ^ 31 <= (N - 1) * step -> sine_table N = Panic) /\
  (r <> 0 -> ovf_checks = false \/ (N - 1) * step < 2 ^ 31 ->
   exists t, sine_table N = Ret t /\ Z.of_nat (length t) = N /\
     forall i : nat, Z.of_nat i < N -> exists s, nth_error t i = Some s /\ sin_i16 (as_i16 (Z.of_nat i * step - 32767)) 4 = Ret s).
Proof.
  intros B N HN r step. unfold sine_table, sine_min_step. change (2 ^ 16) with 65536. fold r.
  assert (Hr : 0 <= r < 65536) by (apply Z.mod_pos_bound; lia). split; [|split].
  - intros ->. reflexivity.
  - intros Nr Ho Hb. destruct (Z.eqb_spec r 0); [contradiction|]. cbn [bind]. fold step.
    assert (Hs : 0 <= step <= 65535) by (unfold step; split; [apply Z.div_pos; lia|apply Z.div_le_upper_bound; nia]).
    assert (N <> 0) by (intros ->; apply Nr; reflexivity).
    apply (fill_long step Hs (Z.to_nat N) 0); [lia|lia|exact Ho|lia|]. rewrite Z2Nat.id by lia. exact Hb.
  - intros Nr Hb. destruct (Z.eqb_spec r 0); [contradiction|]. cbn [bind]. fold step.
    assert (Hs : 0 <= step <= 65535) by (unfold step; split; [apply Z.div_pos; lia|apply Z.div_le_upper_bound; nia]).
    eexists. split; [apply (fill_long step Hs (Z.to_nat N) 0); [lia|lia|rewrite Z2Nat.id by lia; exact Hb]|].
    split; [rewrite map_length, seq_length; lia|]. intros i Hi.
    eexists. split; [|exact (proj1 (sin_ok _ 4 (as_i16_is _) ltac:(lia)))].
    rewrite nth_error_map, (nth_error_nth' _ 0%nat) by (rewrite seq_length; lia). rewrite seq_nth by lia. reflexivity.
Qed.
Print Assumptions C38_table_long_refuted.

(** A length of 65540 gives steps of 16383: five entries go around once. *)
Example C38_long_met : 65540 mod 65536 <> 0 /\ (65540 - 1) * (65535 / (65540 mod 65536)) < 2 ^ 31 /\
  map (fun i => as_i16 (i * (65535 / (65540 mod 65536)) - 32767)) [0; 1; 2; 3; 4; 5] = [-32767; -16384; -1; 16382; 32765; -16388].
Proof. split; [discriminate|]. split; [reflexivity|reflexivity]. Qed.

Example C38_example : @sine_table dbg32 5 = Ret [- 32768; - 26510; - 10125; 10126; 26509] /\
  @sin_i16 dbg32 (4095 * 15 - 32767) 4 = Ret 32133.
Proof. split; vm_compute; reflexivity. Qed.

(** ** The float functions *)

(** C80: [fixed_point_sin] and [fixed_point_cos] follow the real sine and cosine for every
    finite argument, with an error that grows with the argument only by the rounding of the
    argument reduction. *)
Theorem C80_fixed_point_sin_accuracy : forall (NP : NanPolicy) (B : Build) (x : f32), fin x = true ->
  exists v, fixed_point_sin x = Ret v /\ fin v = true /\
    (Rabs (val v - sin (val x)) <= 15 / 100000 + pow2 (-22) * Rabs (val x))%R.
Proof. intros NP B x Fx. exact (fixed_point_sin_accuracy x Fx). Qed.
Print Assumptions C80_fixed_point_sin_accuracy.

Theorem C80_fixed_point_cos_accuracy : forall (NP : NanPolicy) (B : Build) (x : f32), fin x = true ->
  exists v, fixed_point_cos x = Ret v /\ fin v = true /\
    (Rabs (val v - cos (val x)) <= 16 / 100000 + pow2 (-21) * Rabs (val x))%R.
Proof.
  intros NP B x Fx. destruct isv_pi2 as [F2 V2].
  destruct (fsub_spec f_frac_pi_2 x F2 Fx) as [Fd Vd].
  { rewrite V2. apply rnd_no_overflow. pose proof (val_max x) as Hm. unfold fmaxv in Hm.
    assert (P : (2 < pow2 103)%R) by (change 2%R with (pow2 1); apply bpow_lt; lia).
    assert (E : (pow2 104 = 2 * pow2 103)%R) by (change (pow2 104) with (pow2 (1 + 103)); rewrite bpow_plus; reflexivity).
    apply Rabs_le_inv in Hm. apply Rabs_lt. lra. }
  rewrite V2 in Vd. unfold fixed_point_cos.
  destruct (fixed_point_sin_accuracy (fsub f_frac_pi_2 x) Fd) as (v & E & Fv & A).
  exists v. split; [exact E|]. split; [exact Fv|]. rewrite Vd in A.
  rewrite <- sin_shift. pose proof (sin_lip (rnd (13176795 / 8388608 - val x)) (PI / 2 - val x)) as L.
  pose proof (rnd_err (13176795 / 8388608 - val x)) as R. pose proof tiny_pow as T. pose proof PI_tight as HP.
  assert (H24 : pow2 (-24) = (1 / 16777216)%R) by (cbn; lra).
  assert (H22 : pow2 (-22) = (1 / 4194304)%R) by (cbn; lra).
  assert (H21 : pow2 (-21) = (1 / 2097152)%R) by (cbn; lra).
  rewrite H24 in R. rewrite H22 in A. rewrite H21.
  assert (B1 : (Rabs (13176795 / 8388608 - val x) <= 2 + Rabs (val x))%R).
  { unfold Rabs. destruct (Rcase_abs (13176795 / 8388608 - val x)); destruct (Rcase_abs (val x)); lra. }
  pose proof (Rabs_pos (val x)) as HX.
  assert (B2 : (Rabs (rnd (13176795 / 8388608 - val x)) <= 21 / 10 + 11 / 10 * Rabs (val x))%R).
  { replace (rnd (13176795 / 8388608 - val x)) with
      (rnd (13176795 / 8388608 - val x) - (13176795 / 8388608 - val x) + (13176795 / 8388608 - val x))%R by ring.
    eapply Rle_trans; [apply Rabs_triang|]. lra. }
  assert (B3 : (Rabs (rnd (13176795 / 8388608 - val x) - (PI / 2 - val x)) <= 1 / 1000000 + 1 / 16777216 * Rabs (val x))%R).
  { apply Rabs_le_inv in R. apply Rabs_le. lra. }
  assert (M := Rle_trans _ _ _ L B3). apply Rabs_le_inv in M, A. apply Rabs_le. lra.
Qed.
Print Assumptions C80_fixed_point_cos_accuracy.

(** C80: both return for every f32; a non-finite argument gives zero instead of NaN. *)
Theorem C80_fixed_point_sin_nonfinite : forall (NP : NanPolicy) (B : Build) (x : f32), fin x = false ->
  fixed_point_sin x = Ret (of_int 0) /\ fixed_point_cos x = Ret (of_int 0).
Proof.
  intros NP B x Fx.
  assert (G : forall y : f32, fin y = false -> fixed_point_sin y = Ret (of_int 0)).
  { intros y Fy. destruct (fixed_point_sin_ok y) as (p & _ & H0 & _ & E). rewrite E, (H0 Fy). reflexivity. }
  split; [now apply G|]. apply G.
  destruct x as [s|s|s pl H|s m e H]; try discriminate Fx.
  - destruct s; reflexivity.
  - assert (N : isnan (fsub f_frac_pi_2 (Binary.B754_nan 24 128 s pl H)) = true) by (apply fsub_nan; now right).
    destruct (fin (fsub f_frac_pi_2 (Binary.B754_nan 24 128 s pl H))) eqn:E; [|reflexivity].
    apply fin_notnan in E. congruence.
Qed.
Print Assumptions C80_fixed_point_sin_nonfinite.

Example C80_example (NP : NanPolicy) : fin (of_int 1) = true /\ obits (@fixed_point_sin NP dbg32 (of_int 1)) = Ret 1062693295 /\
  fin (Binary.B754_infinity 24 128 true) = false.
Proof. vm_compute. repeat split; reflexivity. Qed.

(** C81: sinc is 1 at zero and, for every finite non-zero argument, a finite value close to
    sin(x)/x with an error inversely proportional to x. *)
Theorem C81_sinc_accuracy : forall (NP : NanPolicy) (B : Build) (x : f32), fin x = true ->
  exists v, sinc x = Ret v /\ fin v = true /\
    (val x = 0 -> val v = 1)%R /\
    (val x <> 0 -> Rabs (val v - sin (val x) / val x) <= 16 / 100000 / Rabs (val x) + pow2 (-21))%R.
Proof.
  intros NP B x Fx. unfold sinc. destruct (of_int_exact 0 ltac:(lia)) as [F0 V0].
  rewrite feq_fin by auto. rewrite V0. case Req_bool_spec; intros H.
  - exists (of_int 1). destruct (of_int_exact 1 ltac:(lia)) as [F1 V1].
    split; [reflexivity|]. split; [exact F1|]. split; [intros _; exact V1|]. intros N. contradiction.
  - assert (PX : (0 < Rabs (val x))%R) by now apply Rabs_pos_lt.
    assert (H21 : pow2 (-21) = (1 / 2097152)%R) by (cbn; lra).
    assert (H22 : pow2 (-22) = (1 / 4194304)%R) by (cbn; lra).
    assert (H24 : pow2 (-24) = (1 / 16777216)%R) by (cbn; lra).
    assert (S1 : (Rabs (sin (val x) / val x) <= 1)%R).
    { unfold Rdiv. rewrite Rabs_mult, Rabs_inv. apply Rmult_le_reg_r with (Rabs (val x)); [exact PX|].
      rewrite Rmult_assoc, Rinv_l by lra. pose proof (abs_sin_le (val x)). lra. }
    destruct (Rle_lt_dec (Rabs (val x)) (1 / 32768)) as [L|L].
    + rewrite (fixed_point_sin_small x Fx L). cbn [bind]. eexists. split; [reflexivity|].
      destruct (fdiv_spec (of_int 0) x F0 H) as [F V].
      { rewrite V0. unfold Rdiv. rewrite Rmult_0_l, rnd_0, Rabs_R0. apply big_pos. }
      rewrite V0 in V. unfold Rdiv in V. rewrite Rmult_0_l, rnd_0 in V.
      split; [exact F|]. split; [contradiction|]. intros _. rewrite V.
      rewrite Rminus_0_l, Rabs_Ropp. apply Rle_trans with (1 := S1).
      assert (I : (32768 <= / Rabs (val x))%R).
      { replace 32768%R with (/ (1 / 32768))%R by lra. apply Rinv_le_contravar; lra. }
      unfold Rdiv. rewrite H21. lra.
    + destruct (fixed_point_sin_accuracy x Fx) as (v & E & Fv & A). rewrite E. cbn [bind].
      rewrite H22 in A.
      set (q := (val v / val x)%R).
      assert (D : (Rabs (q - sin (val x) / val x) <= 15 / 100000 / Rabs (val x) + 1 / 4194304)%R).
      { unfold q. replace (val v / val x - sin (val x) / val x)%R with ((val v - sin (val x)) * / val x)%R by (field; exact H).
        rewrite Rabs_mult, Rabs_inv.
        apply Rle_trans with ((15 / 100000 + 1 / 4194304 * Rabs (val x)) * / Rabs (val x))%R.
        - apply Rmult_le_compat_r; [left; now apply Rinv_0_lt_compat|exact A].
        - right. field. lra. }
      assert (I : (/ Rabs (val x) <= 32768)%R).
      { replace 32768%R with (/ (1 / 32768))%R by lra. apply Rinv_le_contravar; lra. }
      assert (I0 : (0 < / Rabs (val x))%R) by now apply Rinv_0_lt_compat.
      unfold Rdiv in D at 3.
      assert (Bq : (Rabs q <= 2 + 15 / 100000 * / Rabs (val x))%R).
      { replace q with (q - sin (val x) / val x + sin (val x) / val x)%R by ring.
        eapply Rle_trans; [apply Rabs_triang|]. lra. }
      destruct (fdiv_spec v x Fv H) as [F V].
      { apply Rle_lt_trans with (IZR 16); [|pose proof big_ge; lra].
        apply rnd_abs_le; [apply repr_int; lia|]. fold q. lra. }
      eexists. split; [reflexivity|]. split; [exact F|]. split; [contradiction|]. intros _.
      rewrite V. fold q. pose proof (rnd_err q) as R. rewrite H24 in R. pose proof tiny_pow as T.
      rewrite H21. unfold Rdiv at 2. apply Rabs_le_inv in R, D. apply Rabs_le. lra.
Qed.
Print Assumptions C81_sinc_accuracy.

(** C81: the limit 1 at zero is not approached: every argument up to 2^-15 other than zero
    itself gives zero. *)
Theorem C81_sinc_near_zero_refuted : forall (NP : NanPolicy) (B : Build) (x : f32), fin x = true ->
  (val x <> 0 -> Rabs (val x) <= 1 / 32768 -> exists v, sinc x = Ret v /\ fin v = true /\ val v = 0)%R.
Proof.
  intros NP B x Fx H L. unfold sinc. destruct (of_int_exact 0 ltac:(lia)) as [F0 V0].
  rewrite feq_fin by auto. rewrite V0. rewrite Req_bool_false by exact H.
  rewrite (fixed_point_sin_small x Fx L). cbn [bind]. eexists. split; [reflexivity|].
  destruct (fdiv_spec (of_int 0) x F0 H) as [F V].
  { rewrite V0. unfold Rdiv. rewrite Rmult_0_l, rnd_0, Rabs_R0. apply big_pos. }
  split; [exact F|]. rewrite V, V0. unfold Rdiv. now rewrite Rmult_0_l, rnd_0.
Qed.
Print Assumptions C81_sinc_near_zero_refuted.

Example C81_example (NP : NanPolicy) : fin (lit 1 (-20)) = true /\
  obits (@sinc NP dbg32 (lit 1 (-20))) = Ret 0 /\ obits (@sinc NP dbg32 (of_int 0)) = Ret 1065353216.
Proof. vm_compute. repeat split; reflexivity. Qed.
