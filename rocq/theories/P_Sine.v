(** * Proofs about the fixed-point sine. *)

From Coq Require Import ZArith List Bool Lia Reals Lra Psatz.
From Verif Require Import Base F32 Num M_Memory M_Sine S_Sine.
Import ListNotations.
Open Scope Z_scope.

Section Fixed.
Context {B : Build}.

Lemma i32_chk_ok z : - 2 ^ 31 <= z <= 2 ^ 31 - 1 -> i32_chk z = Ret z.
Proof.
  intros H. unfold i32_chk, i32_ok. destruct (Z.leb_spec (- 2 ^ 31) z); [|lia].
  destruct (Z.leb_spec z (2 ^ 31 - 1)); [reflexivity|lia].
Qed.

(** Scaling by a phase never enlarges. *)
Lemma scale_bound a p A : Z.abs a <= A -> Z.abs p <= 2 ^ 15 -> Z.abs (a * p / 2 ^ 15) <= A.
Proof.
  intros Ha Hp. assert (H : Z.abs (a * p) <= A * 2 ^ 15).
  { rewrite Z.abs_mul. apply Z.mul_le_mono_nonneg; lia. }
  apply Z.abs_le in H. apply Z.abs_le. split.
  - apply Z.div_le_lower_bound; lia.
  - apply Z.div_le_upper_bound; lia.
Qed.

Lemma sin_step p d acc A : Z.abs p <= 2 ^ 15 -> Z.abs (acc + sin_coeff (S d)) <= A -> A <= 65535 ->
  Z.of_nat (S d) <= 4 ->
  sin_loop p (S d) acc = sin_loop p d ((acc + sin_coeff (S d)) * p / 2 ^ 15 * p / 2 ^ 15).
Proof.
  intros Hp HA HA2 Hd. cbn [sin_loop].
  assert (E : sin_index (Z.of_nat (S d)) = Ret (sin_coeff (S d))).
  { destruct d as [|[|[|[|d]]]]; try reflexivity. lia. }
  rewrite E. cbn [bind]. unfold i32_add. rewrite i32_chk_ok by lia. cbn [bind].
  set (a := acc + sin_coeff (S d)) in *.
  assert (H1 : Z.abs (a * p) <= 65535 * 2 ^ 15).
  { rewrite Z.abs_mul. apply Z.mul_le_mono_nonneg; lia. }
  unfold i32_mul. rewrite i32_chk_ok by lia. cbn [bind]. rewrite Z.shiftr_div_pow2 by lia.
  pose proof (scale_bound a p A HA Hp) as H2.
  assert (H3 : Z.abs (a * p / 2 ^ 15 * p) <= 65535 * 2 ^ 15).
  { rewrite Z.abs_mul. apply Z.mul_le_mono_nonneg; lia. }
  rewrite i32_chk_ok by lia. cbn [bind]. now rewrite Z.shiftr_div_pow2 by lia.
Qed.

(** A bound on the accumulator below each coefficient. *)
Definition acc_bound (d : nat) : Z :=
  match d with
  | 4%nat => 0 | 3%nat => 10 | 2%nat => 317 | 1%nat => 5540 | _ => 47874
  end.

Lemma sin_loop_ok p : Z.abs p <= 2 ^ 15 -> forall d acc, (d <= 4)%nat -> Z.abs acc <= acc_bound d ->
  sin_loop p d acc = Ret (sin_horner p d acc) /\ Z.abs (sin_horner p d acc) <= 47874.
Proof.
  intros Hp. induction d as [|d I]; intros acc Hd HA.
  - cbn [sin_loop sin_horner acc_bound] in *. auto.
  - assert (C : Z.abs (acc + sin_coeff (S d)) <= acc_bound d /\ acc_bound d <= 65535).
    { destruct d as [|[|[|[|d]]]]; cbn [acc_bound sin_coeff] in *; lia. }
    destruct C as [C1 C2].
    rewrite (sin_step p d acc (acc_bound d) Hp C1 C2) by lia. cbn [sin_horner].
    apply I; [lia|]. apply scale_bound; [|exact Hp]. now apply scale_bound.
Qed.

Lemma sin_ok p d : is_i16 p -> 0 <= d <= 4 ->
  sin_i16_unchecked p d = Ret (sin_fixed p (Z.to_nat d)) /\ is_i16 (sin_fixed p (Z.to_nat d)).
Proof.
  intros Hp Hd. unfold is_i16 in *. unfold sin_i16_unchecked.
  assert (Hp' : Z.abs p <= 2 ^ 15) by lia.
  destruct (sin_loop_ok p Hp' (Z.to_nat d) 0) as [E Bd]; [lia| |].
  { destruct (Z.to_nat d) as [|[|[|[|[|n]]]]]; cbn; lia. }
  rewrite E. cbn [bind]. change (sin_index 0) with (Ret (sin_coeff 0)). cbn [bind].
  unfold i32_add. rewrite i32_chk_ok by (cbn [sin_coeff]; lia). cbn [bind].
  set (r := sin_horner p (Z.to_nat d) 0 + sin_coeff 0) in *.
  assert (Ex : Z.shiftr (i32_saturating_mul r p) 16 = clamp16 (r * p / 2 ^ 16)).
  { rewrite Z.shiftr_div_pow2 by lia. unfold i32_saturating_mul, clamp16.
    destruct (Z.le_gt_cases (r * p) (2 ^ 31 - 1)) as [L1|L1].
    - destruct (Z.le_gt_cases (- 2 ^ 31) (r * p)) as [L2|L2].
      + rewrite (Z.min_r (2 ^ 31 - 1)), (Z.max_r (- 2 ^ 31)) by lia.
        assert (- 32768 <= r * p / 2 ^ 16 <= 32767).
        { split; [apply Z.div_le_lower_bound; lia|]. apply Z.lt_succ_r, Z.div_lt_upper_bound; lia. }
        lia.
      + assert (r * p / 2 ^ 16 < - 32768) by (apply Z.div_lt_upper_bound; lia).
        rewrite (Z.min_r (2 ^ 31 - 1)), (Z.max_l (- 2 ^ 31)) by lia.
        change (- 2 ^ 31 / 2 ^ 16) with (-32768). lia.
    - rewrite (Z.min_l (2 ^ 31 - 1)), (Z.max_r (- 2 ^ 31)) by lia.
      assert (32767 <= r * p / 2 ^ 16) by (apply Z.div_le_lower_bound; lia).
      change ((2 ^ 31 - 1) / 2 ^ 16) with 32767. lia. }
  rewrite Ex. unfold sin_fixed. fold r. set (v := clamp16 (r * p / 2 ^ 16)).
  assert (Hv : - 32768 <= v <= 32767) by (unfold v, clamp16; lia).
  assert (Ev : as_i16 v = v) by (unfold as_i16; rewrite Z.mod_small; lia).
  rewrite Ev. split; [reflexivity|lia].
Qed.

Lemma sin_panics p d : 4 < d -> d < 2 ^ 8 -> sin_i16_unchecked p d = Panic.
Proof.
  intros H1 H2. unfold sin_i16_unchecked.
  destruct (Z.to_nat d) as [|n] eqn:E; [lia|]. cbn [sin_loop].
  assert (Ei : sin_index (Z.of_nat (S n)) = Panic).
  { unfold sin_index, nthz. destruct (Z.ltb_spec (Z.of_nat (S n)) 0); [reflexivity|].
    rewrite Nat2Z.id. do 4 (destruct n as [|n]; [lia|]). cbn. now destruct n. }
  now rewrite Ei.
Qed.

(** Entries and length of the table, for every table length below 2^16. *)
Lemma sine_entry_ok step i : 0 <= i -> 0 <= step -> i * step <= 65534 ->
  sine_entry step i = Ret (sin_fixed (i * step - 32767) 4) .
Proof.
  intros Hi Hs H. unfold sine_entry.
  destruct (Z.eq_dec step 0) as [->|Ns].
  - rewrite Z.mul_0_r in *. change (i32_wrap 0) with 0. unfold i32_mul. rewrite Z.mul_0_r.
    rewrite i32_chk_ok by lia. cbn [bind]. rewrite i32_chk_ok by lia. cbn [bind].
    change (as_i16 (0 - 32767)) with (-32767).
    destruct (sin_ok (-32767) 4) as [-> _]; [split; lia|lia|]. reflexivity.
  - assert (i <= 65534) by nia.
    destruct (Z.eq_dec i 0) as [->|Ni].
    + rewrite Z.mul_0_l in *. change (i32_wrap 0) with 0. unfold i32_mul. rewrite Z.mul_0_l.
      rewrite i32_chk_ok by lia. cbn [bind]. rewrite i32_chk_ok by lia. cbn [bind].
      change (as_i16 (0 - 32767)) with (-32767).
      destruct (sin_ok (-32767) 4) as [-> _]; [split; lia|lia|]. reflexivity.
    + assert (step <= 65534) by nia.
      unfold i32_wrap. rewrite !Z.mod_small by lia.
      unfold i32_mul. replace ((i + 2 ^ 31 - 2 ^ 31) * (step + 2 ^ 31 - 2 ^ 31)) with (i * step) by ring.
      rewrite i32_chk_ok by nia. cbn [bind]. rewrite i32_chk_ok by nia. cbn [bind].
      assert (E : as_i16 (i * step - 32767) = i * step - 32767).
      { unfold as_i16. rewrite Z.mod_small; nia. }
      rewrite E. destruct (sin_ok (i * step - 32767) 4) as [-> _]; [split; nia|lia|]. reflexivity.
Qed.

Lemma sine_fill_ok step : 0 <= step -> forall n i, 0 <= i -> (i + Z.of_nat n - 1) * step <= 65534 ->
  sine_fill step n i = Ret (map (fun k => sin_fixed ((i + Z.of_nat k) * step - 32767) 4) (seq 0 n)).
Proof.
  intros Hs. induction n as [|n I]; intros i Hi H; [reflexivity|].
  cbn [sine_fill]. rewrite sine_entry_ok; [|lia|lia|nia]. cbn [bind].
  rewrite I; [|lia|nia]. cbn [bind seq map]. f_equal. f_equal; [f_equal; lia|].
  rewrite <- seq_shift, map_map. apply map_ext. intros k. f_equal. lia.
Qed.

Lemma sine_table_ok N : 1 <= N <= 65535 ->
  sine_table N = Ret (map (fun k => sin_fixed (Z.of_nat k * (65535 / N) - 32767) 4) (seq 0 (Z.to_nat N))).
Proof.
  intros H. unfold sine_table, sine_min_step. rewrite Z.mod_small by lia.
  destruct (Z.eqb_spec N 0); [lia|]. cbn [bind].
  assert (H1 : N * (65535 / N) <= 65535) by (apply Z.mul_div_le; lia).
  assert (H2 : 1 <= 65535 / N) by (apply Z.div_le_lower_bound; lia).
  rewrite sine_fill_ok; [|lia|lia|].
  - f_equal.
  - rewrite Z2Nat.id by lia. nia.
Qed.
End Fixed.

(** ** Opposite phases *)
Lemma div_bounds a b : 0 < b -> b * (a / b) <= a < b * (a / b) + b.
Proof. intros H. pose proof (Z.mul_div_le a b H). pose proof (Z.mul_succ_div_gt a b H). lia. Qed.

Lemma horner_odd p : 0 <= p <= 2 ^ 15 -> forall d acc acc' e, acc <= acc' <= acc + e -> 0 <= e ->
  sin_horner p d acc <= sin_horner (- p) d acc' <= sin_horner p d acc + e + Z.of_nat d.
Proof.
  intros Hp. induction d as [|d I]; intros acc acc' e H He; [cbn [sin_horner]; lia|].
  cbn [sin_horner]. set (b := sin_coeff (S d)).
  assert (G : (acc + b) * p / 2 ^ 15 * p / 2 ^ 15 <= (acc' + b) * - p / 2 ^ 15 * - p / 2 ^ 15
              <= (acc + b) * p / 2 ^ 15 * p / 2 ^ 15 + (e + 1)).
  { set (a := acc + b). set (a' := acc' + b).
    pose proof (div_bounds (a * p) (2 ^ 15) ltac:(lia)) as D1.
    pose proof (div_bounds (a' * - p) (2 ^ 15) ltac:(lia)) as D2.
    set (f := a * p / 2 ^ 15) in *. set (f' := a' * - p / 2 ^ 15) in *.
    assert (P1 : a * p <= a' * p) by (apply Z.mul_le_mono_nonneg_r; unfold a, a'; lia).
    assert (P2 : a' * p <= a * p + e * 2 ^ 15).
    { apply Z.le_trans with ((a + e) * p); [apply Z.mul_le_mono_nonneg_r; unfold a, a'; lia|]. nia. }
    assert (F1 : f <= - f') by lia. assert (F2 : - f' <= f + e + 1) by lia.
    clearbody f f'.
    pose proof (div_bounds (f * p) (2 ^ 15) ltac:(lia)) as D3.
    pose proof (div_bounds (f' * - p) (2 ^ 15) ltac:(lia)) as D4.
    assert (P3 : f * p <= - f' * p) by (apply Z.mul_le_mono_nonneg_r; lia).
    assert (P4 : - f' * p <= f * p + (e + 1) * 2 ^ 15).
    { apply Z.le_trans with ((f + (e + 1)) * p); [apply Z.mul_le_mono_nonneg_r; lia|]. nia. }
    set (g := f * p / 2 ^ 15) in *. set (g' := f' * - p / 2 ^ 15) in *. lia. }
  specialize (I _ _ (e + 1) G ltac:(lia)). lia.
Qed.

Lemma sin_fixed_odd p d : 0 <= p <= 32767 -> (d <= 4)%nat -> - 3 <= sin_fixed p d + sin_fixed (- p) d <= 0.
Proof.
  intros Hp Hd. pose proof (horner_odd p ltac:(lia) d 0 0 0 ltac:(lia) ltac:(lia)) as H.
  unfold sin_fixed. set (r := sin_horner p d 0 + sin_coeff 0). set (r' := sin_horner (- p) d 0 + sin_coeff 0).
  assert (Hr : r <= r' <= r + 4) by (unfold r, r'; lia). clearbody r r'.
  pose proof (div_bounds (r * p) (2 ^ 16) ltac:(lia)) as D1.
  pose proof (div_bounds (r' * - p) (2 ^ 16) ltac:(lia)) as D2.
  assert (P1 : r * p <= r' * p) by (apply Z.mul_le_mono_nonneg_r; lia).
  assert (P2 : r' * p <= r * p + 4 * 32767) by nia.
  set (u := r * p / 2 ^ 16) in *. set (v := r' * - p / 2 ^ 16) in *.
  assert (- 3 <= u + v <= 0) by lia. unfold clamp16. lia.
Qed.
