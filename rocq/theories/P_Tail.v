(** * Proofs: what remains once the input has stopped (C113). *)

From Coq Require Import ZArith List Bool Reals Lia Lra.
From Flocq Require Import Core.
From Verif Require Import Base F32 F32Lemmas Num M_Memory M_Delay M_Biquad S_Memory S_Delay S_Biquad S_BiquadF32 S_Tail P_Delay.
Import ListNotations.
Local Open Scope R_scope.

(** ** Rounding near zero *)
Lemma tiny_pos : 0 < tiny. Proof. apply bpow_gt_0. Qed.

Lemma rnd_tiny r : Rabs r <= 2 ^ 24 -> rnd (r * tiny) = IZR (ZnearestE r) * tiny.
Proof.
  intros H.
  assert (L : forall s, Rabs s < 2 ^ 24 -> rnd (s * tiny) = IZR (ZnearestE s) * tiny).
  { intros s Hs. destruct (Req_dec s 0) as [->|N0].
    - rewrite Rmult_0_l, rnd_0. rewrite (Znearest_imp _ 0 0) by (rewrite Rminus_0_r, Rabs_R0; lra). ring.
    - assert (N : s * tiny <> 0) by (pose proof tiny_pos; apply Rmult_integral_contrapositive; split; lra).
      assert (E : cexp radix2 fexp32 (s * tiny) = (-149)%Z).
      { unfold cexp, FLT_exp. assert (mag radix2 (s * tiny) <= -125)%Z; [|lia].
        apply mag_le_bpow; [exact N|]. rewrite Rabs_mult, (Rabs_pos_eq tiny) by apply Rlt_le, tiny_pos.
        replace (pow2 (-125)) with (2 ^ 24 * tiny); [apply Rmult_lt_compat_r; [apply tiny_pos|exact Hs]|].
        unfold tiny. replace (2 ^ 24) with (pow2 24) by (cbn; lra). rewrite <- bpow_plus. reflexivity. }
      unfold rnd, round, F2R, scaled_mantissa. rewrite E. cbn [Fnum Fexp Z.opp]. fold tiny. f_equal. f_equal. f_equal.
      unfold tiny. rewrite Rmult_assoc, <- bpow_plus. cbn. ring. }
  destruct H as [H|H]; [now apply L|].
  assert (I : exists z, r = IZR z /\ (Z.abs z = 2 ^ 24)%Z).
  { destruct (Rcase_abs r) as [N|N]; [rewrite Rabs_left in H by exact N; exists (- 2 ^ 24)%Z|rewrite Rabs_right in H by exact N; exists (2 ^ 24)%Z]; (split; [|reflexivity]).
    - rewrite opp_IZR. change (2 ^ 24)%Z with 16777216%Z. lra.
    - change (2 ^ 24)%Z with 16777216%Z. lra. }
  destruct I as (z & -> & Hz).
  assert (Ez : ZnearestE (IZR z) = z) by (apply Znearest_imp; rewrite Rminus_eq_0, Rabs_R0; lra).
  rewrite Ez. apply rnd_repr. unfold tiny. apply repr_dy; lia.
Qed.

Lemma near_0 : ZnearestE (1 / 2) = 0%Z.
Proof.
  unfold Znearest. assert (F : Zfloor (1 / 2) = 0%Z) by (apply Zfloor_imp; cbn; lra). rewrite F.
  destruct (Rcompare_spec (1 / 2 - 0) (/ 2)) as [K|K|K]; try lra. reflexivity.
Qed.

(** Half of the smallest f32 rounds to zero. *)
Lemma rnd_half_tiny x : Rabs x <= tiny / 2 -> rnd x = 0.
Proof.
  intros H. pose proof tiny_pos as P.
  assert (Z : rnd (tiny / 2) = 0).
  { replace (tiny / 2) with (1 / 2 * tiny) by field. rewrite rnd_tiny, near_0; [ring|]. rewrite Rabs_pos_eq; lra. }
  apply Rabs_le_inv in H. pose proof (rnd_le _ _ (proj2 H)) as U. pose proof (rnd_le _ _ (proj1 H)) as L.
  rewrite rnd_opp, Z in L. rewrite Z in U. lra.
Qed.

(** Every f32 but zero is at least [tiny]. *)
Lemma repr_tiny x : repr x -> x <> 0 -> tiny <= Rabs x.
Proof.
  intros R N. destruct (Rle_or_lt tiny (Rabs x)) as [H|H]; [exact H|]. exfalso. apply N. pose proof tiny_pos as P.
  set (r := x / tiny). assert (E : x = r * tiny) by (unfold r; field; lra).
  assert (B : Rabs r < 1).
  { rewrite E, Rabs_mult, (Rabs_pos_eq tiny) in H by lra. apply Rmult_lt_reg_r with tiny; lra. }
  assert (Q : x = IZR (ZnearestE r) * tiny) by (rewrite <- rnd_tiny by lra; rewrite <- E; symmetry; now apply rnd_repr).
  set (k := ZnearestE r) in *. assert (K : r = IZR k) by (apply Rmult_eq_reg_r with tiny; lra).
  rewrite K, <- abs_IZR in B. apply lt_IZR in B. assert (Z0 : k = 0%Z) by lia. rewrite Q, Z0. ring.
Qed.

Lemma rnd_above x : tiny / 2 < Rabs x -> rnd x <> 0.
Proof.
  intros H. pose proof tiny_pos as P. destruct (Rle_or_lt tiny (Rabs x)) as [L|L].
  - assert (R : repr tiny) by (apply repr_bpow; lia). destruct (Rcase_abs x) as [N|N].
    + rewrite Rabs_left in L by exact N. assert (rnd x <= - tiny) by (apply rnd_le_repr; [now apply repr_opp|lra]). lra.
    + rewrite Rabs_right in L by exact N. pose proof (rnd_ge_repr _ _ R L). lra.
  - replace x with (x / tiny * tiny) by (field; lra). set (r := x / tiny).
    assert (Er : Rabs x = Rabs r * tiny) by (unfold r; rewrite <- (Rabs_pos_eq tiny) at 2 by lra; rewrite <- Rabs_mult; f_equal; field; lra).
    assert (B : / 2 < Rabs r < 1) by (rewrite Er in *; split; apply Rmult_lt_reg_r with tiny; lra).
    rewrite rnd_tiny by lra. intros Q. apply Rmult_integral in Q. destruct Q as [Q|Q]; [|lra].
    pose proof (Znearest_half (fun z => negb (Z.even z)) r) as H2. change (Znearest _ r) with (ZnearestE r) in H2. rewrite Q, Rminus_0_r in H2. lra.
Qed.

(** ** Echoes *)
Lemma echo_S g k v : echo g (S k) v = rnd (echo g k v * g).
Proof. reflexivity. Qed.

Lemma echo_le g k v : repr v -> Rabs g <= 1 -> repr (echo g k v) /\ Rabs (echo g k v) <= Rabs v.
Proof.
  intros R H. assert (RA : repr (Rabs v)) by (unfold Rabs; destruct (Rcase_abs v); [now apply repr_opp|exact R]).
  induction k as [|k [I1 I2]]; [split; [exact R|apply Rle_refl]|]. rewrite echo_S. split; [apply repr_rnd|].
  apply rnd_abs_le; [exact RA|]. rewrite Rabs_mult. pose proof (Rabs_pos (echo g k v)). pose proof (Rabs_pos g). nra.
Qed.

Lemma echo_half g v : Rabs v < big -> Rabs g <= 1 / 2 -> forall k, (277 < k)%nat -> echo g k v = 0.
Proof.
  intros B H.
  assert (D : forall k, (k <= 277)%nat -> Rabs (echo g k v) <= pow2 (128 - Z.of_nat k)).
  { induction k as [|k IH]; intros K; [cbn [echo Nat.iter]; change (echo g 0 v) with v; left; exact B|]. rewrite echo_S.
    apply rnd_abs_le; [apply repr_bpow; lia|]. rewrite Rabs_mult. pose proof (IH ltac:(lia)) as I.
    replace (128 - Z.of_nat k)%Z with (128 - Z.of_nat (S k) + 1)%Z in I by lia. rewrite bpow_plus in I. change (pow2 1) with 2 in I.
    pose proof (Rabs_pos (echo g k v)). pose proof (Rabs_pos g). set (p := pow2 (128 - Z.of_nat (S k))) in *. clearbody p. nra. }
  assert (Z : echo g 278 v = 0).
  { rewrite echo_S. apply rnd_half_tiny. rewrite Rabs_mult. pose proof (D 277%nat (le_n _)) as I. change (128 - Z.of_nat 277)%Z with (-149)%Z in I. fold tiny in I.
    pose proof (Rabs_pos (echo g 277 v)). pose proof (Rabs_pos g). pose proof tiny_pos. nra. }
  intros k K. induction k as [|k IH]; [lia|]. destruct (Nat.eq_dec k 277) as [->|N]; [exact Z|].
  rewrite echo_S, IH, Rmult_0_l by lia. apply rnd_0.
Qed.

Lemma echo_never g v : repr v -> v <> 0 -> 1 / 2 < Rabs g -> forall k, echo g k v <> 0.
Proof.
  intros R N H. assert (forall k, repr (echo g k v) /\ echo g k v <> 0); [|intros k; apply H0].
  induction k as [|k [I1 I2]]; [split; assumption|]. rewrite echo_S. split; [apply repr_rnd|].
  apply rnd_above. rewrite Rabs_mult. pose proof (repr_tiny _ I1 I2). pose proof tiny_pos. nra.
Qed.

(** ** The units *)
Section Units.
Context {NP : NanPolicy}.

Lemma idx_shift m n : (0 < n)%nat -> ((m + n) / n = S (m / n) /\ (m + n) mod n = m mod n)%nat.
Proof.
  intros Hn. replace (m + n)%nat with (m + 1 * n)%nat by lia. rewrite Nat.div_add, Nat.mod_add by lia. lia.
Qed.

Definition holds g (l d : list f32) (m : nat) : Prop :=
  length d = (m + length l)%nat /\
  forall i, (i < length d)%nat -> fin (nth i d (of_int 0)) = true /\
    val (nth i d (of_int 0)) = echo g (i / length l) (val (nth (i mod length l) l (of_int 0))).

Lemma holds_start g l : (0 < length l)%nat -> Forall (fun x => fin x = true) l -> holds g l l 0.
Proof.
  intros Hn Hl. split; [lia|]. intros i Hi. rewrite Nat.div_small, Nat.mod_small by exact Hi. split; [|reflexivity].
  rewrite Forall_forall in Hl. apply Hl, nth_In, Hi.
Qed.

Lemma holds_step g l d m w : (0 < length l)%nat -> holds g l d m -> fin w = true ->
  val w = rnd (val (nth m d (of_int 0)) * g) -> holds g l (d ++ [w]) (S m).
Proof.
  intros Hn [L H] Fw Vw. split; [rewrite app_length; cbn [length]; lia|]. intros i Hi. rewrite app_length in Hi. cbn [length] in Hi.
  destruct (Nat.lt_ge_cases i (length d)) as [K|K]; [rewrite app_nth1 by exact K; now apply H|].
  assert (i = length d) as -> by lia. rewrite app_nth2, Nat.sub_diag by lia. cbn [nth]. split; [exact Fw|].
  rewrite Vw, L. destruct (idx_shift m (length l) Hn) as [-> ->]. rewrite echo_S. f_equal. f_equal. apply H. lia.
Qed.

Lemma add_silent x y : silent x -> fin y = true -> fin (fadd x y) = true /\ val (fadd x y) = val y.
Proof.
  intros [Fx Vx] Fy. destruct (fadd_spec x y Fx Fy) as [F V].
  - rewrite Vx, Rplus_0_l, rnd_repr by apply repr_val. apply val_lt_big.
  - split; [exact F|]. rewrite V, Vx, Rplus_0_l. apply rnd_repr, repr_val.
Qed.
Lemma add_silent_r x y : fin x = true -> silent y -> fin (fadd x y) = true /\ val (fadd x y) = val x.
Proof.
  intros Fx [Fy Vy]. destruct (fadd_spec x y Fx Fy) as [F V].
  - rewrite Vy, Rplus_0_r, rnd_repr by apply repr_val. apply val_lt_big.
  - split; [exact F|]. rewrite V, Vy, Rplus_0_r. apply rnd_repr, repr_val.
Qed.
Lemma mul_silent x y : fin x = true -> silent y -> silent (fmul x y) /\ silent (fmul y x).
Proof.
  intros Fx [Fy Vy]. split.
  - destruct (fmul_spec x y Fx Fy) as [F V]; rewrite Vy, Rmult_0_r, rnd_0 in *; [rewrite Rabs_R0; apply bpow_gt_0|]. split; assumption.
  - destruct (fmul_spec y x Fy Fx) as [F V]; rewrite Vy, Rmult_0_l, rnd_0 in *; [rewrite Rabs_R0; apply bpow_gt_0|]. split; assumption.
Qed.
Lemma mul_small x y : fin x = true -> fin y = true -> Rabs (val y) <= 1 -> fin (fmul x y) = true /\ val (fmul x y) = rnd (val x * val y).
Proof.
  intros Fx Fy H. apply fmul_spec; [assumption..|]. eapply Rle_lt_trans; [|apply (val_lt_big x)].
  destruct (echo_le (val y) 1 (val x) (repr_val x) H) as [_ L]. exact L.
Qed.

Lemma comb_circulates g l (Hn : (0 < length l)%nat) damp : silent damp -> fin g = true -> Rabs (val g) <= 1 ->
  forall xs d m s, Forall silent xs -> holds (val g) l d m -> fin s = true ->
  exists ys, comb_spec d m s damp g (map CTick xs) = ys /\ length ys = length xs /\
    forall i, (i < length xs)%nat -> val (nth i ys (of_int 0)) = echo (val g) ((m + i) / length l) (val (nth ((m + i) mod length l) l (of_int 0))).
Proof.
  intros Sd Fg Hg xs. induction xs as [|x xs IH]; intros d m s Hx Hd Fs.
  - exists []. split; [reflexivity|]. split; [reflexivity|]. cbn. lia.
  - inversion_clear Hx as [|? ? X1 X2]. cbn [map comb_spec].
    change (nth m d (nint 0)) with (nth m d (of_int 0)). set (y := nth m d (of_int 0)).
    assert (Hm : (m < length d)%nat) by (destruct Hd; lia). destruct (proj2 Hd m Hm) as [Fy Vy]. fold y in Fy, Vy.
    assert (ONE : fin (nint 1 - damp)%num = true /\ val (nint 1 - damp)%num = 1).
    { destruct (of_int_exact 1 ltac:(lia)) as [F1 V1]. destruct Sd as [Fd Vd]. cbn [nsub nint num_f32].
      destruct (fsub_spec (of_int 1) damp F1 Fd) as [F V].
      - rewrite Vd, Rminus_0_r, rnd_repr by apply repr_val. apply val_lt_big.
      - split; [exact F|]. change (val (fsub (of_int 1) damp) = 1). rewrite V, Vd, Rminus_0_r, rnd_repr by apply repr_val. exact V1. }
    destruct ONE as [F1 V1].
    destruct (mul_small y (nint 1 - damp)%num Fy F1) as [Fp Vp]; [rewrite V1, Rabs_R1; lra|].
    rewrite V1, Rmult_1_r, rnd_repr in Vp by apply repr_val.
    destruct (add_silent_r _ (fmul s damp) Fp (proj1 (mul_silent s damp Fs Sd))) as [Fs' Vs']. rewrite Vp in Vs'.
    set (s' := (y * (nint 1 - damp) + s * damp)%num). change (fadd _ _) with s' in Fs', Vs'.
    destruct (mul_small s' g Fs' Fg Hg) as [Fw Vw]. rewrite Vs' in Vw.
    destruct (add_silent x (fmul s' g) X1 Fw) as [Fz Vz]. rewrite Vw in Vz.
    destruct (IH (d ++ [(x + s' * g)%num]) (S m) s' X2) as (ys & E & Ly & Y); [|exact Fs'|].
    { apply holds_step; [exact Hn|exact Hd|exact Fz|exact Vz]. }
    exists (y :: ys). split; [now rewrite E|]. split; [cbn [length]; now rewrite Ly|]. intros [|i] Hi; cbn [nth].
    + rewrite Nat.add_0_r. exact Vy.
    + rewrite Y by (cbn [length] in Hi; lia). now rewrite Nat.add_succ_comm.
Qed.

Lemma ap_circulates l (Hn : (0 < length l)%nat) : forall xs d m, Forall silent xs -> holds (1 / 2) l d m ->
  exists ys, ap_spec d m xs = ys /\ length ys = length xs /\
    forall i, (i < length xs)%nat -> val (nth i ys (of_int 0)) = echo (1 / 2) ((m + i) / length l) (val (nth ((m + i) mod length l) l (of_int 0))).
Proof.
  intros xs. induction xs as [|x xs IH]; intros d m Hx Hd.
  - exists []. split; [reflexivity|]. split; [reflexivity|]. cbn. lia.
  - inversion_clear Hx as [|? ? X1 X2]. cbn [map ap_spec].
    change (nth m d (nint 0)) with (nth m d (of_int 0)). set (y := nth m d (of_int 0)).
    assert (Hm : (m < length d)%nat) by (destruct Hd; lia). destruct (proj2 Hd m Hm) as [Fy Vy]. fold y in Fy, Vy.
    destruct (lit_exact 1 (-1) ltac:(lia) ltac:(lia)) as [FH VH]. change (pow2 (-1)) with (/ 2) in VH. replace (1 * / 2) with (1 / 2) in VH by lra.
    destruct (mul_small y (lit 1 (-1)) Fy FH) as [Fw Vw]; [rewrite VH, Rabs_pos_eq; lra|]. rewrite VH in Vw.
    destruct (add_silent x _ X1 Fw) as [Fz Vz]. rewrite Vw in Vz.
    assert (SN : silent (fneg x)). { destruct X1 as [Fx Vx]. split; [now rewrite fin_fneg|rewrite val_fneg, Vx; ring]. }
    destruct (add_silent (fneg x) y SN Fy) as [_ Vo].
    destruct (IH (d ++ [(x + y * ndy 1 (-1))%num]) (S m) X2) as (ys & E & Ly & Y).
    { apply holds_step; [exact Hn|exact Hd|exact Fz|exact Vz]. }
    exists (((- x) + y)%num :: ys). split; [now rewrite E|]. split; [cbn [length]; now rewrite Ly|]. intros [|i] Hi; cbn [nth].
    + rewrite Nat.add_0_r. rewrite <- Vy. exact Vo.
    + rewrite Y by (cbn [length] in Hi; lia). now rewrite Nat.add_succ_comm.
Qed.

(** ** A comb that never falls silent: the rounded operations are monotone, so lower bounds are kept *)
Lemma rnd_ge_tiny (r : R) (k : Z) : 0 <= r -> (k <= ZnearestE r)%Z -> (0 <= k <= 2 ^ 24)%Z -> forall x, r * tiny <= x -> IZR k * tiny <= rnd x.
Proof.
  intros P K B x H. destruct (Rle_or_lt r (2 ^ 24)) as [L|L].
  - eapply Rle_trans; [|apply rnd_le, H]. rewrite rnd_tiny by (rewrite Rabs_pos_eq; assumption).
    apply Rmult_le_compat_r; [apply Rlt_le, tiny_pos|now apply IZR_le].
  - apply rnd_ge_repr; [unfold tiny; apply repr_dy; lia|]. eapply Rle_trans; [|exact H]. apply Rmult_le_compat_r; [apply Rlt_le, tiny_pos|].
    apply Rle_trans with (2 ^ 24); [|lra]. replace (2 ^ 24) with (IZR (2 ^ 24)) by (change (2 ^ 24)%Z with 16777216%Z; lra). apply IZR_le. lia.
Qed.

(** 1 - d rounded, and what it does to a sum of parts. *)
Lemma complement d : 0 <= d <= 1 -> 0 <= rnd (1 - d) <= 1 /\ rnd (1 - d) + d <= 1 + pow2 (-25).
Proof.
  intros H. assert (R1 : repr 1) by (replace 1 with (IZR 1 * pow2 0) by (cbn; lra); apply repr_dy; lia).
  split; [split; [apply rnd_ge_repr; [apply repr_0|lra]|apply rnd_le_repr; [exact R1|lra]]|].
  pose proof (rnd_err_bpow (1 - d) 0 ltac:(lia)) as E. change (pow2 0) with 1 in E. change (0 - 25)%Z with (-25)%Z in E.
  assert (Q : Rabs (1 - d) <= 1) by (apply Rabs_le; lra). specialize (E Q). apply Rabs_le_inv in E. lra.
Qed.

Definition top : R := pow2 126.
Lemma top_pos : 0 < top. Proof. apply bpow_gt_0. Qed.
Lemma top_repr : repr top. Proof. apply repr_bpow. lia. Qed.
Lemma top_big : top < big. Proof. apply bpow_lt. lia. Qed.

Lemma top_keeps x : x <= top * (1 + pow2 (-25)) -> rnd x <= top.
Proof.
  intros H. unfold rnd. apply round_N_le_midp; [typeclasses eauto|exact top_repr|].
  assert (U : succ radix2 fexp32 top = top + pow2 103).
  { rewrite succ_eq_pos by apply Rlt_le, top_pos. rewrite ulp_neq_0 by (pose proof top_pos; lra). unfold cexp, top. rewrite mag_bpow. reflexivity. }
  rewrite U. replace (top * (1 + pow2 (-25))) with (top + pow2 101) in H by (rewrite Rmult_plus_distr_l; unfold top; rewrite <- bpow_plus, Rmult_1_r; reflexivity).
  replace (pow2 103) with (4 * pow2 101) by (change 4 with (pow2 2); rewrite <- bpow_plus; reflexivity). pose proof (bpow_gt_0 radix2 101). lra.
Qed.

Lemma top_times d : repr d -> repr (top * d).
Proof.
  intros R. destruct (FLT_format_generic radix2 (-149) 24 d R) as [[m e] E M L]. cbn [Fnum Fexp] in M, L.
  rewrite E. unfold F2R. cbn [Fnum Fexp]. replace (top * (IZR m * pow2 e)) with (IZR m * pow2 (126 + e)) by (rewrite bpow_plus; fold top; ring).
  apply repr_dy; [|lia]. change (radix_val radix2 ^ 24)%Z with (2 ^ 24)%Z in M. lia.
Qed.

(** A product of a value in [0, top] and a factor in [0, 1]. *)
Lemma mul_top x g : fin x = true -> fin g = true -> 0 <= val x <= top -> 0 <= val g <= 1 ->
  fin (fmul x g) = true /\ val (fmul x g) = rnd (val x * val g) /\ 0 <= val (fmul x g) <= top * val g.
Proof.
  intros Fx Fg Hx Hg. destruct (mul_small x g Fx Fg) as [F V]; [rewrite Rabs_pos_eq; lra|]. split; [exact F|]. split; [exact V|]. rewrite V.
  split; [apply rnd_ge_repr; [apply repr_0|apply Rmult_le_pos; lra]|]. apply rnd_le_repr; [apply top_times, repr_val|]. apply Rmult_le_compat_r; lra.
Qed.

Section Hum.
Variables damp g : f32.
Variables p q r : Z.
Hypothesis Fd : fin damp = true.
Hypothesis Hd : 0 <= val damp <= 1.
Hypothesis Fg : fin g = true.
Hypothesis Hg : 0 <= val g <= 1.
Hypothesis Pp : (0 <= p <= 2 ^ 24)%Z.
Hypothesis Pq : (0 <= q <= 2 ^ 24)%Z.
Hypothesis Pr : (p <= r)%Z.
Let D := (nint 1 - damp)%num.
Hypothesis Hr : (q <= ZnearestE (IZR r * val D))%Z.
Hypothesis Hq : (q <= ZnearestE (IZR p * val D) + ZnearestE (IZR q * val damp))%Z.
Hypothesis Hp : (p <= ZnearestE (IZR q * val g))%Z.

Lemma D_ok : fin D = true /\ val D = rnd (1 - val damp) /\ 0 <= val D <= 1 /\ val D + val damp <= 1 + pow2 (-25).
Proof.
  destruct (of_int_exact 1 ltac:(lia)) as [F1 V1]. destruct (complement (val damp) Hd) as [C1 C2].
  destruct (fsub_spec (of_int 1) damp F1 Fd) as [F V].
  - rewrite V1. rewrite Rabs_pos_eq by lra. apply Rle_lt_trans with 1; [lra|]. change 1 with (pow2 0). apply bpow_lt. lia.
  - change (fsub (of_int 1) damp) with D in F, V. rewrite V1 in V. rewrite V. tauto.
Qed.

Lemma near_pos x : 0 <= x -> (0 <= ZnearestE x)%Z.
Proof. intros H. pose proof (Znearest_ge_floor (fun z => negb (Z.even z)) x) as L. assert (0 <= Zfloor x)%Z by (apply Zfloor_lub; exact H). change (Znearest _ x) with (ZnearestE x) in L. lia. Qed.

Lemma near_le x (k : Z) : 0 <= x -> x <= IZR k -> (ZnearestE x <= k)%Z.
Proof. intros H L. pose proof (Znearest_le_ceil (fun z => negb (Z.even z)) x) as U. assert (Zceil x <= k)%Z by (apply Zceil_glb; exact L). change (Znearest _ x) with (ZnearestE x) in U. lia. Qed.

(** The next state. *)
Lemma state_up y s : fin y = true -> fin s = true -> 0 <= val y <= top -> 0 <= val s <= top ->
  let s' := (y * D + s * damp)%num in fin s' = true /\ 0 <= val s' <= top /\
  (IZR r * tiny <= val y -> IZR q * tiny <= val s') /\
  (IZR p * tiny <= val y -> IZR q * tiny <= val s -> IZR q * tiny <= val s').
Proof.
  intros Fy Fs Hy Hs. destruct D_ok as (FD & VD & HD & SD). pose proof top_pos as TP. pose proof tiny_pos as P.
  destruct (mul_top y D Fy FD Hy HD) as (F1 & V1 & B1). destruct (mul_top s damp Fs Fd Hs Hd) as (F2 & V2 & B2).
  assert (UP : rnd (val (fmul y D) + val (fmul s damp)) <= top). { apply top_keeps. apply Rle_trans with (top * (val D + val damp)); [lra|]. apply Rmult_le_compat_l; lra. }
  assert (LO : 0 <= rnd (val (fmul y D) + val (fmul s damp))) by (apply rnd_ge_repr; [apply repr_0|lra]).
  destruct (fadd_spec (fmul y D) (fmul s damp) F1 F2) as [F V]; [rewrite Rabs_pos_eq by exact LO; apply Rle_lt_trans with top; [exact UP|apply top_big]|].
  cbn zeta. change ((y * D + s * damp)%num) with (fadd (fmul y D) (fmul s damp)). rewrite V. split; [exact F|]. split; [split; assumption|].
  assert (RQ : repr (IZR q * tiny)) by (unfold tiny; apply repr_dy; lia).
  assert (P0 : forall z x, (0 <= z)%Z -> 0 <= x -> 0 <= IZR z * x) by (intros z x Hz Hx; apply Rmult_le_pos; [apply (IZR_le 0); exact Hz|exact Hx]).
  split.
  - intros L. apply rnd_ge_repr; [exact RQ|]. apply Rle_trans with (val (fmul y D)); [|lra]. rewrite V1.
    apply rnd_ge_tiny with (IZR r * val D); [apply P0; [lia|lra]|exact Hr|exact Pq|].
    replace (IZR r * val D * tiny) with (IZR r * tiny * val D) by ring. apply Rmult_le_compat_r; lra.
  - intros L1 L2. apply rnd_ge_repr; [exact RQ|].
    set (k1 := ZnearestE (IZR p * val D)) in *. set (k2 := ZnearestE (IZR q * val damp)) in *.
    assert (K1 : (0 <= k1 <= 2 ^ 24)%Z).
    { split; [apply near_pos, P0; [lia|lra]|]. apply Z.le_trans with p; [|lia]. apply near_le; [apply P0; [lia|lra]|]. rewrite <- (Rmult_1_r (IZR p)) at 2. apply Rmult_le_compat_l; [apply (IZR_le 0); lia|lra]. }
    assert (K2 : (0 <= k2 <= 2 ^ 24)%Z).
    { split; [apply near_pos, P0; [lia|lra]|]. apply Z.le_trans with q; [|lia]. apply near_le; [apply P0; [lia|lra]|]. rewrite <- (Rmult_1_r (IZR q)) at 2. apply Rmult_le_compat_l; [apply (IZR_le 0); lia|lra]. }
    assert (Y1 : IZR k1 * tiny <= val (fmul y D)).
    { rewrite V1. apply rnd_ge_tiny with (IZR p * val D); [apply P0; [lia|lra]|apply Z.le_refl|exact K1|].
      replace (IZR p * val D * tiny) with (IZR p * tiny * val D) by ring. apply Rmult_le_compat_r; lra. }
    assert (Y2 : IZR k2 * tiny <= val (fmul s damp)).
    { rewrite V2. apply rnd_ge_tiny with (IZR q * val damp); [apply P0; [lia|lra]|apply Z.le_refl|exact K2|].
      replace (IZR q * val damp * tiny) with (IZR q * tiny * val damp) by ring. apply Rmult_le_compat_r; lra. }
    apply Rle_trans with (IZR (k1 + k2) * tiny); [apply Rmult_le_compat_r; [lra|now apply IZR_le]|]. rewrite plus_IZR. lra.
Qed.

(** What is stored. *)
Lemma stored x s : silent x -> fin s = true -> 0 <= val s <= top ->
  let w := (x + s * g)%num in fin w = true /\ 0 <= val w <= top /\ (IZR q * tiny <= val s -> IZR p * tiny <= val w).
Proof.
  intros Sx Fs Hs. destruct (mul_top s g Fs Fg Hs Hg) as (F1 & V1 & B1). destruct (add_silent x _ Sx F1) as [F V].
  cbn zeta. change ((x + s * g)%num) with (fadd x (fmul s g)). rewrite V. split; [exact F|]. split.
  - split; [lra|]. apply Rle_trans with (top * val g); [lra|]. rewrite <- (Rmult_1_r top) at 2. apply Rmult_le_compat_l; [apply Rlt_le, top_pos|lra].
  - intros L. rewrite V1. apply rnd_ge_tiny with (IZR q * val g); [apply Rmult_le_pos; [apply (IZR_le 0); lia|lra]|exact Hp|exact Pp|].
    replace (IZR q * val g * tiny) with (IZR q * tiny * val g) by ring. apply Rmult_le_compat_r; lra.
Qed.

Definition audible (y : f32) : Prop := fin y = true /\ IZR p * tiny <= val y <= top.

Lemma p_pos_tiny : 0 <= IZR p * tiny.
Proof. apply Rmult_le_pos; [apply (IZR_le 0); lia|apply Rlt_le, tiny_pos]. Qed.

Lemma hum xs : forall d m s, Forall silent xs -> (m < length d)%nat -> (forall i, (m <= i < length d)%nat -> audible (nth i d (of_int 0))) ->
  fin s = true -> 0 <= val s <= top -> IZR q * tiny <= val s \/ IZR r * tiny <= val (nth m d (of_int 0)) ->
  Forall audible (comb_spec d m s damp g (map CTick xs)).
Proof.
  induction xs as [|x xs IH]; intros d m s Hx Hm Hl Fs Hs Hor; [constructor|].
  inversion_clear Hx as [|? ? X1 X2]. cbn [map comb_spec]. change (nth m d (nint 0)) with (nth m d (of_int 0)). set (y := nth m d (of_int 0)) in *.
  pose proof (Hl m ltac:(lia)) as Ay. fold y in Ay. pose proof Ay as [Fy By]. pose proof p_pos_tiny as PP.
  destruct (state_up y s Fy Fs ltac:(lra) Hs) as (Fs' & Bs' & U1 & U2). fold D. set (s' := (y * D + s * damp)%num) in *.
  assert (Q' : IZR q * tiny <= val s') by (destruct Hor as [H|H]; [apply U2; [lra|exact H]|apply U1; exact H]).
  destruct (stored x s' X1 Fs' Bs') as (Fw & Bw & W). set (w := (x + s' * g)%num) in *.
  constructor; [exact Ay|]. apply IH; [exact X2| | |exact Fs'|exact Bs'|left; exact Q'].
  - rewrite app_length. cbn [length]. lia.
  - intros i Hi. rewrite app_length in Hi. cbn [length] in Hi. destruct (Nat.lt_ge_cases i (length d)) as [K|K].
    + rewrite app_nth1 by exact K. apply Hl. lia.
    + rewrite app_nth2 by exact K. replace (i - length d)%nat with 0%nat by lia. cbn [nth]. split; [exact Fw|]. split; [apply W, Q'|lra].
Qed.
End Hum.

(** ** A biquad that never falls silent *)
Lemma stuck (c : coeffs f32) (p : Z) (x : nat -> f32) b : finite_coeffs c -> (forall n, silent (x n)) ->
  (Z.abs p <= 2 ^ 20)%Z -> Rabs (val (a1 c)) <= 8 -> Rabs (val (a2 c)) <= 8 ->
  (ZnearestE (val (a1 c) * IZR p) + ZnearestE (val (a2 c) * IZR p) = - p)%Z ->
  let held b := bq_coeffs b = c /\ fin (z1 b) = true /\ fin (z2 b) = true /\ val (z1 b) = IZR p * tiny /\ val (z2 b) = - (IZR (ZnearestE (val (a2 c) * IZR p)) * tiny) in
  held b -> forall n, held (after b x n) /\ val (response b x n) = IZR p * tiny.
Proof.
  intros (Fb0 & Fb1 & Fb2 & Fa1 & Fa2) Hx Hp B1 B2 E held.
  assert (BIG : 2 ^ 24 * tiny < big).
  { replace (2 ^ 24) with (pow2 24) by (cbn; lra). unfold tiny. rewrite <- bpow_plus. apply bpow_lt. lia. }
  assert (AP : Rabs (IZR p) <= 2 ^ 20). { rewrite <- abs_IZR. replace (2 ^ 20) with (IZR (2 ^ 20)) by (change (2 ^ 20)%Z with 1048576%Z; lra). now apply IZR_le. }
  assert (MUL : forall a y, fin a = true -> Rabs (val a) <= 8 -> fin y = true -> val y = IZR p * tiny ->
    fin (fmul a y) = true /\ val (fmul a y) = IZR (ZnearestE (val a * IZR p)) * tiny /\ (Z.abs (ZnearestE (val a * IZR p)) <= 2 ^ 23)%Z).
  { intros a y Fa Ba Fy Vy. assert (BP : Rabs (val a * IZR p) <= 2 ^ 23).
    { rewrite Rabs_mult. replace (2 ^ 23) with (8 * 2 ^ 20) by lra. apply Rmult_le_compat; try apply Rabs_pos; assumption. }
    assert (BZ : (Z.abs (ZnearestE (val a * IZR p)) <= 2 ^ 23)%Z).
    { apply Rabs_le_inv in BP. replace (2 ^ 23) with (IZR (2 ^ 23)) in BP by (change (2 ^ 23)%Z with 8388608%Z; lra).
      pose proof (Znearest_le_ceil (fun z => negb (Z.even z)) (val a * IZR p)) as U. pose proof (Znearest_ge_floor (fun z => negb (Z.even z)) (val a * IZR p)) as L.
      change (Znearest _ (val a * IZR p)) with (ZnearestE (val a * IZR p)) in *.
      assert (Zceil (val a * IZR p) <= 2 ^ 23)%Z by (apply Zceil_glb; lra).
      assert (- 2 ^ 23 <= Zfloor (val a * IZR p))%Z by (apply Zfloor_lub; rewrite opp_IZR; lra). lia. }
    assert (V : rnd (val a * val y) = IZR (ZnearestE (val a * IZR p)) * tiny).
    { rewrite Vy. replace (val a * (IZR p * tiny)) with (val a * IZR p * tiny) by ring. apply rnd_tiny. lra. }
    destruct (fmul_spec a y Fa Fy) as [F VV]; [|rewrite V in VV; tauto].
    rewrite V, Rabs_mult, (Rabs_pos_eq tiny) by apply Rlt_le, tiny_pos. eapply Rle_lt_trans; [|exact BIG]. apply Rmult_le_compat_r; [apply Rlt_le, tiny_pos|].
    rewrite <- abs_IZR. replace (2 ^ 24) with (IZR (2 ^ 24)) by (change (2 ^ 24)%Z with 16777216%Z; lra). apply IZR_le. lia. }
  assert (SUB : forall a b j k, fin a = true -> fin b = true -> val a = IZR j * tiny -> val b = IZR k * tiny -> (Z.abs (j - k) <= 2 ^ 24)%Z ->
    fin (fsub a b) = true /\ val (fsub a b) = IZR (j - k) * tiny).
  { intros a b' j k Fa Fb Va Vb K. assert (V : rnd (val a - val b') = IZR (j - k) * tiny).
    { rewrite Va, Vb, minus_IZR. replace (IZR j * tiny - IZR k * tiny) with (IZR (j - k) * tiny) by (rewrite minus_IZR; ring). rewrite <- minus_IZR. apply rnd_repr. unfold tiny. apply repr_dy; lia. }
    destruct (fsub_spec a b' Fa Fb) as [F VV]; [|rewrite V in VV; tauto].
    rewrite V, Rabs_mult, (Rabs_pos_eq tiny) by apply Rlt_le, tiny_pos. eapply Rle_lt_trans; [|exact BIG]. apply Rmult_le_compat_r; [apply Rlt_le, tiny_pos|].
    rewrite <- abs_IZR. replace (2 ^ 24) with (IZR (2 ^ 24)) by (change (2 ^ 24)%Z with 16777216%Z; lra). apply IZR_le. lia. }
  assert (STEP : forall b0 xn, held b0 -> silent xn -> held (fst (bq_process b0 xn)) /\ val (snd (bq_process b0 xn)) = IZR p * tiny).
  { intros b' xn (C & F1 & F2 & V1 & V2) S. unfold held, bq_process. rewrite C. cbn [fst snd z1 z2 bq_coeffs].
    set (y := (b0 c * xn + z1 b')%num).
    destruct (add_silent _ (z1 b') (proj1 (mul_silent (b0 c) xn Fb0 S)) F1) as [Fy Vy]. change (fadd (fmul (b0 c) xn) (z1 b')) with y in Fy, Vy. rewrite V1 in Vy.
    destruct (MUL (a1 c) y Fa1 B1 Fy Vy) as (Fp & Vp & Kp). destruct (MUL (a2 c) y Fa2 B2 Fy Vy) as (Fq & Vq & Kq).
    destruct (add_silent _ (z2 b') (proj1 (mul_silent (b1 c) xn Fb1 S)) F2) as [Ft Vt]. rewrite V2 in Vt.
    destruct (mul_silent (b2 c) xn Fb2 S) as [[Fu Vu] _].
    replace (- (IZR (ZnearestE (val (a2 c) * IZR p)) * tiny)) with (IZR (- ZnearestE (val (a2 c) * IZR p)) * tiny) in * by (rewrite opp_IZR; ring).
    set (n1 := ZnearestE (val (a1 c) * IZR p)) in *. set (n2 := ZnearestE (val (a2 c) * IZR p)) in *.
    destruct (SUB _ _ (- n2)%Z n1 Ft Fp Vt Vp ltac:(lia)) as [Fz1 Vz1].
    destruct (SUB _ _ 0%Z n2 Fu Fq ltac:(rewrite Vu; ring) Vq ltac:(lia)) as [Fz2 Vz2].
    replace (- n2 - n1)%Z with p in Vz1 by lia. replace (0 - n2)%Z with (- n2)%Z in Vz2 by lia.
    split; [|exact Vy]. split; [reflexivity|]. split; [exact Fz1|]. split; [exact Fz2|]. split; [exact Vz1|exact Vz2]. }
  intros Hb n. assert (H : held (after b x n)).
  { induction n as [|n IH]; [exact Hb|]. cbn [after]. apply STEP; [exact IH|apply Hx]. }
  split; [exact H|]. unfold response. now apply STEP.
Qed.
End Units.
