(** * Theorems: the contents of the band-limited rectangle table and what the lookup computes (C91). *)

From Coq Require Import ZArith List Bool Reals Lia Lra.
From Flocq Require Import Core.
From Verif Require Import Base F32 F32Lemmas F32Exact F32Ints F32Range Num M_Memory S_Memory S_SineIntegral P_Memory P_Interp P_SineAcc P_SiQuad M_BlRect M_BlRectTable P_BlRectTable T_BlRect Examples.
Import ListNotations.
Local Open Scope R_scope.

Lemma pow2_neg e : (e <= 0)%Z -> pow2 e * IZR (2 ^ (- e)) = 1.
Proof. intros H. rewrite (IZR_Zpower radix2) by lia. rewrite <- bpow_plus. replace (e + - e)%Z with 0%Z by lia. reflexivity. Qed.

Lemma literal_near d m e : literal_ok (d, m, e) = true ->
  fin (lit m e) = true /\ val (lit m e) = IZR m * pow2 e /\ Rabs (val (lit m e) - IZR d / 1000000000) <= pow2 e / 2.
Proof.
  unfold literal_ok. rewrite orb_true_iff, !andb_true_iff, !Z.eqb_eq, !Z.leb_le, !Z.ltb_lt. intros [[[-> ->] ->]|[[[[A B] C] D] E]].
  - destruct (lit_exact 0 0 ltac:(cbn; lia) ltac:(lia)) as [F V]. split; [exact F|]. split; [exact V|]. rewrite V. change (pow2 0) with 1. replace (0 * 1 - 0 / 1000000000) with 0 by lra. rewrite Rabs_R0. lra.
  - destruct (lit_exact m e ltac:(lia) ltac:(lia)) as [F V]. split; [exact F|]. split; [exact V|]. rewrite V.
    apply Z.lt_le_incl, IZR_le in E. rewrite mult_IZR, abs_IZR, minus_IZR, !mult_IZR in E. pose proof (pow2_neg e ltac:(lia)) as P.
    change (IZR (10 ^ 9)) with 1000000000 in E. set (p := IZR (2 ^ (- e))) in *. assert (Q : 0 < pow2 e) by apply bpow_gt_0.
    set (q := pow2 e) in *. clearbody p q. replace (IZR m * q - IZR d / 1000000000) with (q / 1000000000 * (IZR m * 1000000000 - IZR d * p)).
    + rewrite Rabs_mult, (Rabs_pos_eq (q / 1000000000)) by lra. set (r := Rabs (IZR m * 1000000000 - IZR d * p)) in *. apply Rle_trans with (q / 1000000000 * (1000000000 / 2)); [apply Rmult_le_compat_l; lra|lra].
    + replace (IZR m * q - IZR d / 1000000000) with (IZR m * q - IZR d / 1000000000 * (q * p)) by (rewrite P; ring). field.
Qed.

(** C91: the table has 5075 entries. Each is the f32 nearest to its literal. A band-limited
    step is Si(t) / pi; entry k is instead 5/3 of it at t = k pi / 100, the factor by which the
    library's own [si] is wrong (C89). *)
Theorem C91_table_refuted :
  Z.of_nat (length bl_rect_table) = bl_rect_len /\
  (forall d m e, In (d, m, e) bl_rect_literals ->
     fin (lit m e) = true /\ val (lit m e) = IZR m * pow2 e /\ Rabs (val (lit m e) - IZR d / 1000000000) <= pow2 e / 2) /\
  forall k v, nthz bl_rect_table k = Some v ->
    fin v = true /\ Rabs (val v - 5 / 3 * (sine_integral (PI / 100 * IZR k) / PI)) <= 42 / 10000000.
Proof.
  destruct table_literals as [Ok Len]. assert (L : Z.of_nat (length bl_rect_table) = 5075%Z) by (unfold bl_rect_table; rewrite map_length; exact Len).
  split; [exact L|]. split.
  - intros d m e H. apply literal_near. rewrite forallb_forall in Ok. exact (Ok _ H).
  - intros k v H. pose proof (nthz_bounds _ _ _ H) as Hk. rewrite L in Hk. apply nthz_Some in H. destruct H as [_ H].
    destruct (table_entry k Hk) as [F A]. rewrite (nth_error_nth _ _ _ H) in F, A. split; [exact F|].
    unfold bl_curve in A. replace (5 / 3 * (sine_integral (PI / 100 * IZR k) / PI)) with (5 / (3 * PI) * sine_integral (PI / 100 * IZR k)) by (field; apply PI_neq0). exact A.
Qed.
Print Assumptions C91_table_refuted.

Lemma bl_chord k t : 0 <= t <= 1 -> Rabs ((1 - t) * bl_curve k + t * bl_curve (k + 1) - bl_curve (k + t)) <= 33 / 1000000.
Proof.
  intros Ht. unfold bl_curve. pose proof PI_tight as HP. pose proof (si_chord (PI / 100 * k) (PI / 100) t Ht) as C.
  replace (PI / 100 * (k + 1)) with (PI / 100 * k + PI / 100) by ring. replace (PI / 100 * (k + t)) with (PI / 100 * k + t * (PI / 100)) by ring.
  set (a := sine_integral (PI / 100 * k)) in *. set (b := sine_integral (PI / 100 * k + PI / 100)) in *. set (c := sine_integral (PI / 100 * k + t * (PI / 100))) in *.
  assert (K : 0 <= 5 / (3 * PI) <= 5306 / 10000).
  { split; [apply Rlt_le, Rdiv_lt_0_compat; lra|]. apply Rmult_le_reg_r with (3 * PI); [lra|]. unfold Rdiv at 1. rewrite Rmult_assoc, Rinv_l by lra. lra. }
  set (s := 5 / (3 * PI)) in *. replace ((1 - t) * (s * a) + t * (s * b) - s * c) with (s * ((1 - t) * a + t * b - c)) by ring.
  assert (H2 : PI / 100 * (PI / 100) / 16 <= 617 / 10000000).
  { apply Rle_trans with (31416 / 1000000 * (31416 / 1000000) / 16); [|lra]. apply Rmult_le_compat_r; [lra|]. apply Rmult_le_compat; lra. }
  rewrite Rabs_mult, (Rabs_pos_eq s) by lra. apply Rle_trans with (5306 / 10000 * (617 / 10000000)); [|lra]. apply Rmult_le_compat; [lra|apply Rabs_pos|lra|lra].
Qed.
Lemma bl_lip x y : Rabs (bl_curve x - bl_curve y) <= 1668 / 100000 * Rabs (x - y).
Proof.
  unfold bl_curve. pose proof PI_tight as HP. rewrite <- Rmult_minus_distr_l, Rabs_mult.
  assert (K : 0 <= 5 / (3 * PI)) by (apply Rlt_le, Rdiv_lt_0_compat; lra). rewrite (Rabs_pos_eq _ K).
  pose proof (si_lip (PI / 100 * y) (PI / 100 * x)) as L. rewrite <- Rmult_minus_distr_l, Rabs_mult, (Rabs_pos_eq (PI / 100)) in L by lra.
  apply Rle_trans with (5 / (3 * PI) * (PI / 100 * Rabs (x - y))); [now apply Rmult_le_compat_l|].
  replace (5 / (3 * PI) * (PI / 100 * Rabs (x - y))) with (5 / 300 * Rabs (x - y)) by (field; lra). apply Rmult_le_compat_r; [apply Rabs_pos|lra].
Qed.

(** Bounds on the entries. *)
Definition entry_range (l : Z * Z * Z) : bool :=
  let '(_, m, e) := l in (0 <=? m)%Z && (m <? 16777216)%Z && (-29 <=? e)%Z && (e <=? 0)%Z && (m * 2 ^ (e + 29) * 10000 <=? 9825 * 536870912)%Z.
Definition entry_high (l : Z * Z * Z) : bool := let '(_, m, e) := l in (75 * 536870912 <=? m * 2 ^ (e + 29) * 100)%Z.
Lemma ranges_ok : forallb entry_range bl_rect_literals = true /\ forallb entry_high (skipn 57 bl_rect_literals) = true.
Proof. split; vm_compute; reflexivity. Qed.

Lemma shift29 m e : (-29 <= e)%Z -> IZR (m * 2 ^ (e + 29)) = IZR m * pow2 e * 536870912.
Proof.
  intros H. rewrite mult_IZR, (IZR_Zpower radix2), bpow_plus by lia. change (bpow radix2 29) with 536870912. ring.
Qed.
Lemma entry_bound k v : nthz bl_rect_table k = Some v -> fin v = true /\ 0 <= val v <= 9825 / 10000 /\ ((57 <= k)%Z -> 75 / 100 <= val v).
Proof.
  intros H. apply nthz_Some in H. destruct H as [Hk H]. unfold bl_rect_table in H. rewrite nth_error_map in H.
  destruct (nth_error bl_rect_literals (Z.to_nat k)) as [[[d m] e]|] eqn:E; [|discriminate]. injection H as <-. cbn [literal_f32].
  destruct ranges_ok as [R1 R2]. rewrite forallb_forall in R1, R2. pose proof (R1 _ (nth_error_In _ _ E)) as Q. unfold entry_range in Q.
  rewrite !andb_true_iff, !Z.leb_le, Z.ltb_lt in Q. destruct Q as [[[[Q1 Q2] Q3] Q4] Q5].
  destruct (lit_exact m e ltac:(lia) ltac:(lia)) as [F V]. rewrite V. split; [exact F|].
  apply IZR_le in Q5. rewrite !mult_IZR, <- mult_IZR, shift29 in Q5 by lia. split.
  - split; [apply Rmult_le_pos; [now apply (IZR_le 0)|apply bpow_ge_0]|lra].
  - intros K. assert (I : In (d, m, e) (skipn 57 bl_rect_literals)).
    { apply nth_error_In with (Z.to_nat k - 57)%nat. rewrite <- E. rewrite <- (firstn_skipn 57 bl_rect_literals) at 2.
      destruct table_literals as [_ Len]. rewrite nth_error_app2 by (rewrite firstn_length; lia). reflexivity. }
    pose proof (R2 _ I) as Q. unfold entry_high in Q. apply Z.leb_le, IZR_le in Q. rewrite (mult_IZR _ 100), shift29, (mult_IZR 75) in Q by lia. lra.
Qed.

Definition wave_sign (v : R) : R := if negated v then -1 else 1.

Section Curve.
Context {NP : NanPolicy} {B : Build}.

(** Where the lookup reads and what it makes of it. *)
Lemma bl_lookup x : fin x = true -> 0 < val x < 1 -> val x <> 1 / 4 -> val x <> 3 / 4 ->
  exists (k : Z) (t : R) (p r v : f32), (0 <= k < 5074)%Z /\ nthz bl_rect_table k = Some p /\ nthz bl_rect_table (k + 1) = Some r /\ 0 <= t <= 1 /\
    Rabs (IZR k + t - 5074 * quarter (val x)) <= 25 / 100000 /\ lookup_bl_rect bl_rect_table x = Ret v /\ fin v = true /\
    Rabs (wave_sign (val x) * val v - (val p * (1 - t) + val r * t)) <= 19 / 100000000.
Proof.
  intros Fx I N1 N2. destruct C91_table_refuted as [L _].
  destruct (C77_interpolates NP B bl_rect_table x L Fx I N1 N2) as [Hk (t & p & r & Hp & Hr & Ft & Bt & Vt & _ & A)].
  assert (Hq : 0 <= quarter (val x) <= 1).
  { destruct (lookup_shape bl_rect_table x L Fx I) as (_ & _ & Q & _). exact Q. }
  set (g := rnd (quarter (val x) * 5074)) in *. set (k := Ztrunc g) in *.
  destruct (entry_bound _ _ Hp) as (Fp & Bp & _). destruct (entry_bound _ _ Hr) as (Fr & Br & _).
  destruct (A Fp Fr) as (v & E & Fv & Av). exists k, (val t), p, r, v.
  split; [exact Hk|]. split; [exact Hp|]. split; [exact Hr|]. split; [exact Bt|]. split.
  - pose proof (rnd_err_bpow (quarter (val x) * 5074) 13 ltac:(lia)) as D. change (pow2 13) with 8192 in D.
    change (pow2 (13 - 25)) with (pow2 (-12)) in D. assert (E12 : pow2 (-12) = 1 / 4096) by (cbn; lra). rewrite E12 in D.
    specialize (D ltac:(apply Rabs_le; lra)). fold g in D.
    assert (Bg : 0 <= g).
    { unfold g. rewrite <- rnd_0. apply round_le; [apply FLT_exp_valid; reflexivity|apply valid_rnd_N|]. apply Rmult_le_pos; lra. }
    assert (Tg : IZR k <= g < IZR k + 1) by (unfold k; rewrite Ztrunc_floor by exact Bg; split; [apply Zfloor_lb|apply Zfloor_ub]).
    pose proof (rnd_err_bpow (g - IZR k) 0 ltac:(lia)) as D2. change (pow2 0) with 1 in D2. change (pow2 (0 - 25)) with (pow2 (-25)) in D2.
    assert (E25 : pow2 (-25) = 1 / 33554432) by (cbn; lra). rewrite E25 in D2. specialize (D2 ltac:(apply Rabs_le; lra)).
    rewrite Vt. apply Rabs_le_inv in D, D2. apply Rabs_le. lra.
  - split; [exact E|]. split; [exact Fv|].
    assert (M : Rmax (Rabs (val p)) (Rabs (val r)) <= 1) by (apply Rmax_lub; apply Rabs_le; lra).
    assert (H24 : pow2 (-24) = 1 / 16777216) by (cbn; lra). rewrite H24 in Av.
    assert (H148 : pow2 (-148) <= 1 / 1000000000) by (apply Rle_trans with (pow2 (-40)); [apply bpow_le; lia|cbn; lra]).
    unfold wave_sign. set (z := val p * (1 - val t) + val r * val t) in *. clearbody z. destruct (negated (val x)).
    + rewrite <- Rabs_Ropp. replace (- (-1 * val v - z)) with (val v - -1 * z) by ring. lra.
    + replace (1 * val v - z) with (val v - 1 * z) by ring. lra.
Qed.
End Curve.

(** C91: so the lookup follows 5/3 Si / pi, negated in the second half of the period, at
    5074/100 pi times the position in the quarter wave. *)
Theorem C91_lookup_curve_refuted : forall (NP : NanPolicy) (B : Build) (x : f32),
  fin x = true -> 0 < val x < 1 -> val x <> 1 / 4 -> val x <> 3 / 4 ->
  exists v, lookup_bl_rect bl_rect_table x = Ret v /\ fin v = true /\
    Rabs (wave_sign (val x) * val v - 5 / 3 * (sine_integral (PI * (50.74 * quarter (val x))) / PI)) <= 45 / 1000000.
Proof.
  intros NP B x Fx I N1 N2. destruct (bl_lookup x Fx I N1 N2) as (k & t & p & r & v & Hk & Hp & Hr & Ht & Pos & E & Fv & A).
  exists v. split; [exact E|]. split; [exact Fv|].
  destruct C91_table_refuted as (_ & _ & T). destruct (T _ _ Hp) as [_ Tp]. destruct (T _ _ Hr) as [_ Tr].
  assert (EB : forall y, 5 / 3 * (sine_integral (PI / 100 * y) / PI) = bl_curve y) by (intros y; unfold bl_curve; field; apply PI_neq0).
  replace (PI * (50.74 * quarter (val x))) with (PI / 100 * (5074 * quarter (val x))) by lra. rewrite EB in *. rewrite plus_IZR in Tr.
  pose proof (bl_chord (IZR k) t Ht) as C. pose proof (bl_lip (IZR k + t) (5074 * quarter (val x))) as Lp.
  set (q := 5074 * quarter (val x)) in *. set (a := bl_curve (IZR k)) in *. set (b := bl_curve (IZR k + 1)) in *. set (c := bl_curve (IZR k + t)) in *. set (d := bl_curve q) in *.
  set (z := wave_sign (val x) * val v) in *. clearbody q a b c d z. set (vp := val p) in *. set (vr := val r) in *. clearbody vp vr.
  apply Rabs_le_inv in A, Tp, Tr, C. assert (Lp' : Rabs (c - d) <= 42 / 10000000) by (pose proof (Rabs_pos (IZR k + t - q)); lra). apply Rabs_le_inv in Lp'.
  assert (X1 : - (42 / 10000000) <= (1 - t) * (vp - a) + t * (vr - b) <= 42 / 10000000).
  { assert (P1 : (1 - t) * - (42 / 10000000) <= (1 - t) * (vp - a) <= (1 - t) * (42 / 10000000)) by (split; apply Rmult_le_compat_l; lra).
    assert (P2 : t * - (42 / 10000000) <= t * (vr - b) <= t * (42 / 10000000)) by (split; apply Rmult_le_compat_l; lra). lra. }
  apply Rabs_le. lra.
Qed.
Print Assumptions C91_lookup_curve_refuted.

(** C91: its magnitude never exceeds 0.983, and away from the edges it stays between 0.749 and
    0.983: the rectangle never reaches the level 1. *)
Theorem C91_level_refuted : forall (NP : NanPolicy) (B : Build) (x : f32),
  fin x = true -> 0 < val x < 1 -> val x <> 1 / 4 -> val x <> 3 / 4 ->
  exists v, lookup_bl_rect bl_rect_table x = Ret v /\
    - (1 / 1000000) <= wave_sign (val x) * val v <= 983 / 1000 /\
    (3 / 1000 <= val x <= 497 / 1000 \/ 503 / 1000 <= val x <= 997 / 1000 -> 749 / 1000 <= wave_sign (val x) * val v).
Proof.
  intros NP B x Fx I N1 N2. destruct (bl_lookup x Fx I N1 N2) as (k & t & p & r & v & Hk & Hp & Hr & Ht & Pos & E & Fv & A).
  exists v. split; [exact E|]. destruct (entry_bound _ _ Hp) as (_ & Bp & Gp). destruct (entry_bound _ _ Hr) as (_ & Br & Gr).
  set (z := wave_sign (val x) * val v) in *. set (vp := val p) in *. set (vr := val r) in *. clearbody z vp vr. apply Rabs_le_inv in A.
  assert (P1 : 0 <= (1 - t) * vp <= (1 - t) * (9825 / 10000)) by (split; [apply Rmult_le_pos; lra|apply Rmult_le_compat_l; lra]).
  assert (P2 : 0 <= t * vr <= t * (9825 / 10000)) by (split; [apply Rmult_le_pos; lra|apply Rmult_le_compat_l; lra]).
  split; [lra|]. intros Hx.
  assert (Q : 12 / 1000 <= quarter (val x)) by (unfold quarter; destruct (Rle_dec (val x) (1 / 4)), (Rle_dec (val x) (1 / 2)), (Rle_dec (val x) (3 / 4)); lra).
  assert (K : (57 <= k)%Z). { apply Rabs_le_inv in Pos. assert (56 < IZR k) by lra. apply (lt_IZR 56) in H. lia. }
  specialize (Gp K). specialize (Gr ltac:(lia)).
  assert (P3 : (1 - t) * (75 / 100) <= (1 - t) * vp) by (apply Rmult_le_compat_l; lra).
  assert (P4 : t * (75 / 100) <= t * vr) by (apply Rmult_le_compat_l; lra). lra.
Qed.
Print Assumptions C91_level_refuted.

(** The theorems apply at 1/8: entry 2537 interpolated with the next. *)
Example C91_met : fin (lit 1 (-3)) = true /\ val (lit 1 (-3)) = 1 / 8 /\ quarter (1 / 8) = 1 / 2 /\
  nth_error bl_rect_literals (Z.to_nat 2537) = Some (836051100, 14026610, -24)%Z.
Proof.
  destruct (lit_exact 1 (-3) ltac:(cbn; lia) ltac:(lia)) as [F V]. split; [exact F|]. split; [rewrite V; cbn; lra|].
  split; [unfold quarter; destruct (Rle_dec (1 / 8) (1 / 4)); lra|]. vm_compute. reflexivity.
Qed.
