(** * Theorems: what the table sine computes (C90). *)

From Coq Require Import ZArith List Bool Reals Lia Lra.
From Flocq Require Import Core.
From Verif Require Import Base F32 F32Lemmas F32Exact F32Ints F32Range Num M_Memory M_Sine S_Sine P_Lerp P_Interp P_Sine P_SineAcc P_SincReal P_SineFloat T_Sine Examples.
Import ListNotations.
Local Open Scope R_scope.

Lemma convex_close e0 e1 c s : 0 <= s <= 1 ->
  - (96 / 1000000 + 48 / 1000000 * (15 * s)) <= e0 / 32767 - c <= 96 / 1000000 + 48 / 1000000 * (15 * s) ->
  - (96 / 1000000 + 48 / 1000000 * (15 * (1 - s))) <= e1 / 32767 - c <= 96 / 1000000 + 48 / 1000000 * (15 * (1 - s)) ->
  - (460 / 1000000) <= (e0 + (e1 - e0) * s) / 32767 - c <= 460 / 1000000.
Proof.
  intros Bt Q1 Q2.
  assert (Q : - (460 / 1000000) <= (1 - s) * (e0 / 32767 - c) + s * (e1 / 32767 - c) <= 460 / 1000000).
  { assert (0 <= s * (1 - s) <= 1 / 4) by (split; [apply Rmult_le_pos; lra|pose proof (Rle_0_sqr (s - 1 / 2)) as Sq; unfold Rsqr in Sq; lra]).
    assert ((1 - s) * (e0 / 32767 - c) <= (1 - s) * (96 / 1000000 + 48 / 1000000 * (15 * s))) by (apply Rmult_le_compat_l; lra).
    assert ((1 - s) * (- (96 / 1000000 + 48 / 1000000 * (15 * s))) <= (1 - s) * (e0 / 32767 - c)) by (apply Rmult_le_compat_l; lra).
    assert (s * (e1 / 32767 - c) <= s * (96 / 1000000 + 48 / 1000000 * (15 * (1 - s)))) by (apply Rmult_le_compat_l; lra).
    assert (s * (- (96 / 1000000 + 48 / 1000000 * (15 * (1 - s)))) <= s * (e1 / 32767 - c)) by (apply Rmult_le_compat_l; lra).
    lra. }
  replace ((1 - s) * (e0 / 32767 - c) + s * (e1 / 32767 - c)) with ((e0 + (e1 - e0) * s) / 32767 - c) in Q by field.
  exact Q.
Qed.

Section Lookup.
Context {NP : NanPolicy} {B : Build}.

(** [lookup_finite] together with the position in the table. *)
Lemma lookup_position x : fin x = true -> exists (i : Z) (t v : f32),
  lookup_sin x = Ret v /\ (0 <= i <= 4095)%Z /\ within t 0 1 /\
  v = fdiv (if (i =? 4095)%Z then of_int (entry i) else lerp_unchecked (of_int (entry i)) (of_int (entry (i + 1))) t) (of_int 32767) /\
  Rabs (IZR i + val t - 4095 * (Rabs (val (normalized_rads x)) / 2)) <= 1 / 2000 /\ (i = 4095%Z -> val t = 0).
Proof.
  intros Fx. destruct (sine_table_ok 4096 ltac:(lia)) as [].
  destruct (sine_table 4096) as [tb| |] eqn:Et; [|now rewrite sine_table_ok in Et by lia|now rewrite sine_table_ok in Et by lia].
  assert (T : forall i, (0 <= i < 4096)%Z -> table_index tb i = Ret (entry i) /\ Z.of_nat (length tb) = 4096%Z).
  { intros i Hi. exact (table_nth 4096 i ltac:(lia) Hi tb Et). }
  assert (Len : Z.of_nat (length tb) = 4096%Z) by (apply (T 0%Z); lia).
  unfold lookup_sin. rewrite Et. cbn [bind]. rewrite Len. change (4096 - 1)%Z with 4095%Z.
  destruct (normalized_range x Fx) as [Fn Bn].
  assert (Ha : 0 <= Rabs (val (normalized_rads x)) <= 2) by (split; [apply Rabs_pos|apply Rabs_le; lra]).
  destruct (isv_int 2 ltac:(lia)) as [F2 V2]. destruct (isv_int 4095 ltac:(lia)) as [F9 V9]. pose proof big_ge.
  destruct (div_within (fabs (normalized_rads x)) (of_int 2) 0 1) as [[Fq Bq] Vq]; auto; try lra.
  { now rewrite fin_fabs. }
  { apply repr_0. }
  { apply (repr_int 1). lia. }
  { rewrite val_fabs, V2. lra. }
  rewrite val_fabs, V2 in Vq.
  destruct (mul_within (of_int 4095) (fdiv (fabs (normalized_rads x)) (of_int 2)) 0 4095) as [[Fm Bm] Vm]; auto; try lra.
  { apply repr_0. }
  { apply (repr_int 4095). lia. }
  { rewrite V9. lra. }
  rewrite V9 in Vm.
  set (f := fmul (of_int 4095) (fdiv (fabs (normalized_rads x)) (of_int 2))) in *. set (a := Rabs (val (normalized_rads x)) / 2) in *.
  assert (E1 : Rabs (val f - 4095 * a) <= 1 / 2000).
  { assert (R1 : Rabs (rnd a - a) <= pow2 (1 - 25)) by (apply rnd_err_bpow; [lia|]; unfold a; rewrite Rabs_pos_eq by lra; change (pow2 1) with 2; lra).
    rewrite <- Vq in R1. change (pow2 (1 - 25)) with (/ 16777216) in R1.
    assert (R2 : Rabs (rnd (4095 * val (fdiv (fabs (normalized_rads x)) (of_int 2))) - 4095 * val (fdiv (fabs (normalized_rads x)) (of_int 2))) <= pow2 (12 - 25)).
    { apply rnd_err_bpow; [lia|]. rewrite Rabs_pos_eq by lra. change (pow2 12) with 4096. lra. }
    rewrite <- Vm in R2. change (pow2 (12 - 25)) with (/ 8192) in R2. apply Rabs_le_inv in R1, R2. apply Rabs_le. lra. }
  assert (Tr : (0 <= Ztrunc (val f) <= 4095)%Z).
  { apply trunc_between; lra. }
  assert (Ti : to_usize f = Ztrunc (val f)).
  { unfold to_usize. rewrite to_int_fin by exact Fm.
    assert (4095 <= usize_max)%Z by (unfold usize_max, usize_mod, usize_bits; destruct ptr_w; cbn; lia). lia. }
  set (i := Ztrunc (val f)) in *. rewrite Ti.
  destruct (frac_exact f i Fm ltac:(lra) ltac:(lia) eq_refl) as (Fi & Vi & Ff & Vf & Rest).
  pose proof (Ztrunc_bounds_pos (val f) ltac:(lra)) as Hfr. fold i in Hfr.
  exists i, (fsub f (of_int i)).
  assert (Pos : Rabs (IZR i + val (fsub f (of_int i)) - 4095 * a) <= 1 / 2000 /\ (i = 4095%Z -> val (fsub f (of_int i)) = 0)).
  { rewrite Vf. clear - E1 Hfr Bm. clearbody i. generalize dependent (val f). intros y Bm E1 Hfr.
    split; [replace (IZR i + (y - IZR i) - 4095 * a) with (y - 4095 * a) by ring; exact E1|]. intros ->. lra. }
  destruct (Z.eqb_spec i 4095) as [E|E]; cbn [negb].
  - destruct (T i ltac:(lia)) as [-> _]. cbn [bind]. eexists. split; [reflexivity|]. split; [lia|].
    split; [split; [exact Ff|]; rewrite Vf; lra|]. split; [reflexivity|exact Pos].
  - destruct (T i ltac:(lia)) as [-> _]. destruct (T (i + 1)%Z ltac:(lia)) as [-> _]. cbn [bind].
    eexists. split; [reflexivity|]. split; [lia|].
    split; [split; [exact Ff|]; rewrite Vf; lra|]. split; [reflexivity|exact Pos].
Qed.

(** The table curve at a real phase. *)
Let curve (p : R) : R := sin (PI / 2 * (p / 32767)).

Lemma curve_lip p q : Rabs (curve p - curve q) <= 48 / 1000000 * Rabs (p - q).
Proof.
  unfold curve. apply Rle_trans with (1 := sin_lip _ _). replace (PI / 2 * (p / 32767) - PI / 2 * (q / 32767)) with (PI / 65534 * (p - q)) by field.
  pose proof PI_tight. rewrite Rabs_mult, (Rabs_pos_eq (PI / 65534)) by lra. apply Rmult_le_compat_r; [apply Rabs_pos|lra].
Qed.
Lemma entry_curve i : (0 <= i <= 4095)%Z -> Rabs (IZR (entry i) / 32767 - curve (15 * IZR i - 32767)) <= 96 / 1000000.
Proof.
  intros Hi. pose proof (sin_accuracy (i * 15 - 32767) ltac:(lia)) as A. unfold ideal in A. unfold entry, curve.
  generalize dependent (sin_fixed (i * 15 - 32767) 4). intros e A.
  replace (IZR (i * 15 - 32767)) with (15 * IZR i - 32767) in A by (rewrite minus_IZR, mult_IZR; ring).
  set (c := sin (PI / 2 * ((15 * IZR i - 32767) / 32767))) in *.
  replace (IZR e / 32767 - c) with ((IZR e - 32767 * c) / 32767) by field. apply Rabs_le. lra.
Qed.

Lemma lookup_curve x : fin x = true -> exists v, lookup_sin x = Ret v /\ fin v = true /\
  Rabs (val v - curve (30712.5 * (Rabs (val (normalized_rads x)) - 1) - 2054.5)) <= 5 / 10000.
Proof.
  intros Fx. destruct (lookup_position x Fx) as (i & t & v & E & Hi & [Ft Bt] & Ev & Pos & Last). exists v. split; [exact E|].
  set (a := Rabs (val (normalized_rads x))) in *.
  set (w := if (i =? 4095)%Z then of_int (entry i) else lerp_unchecked (of_int (entry i)) (of_int (entry (i + 1))) t) in *.
  set (P := 15 * (IZR i + val t) - 32767).
  assert (W : fin w = true /\ Rabs (val w / 32767 - curve P) <= 470 / 1000000).
  { unfold w. pose proof (entry_bounds i Hi) as B1. destruct (isv_int (entry i) ltac:(lia)) as [F1 V1].
    destruct B1 as [B1 B1']. apply IZR_le in B1, B1'. pose proof (entry_curve i Hi) as C1.
    destruct (Z.eqb_spec i 4095) as [Ei|N].
    - split; [exact F1|]. rewrite V1. unfold P. rewrite (Last Ei), Rplus_0_r. lra.
    - pose proof (entry_bounds (i + 1) ltac:(lia)) as B2. destruct (isv_int (entry (i + 1)) ltac:(lia)) as [F2 V2].
      destruct B2 as [B2 B2']. apply IZR_le in B2, B2'. pose proof (entry_curve (i + 1) ltac:(lia)) as C2.
      assert (U : unit_range t) by (split; [exact Ft|exact Bt]).
      split; [now apply lerp_exact_form|].
      pose proof (lerp_accuracy _ _ t F1 F2 U) as A. rewrite V1, V2 in A.
      assert (M : Rmax (Rabs (IZR (entry i))) (Rabs (IZR (entry (i + 1)))) <= 32768) by (apply Rmax_lub; apply Rabs_le; lra).
      assert (H24 : pow2 (-24) = 1 / 16777216) by (cbn; lra). rewrite H24 in A.
      assert (H148 : pow2 (-148) <= 1 / 1000000) by (apply Rle_trans with (pow2 (-40)); [apply bpow_le; lia|cbn; lra]).
      set (e0 := IZR (entry i)) in *. set (e1 := IZR (entry (i + 1))) in *. set (s := val t) in *.
      assert (A' : Rabs (val (lerp_unchecked (of_int (entry i)) (of_int (entry (i + 1))) t) - (e0 + (e1 - e0) * s)) <= 1 / 100).
      { apply Rabs_le_inv in A. apply Rabs_le. split; nra. }
      set (L := val (lerp_unchecked (of_int (entry i)) (of_int (entry (i + 1))) t)) in *.
      rewrite plus_IZR in C2.
      pose proof (curve_lip (15 * IZR i - 32767) P) as K1. pose proof (curve_lip (15 * (IZR i + 1) - 32767) P) as K2.
      unfold P in K1 at 2. unfold P in K2 at 2.
      replace (15 * IZR i - 32767 - (15 * (IZR i + s) - 32767)) with (- (15 * s)) in K1 by ring. rewrite Rabs_Ropp, (Rabs_pos_eq (15 * s)) in K1 by lra.
      replace (15 * (IZR i + 1) - 32767 - (15 * (IZR i + s) - 32767)) with (15 * (1 - s)) in K2 by ring. rewrite (Rabs_pos_eq (15 * (1 - s))) in K2 by lra.
      set (c0 := curve (15 * IZR i - 32767)) in *. set (c1 := curve (15 * (IZR i + 1) - 32767)) in *. set (c := curve P) in *.
      apply Rabs_le_inv in A', C1, C2, K1, K2.
      pose proof (convex_close e0 e1 c s ltac:(lra) ltac:(lra) ltac:(lra)) as Q. clear - A' Q. clearbody L e0 e1 c s.
      apply Rabs_le. lra. }
  destruct W as [Fw Bw]. destruct (isv_int 32767 ltac:(lia)) as [Fm Vm]. pose proof big_ge.
  assert (Bw2 : Rabs (val w / 32767) <= 2).
  { assert (Rabs (curve P) <= 1) by (apply Rabs_le; apply SIN_bound). apply Rabs_le_inv in Bw, H0. apply Rabs_le. lra. }
  destruct (div_within w (of_int 32767) (-2) 2) as [[Fv _] Vv]; auto; try lra.
  { apply (repr_int (-2)). lia. }
  { apply (repr_int 2). lia. }
  { rewrite Vm. now apply Rabs_le_inv. }
  rewrite Ev. split; [exact Fv|]. rewrite Vv, Vm.
  assert (R1 : Rabs (rnd (val w / 32767) - val w / 32767) <= pow2 (1 - 25)).
  { apply rnd_err_bpow; [lia|]. change (pow2 1) with 2. exact Bw2. }
  change (pow2 (1 - 25)) with (/ 16777216) in R1.
  pose proof (curve_lip P (30712.5 * (a - 1) - 2054.5)) as K. unfold P in K at 2.
  replace (15 * (IZR i + val t) - 32767 - (30712.5 * (a - 1) - 2054.5)) with (15 * (IZR i + val t - 4095 * (a / 2))) in K by lra.
  rewrite Rabs_mult, (Rabs_pos_eq 15) in K by lra. apply Rabs_le_inv in R1, Bw. apply Rabs_le_inv in K. apply Rabs_le. lra.
Qed.
End Lookup.

(** C90: with t the angle in [-pi/2, pi/2] that has the sine of the argument, [lookup_sin]
    returns the sine of (61425 t - 2054.5 pi) / 65534 instead of the sine of t: the table stops
    4109 phases short of the quarter turn but is spread over all of it. *)
Theorem C90_lookup_sin_curve_refuted : forall (NP : NanPolicy) (B : Build) (x : f32), fin x = true ->
  exists v (t : R), lookup_sin x = Ret v /\ fin v = true /\
    - (PI / 2) <= t <= PI / 2 /\ Rabs (sin t - sin (val x)) <= pow2 (-22) * Rabs (val x) + 1 / 1000000 /\
    Rabs (val v - sin ((61425 * t - 2054.5 * PI) / 65534)) <= 51 / 100000.
Proof.
  intros NP B x Fx. destruct (lookup_curve x Fx) as (v & E & Fv & A). destruct (quadrant_close x Fx) as (y & Y1 & t & St & Bt & Y2).
  exists v, t. split; [exact E|]. split; [exact Fv|]. split; [now apply Rabs_le_inv|]. split.
  { rewrite St. apply Rle_trans with (2 := Y1). apply sin_lip. }
  destruct (normalized_range x Fx) as [Fn Bn]. destruct (isv_int 1 ltac:(lia)) as [F1 V1]. pose proof big_ge.
  set (a := Rabs (val (normalized_rads x))) in *. assert (Ha : 0 <= a <= 2) by (unfold a; split; [apply Rabs_pos|apply Rabs_le; lra]).
  destruct (sub_within (fabs (normalized_rads x)) (of_int 1) (-1) 1) as [_ Vs]; auto; try lra.
  { now rewrite fin_fabs. }
  { apply (repr_int (-1)). lia. }
  { apply (repr_int 1). lia. }
  { rewrite val_fabs, V1. fold a. lra. }
  rewrite Vs, val_fabs, V1 in Y2. fold a in Y2.
  assert (R1 : Rabs (rnd (a - 1) - (a - 1)) <= pow2 (0 - 25)).
  { apply rnd_err_bpow; [lia|]. change (pow2 0) with 1. apply Rabs_le. lra. }
  change (pow2 (0 - 25)) with (/ 33554432) in R1. pose proof PI_tight as HP.
  assert (Y3 : Rabs (PI / 2 * (a - 1) - t) <= 2 / 1000000).
  { apply Rabs_le_inv in Y2, R1. apply Rabs_le. split; nra. }
  pose proof (sin_lip (PI / 2 * ((30712.5 * (a - 1) - 2054.5) / 32767)) ((61425 * t - 2054.5 * PI) / 65534)) as L.
  replace (PI / 2 * ((30712.5 * (a - 1) - 2054.5) / 32767) - (61425 * t - 2054.5 * PI) / 65534) with (61425 / 65534 * (PI / 2 * (a - 1) - t)) in L by lra.
  rewrite Rabs_mult, (Rabs_pos_eq (61425 / 65534)) in L by lra.
  apply Rabs_le_inv in A. apply Rabs_le_inv in L. apply Rabs_le. lra.
Qed.
Print Assumptions C90_lookup_sin_curve_refuted.

(** C90: so it never exceeds the sine (by more than the quantisation), *)
Theorem C90_lookup_sin_never_above : forall (NP : NanPolicy) (B : Build) (x : f32), fin x = true ->
  exists v, lookup_sin x = Ret v /\ val v <= sin (val x) + pow2 (-22) * Rabs (val x) + 52 / 100000.
Proof.
  intros NP B x Fx. destruct (C90_lookup_sin_curve_refuted NP B x Fx) as (v & t & E & _ & Bt & S & A). exists v. split; [exact E|].
  assert (M : sin ((61425 * t - 2054.5 * PI) / 65534) <= sin t).
  { pose proof PI_RGT_0. apply sin_incr_1; lra. }
  apply Rabs_le_inv in S, A. lra.
Qed.
Print Assumptions C90_lookup_sin_never_above.

(** and the sine of zero comes out as -0.098. *)
Theorem C90_lookup_sin_near_zero_refuted : forall (NP : NanPolicy) (B : Build) (x : f32), fin x = true -> Rabs (val x) <= 1 / 1000 ->
  exists v, lookup_sin x = Ret v /\ fin v = true /\ - (103 / 1000) <= val v <= - (9 / 100).
Proof.
  intros NP B x Fx Hx. destruct (C90_lookup_sin_curve_refuted NP B x Fx) as (v & t & E & Fv & Bt & S & A). exists v. split; [exact E|]. split; [exact Fv|].
  pose proof PI_tight as HP. pose proof (abs_sin_le (val x)) as L0. replace (pow2 (-22)) with (1 / 4194304) in S by (cbn; lra).
  assert (St : Rabs (sin t) <= 11 / 10000).
  { apply Rabs_le_inv in S, L0. apply Rabs_le. lra. }
  assert (T : Rabs t <= 3 / 1000).
  { assert (J : forall u, 0 <= u <= PI / 2 -> sin u <= 11 / 10000 -> u <= 3 / 1000).
    { intros u Hu Su. destruct (Rle_lt_dec u (3 / 1000)) as [H|H]; [exact H|]. exfalso.
      assert (sin (3 / 1000) <= sin u) by (apply sin_incr_1; lra).
      pose proof (sin_taylor (3 / 1000) ltac:(lra)) as Q. unfold sin11 in Q. lra. }
    apply Rabs_le_inv in St. apply Rabs_le. split.
    - destruct (Rle_lt_dec 0 t); [lra|]. specialize (J (- t) ltac:(lra)). rewrite sin_neg in J. lra.
    - destruct (Rle_lt_dec t 0); [lra|]. apply J; lra. }
  set (u := (61425 * t - 2054.5 * PI) / 65534) in *.
  assert (Bu : - (102 / 1000) <= u <= - (956 / 10000)) by (apply Rabs_le_inv in T; unfold u; lra).
  destruct (sin_near (- u) ltac:(lra)) as [N1 N2]. rewrite sin_neg in N1, N2. assert (u * u <= 102 / 1000 * (102 / 1000)) by nra.
  apply Rabs_le_inv in A. split; [lra|]. assert (G : 91 / 1000 <= - u - - u * - u / 2) by nra. lra.
Qed.
Print Assumptions C90_lookup_sin_near_zero_refuted.

Example C90_met : fin (of_int 0) = true /\ Rabs (val (of_int 0)) <= 1 / 1000 /\ entry 2047 = (-3234)%Z.
Proof. destruct (of_int_exact 0 ltac:(lia)) as [F V]. split; [exact F|]. split; [rewrite V, Rabs_R0; lra|reflexivity]. Qed.
