(** * Theorems: Lagrange taps of the delay line in single precision (C85). *)

From Coq Require Import ZArith List Bool Reals Lia Lra Psatz.
From Flocq Require Import Core.
From Verif Require Import Base F32 F32Lemmas F32Ints F32Exact F32Range F32Over Num M_Memory M_Delay M_RawSlice S_Memory S_Delay S_Poly S_LagrangeF32
  P_Memory P_Delay P_Interp P_Lerp P_Lagrange T_Interp T_RawSlice T_Taps T_LagrangeF32 Examples.
Import ListNotations.
Open Scope Z_scope.

Lemma Forall_upd {A} (P : A -> Prop) (v : A) : P v -> forall l i, Forall P l -> Forall P (upd l i v).
Proof.
  intros Hv. induction l as [|x l IH]; intros i H; [constructor|]. inversion H; subst. destruct i; cbn [upd]; constructor; auto.
Qed.
Lemma ring_Forall {F} (P : F -> Prop) (ops : list (dl_op F)) : (forall v, In (DWrite v) ops -> P v) -> forall l p, Forall P l ->
  Forall P (fst (fold_left ring_step ops (l, p))).
Proof.
  induction ops as [|op ops IH]; intros W l p H; [exact H|]. cbn [fold_left].
  assert (W' : forall v, In (DWrite v) ops -> P v) by (intros v Hv; apply W; now right).
  destruct op as [|j|v|]; cbn [ring_step]; apply IH; auto. apply Forall_upd; auto. apply W. now left.
Qed.
(** As [after_run], with what the samples of the line have in common. *)
Lemma after_run_all {F : Type} {B : Build} (P : F -> Prop) (h : heap F) s l ops h' d' ys : covers h s l -> 0 < ms_len s -> Forall (offset_ok (ms_len s)) ops ->
  dl_run (h, dl_new s) ops = Ret (h', d', ys) -> Forall P l -> (forall v, In (DWrite v) ops -> P v) ->
  exists l', covers h' s l' /\ Forall P l' /\ dl_buf d' = s /\ dl_idx d' = Z.of_nat (steps ops) mod ms_len s /\ 0 <= dl_idx d' < ms_len s.
Proof.
  intros C Hn O E Pl Pw. destruct (ring_run_ok ops h (dl_new s) (l, 0)) as (h1 & d1 & ys1 & E1 & Eb & R); [|exact O|].
  { split; [exact C|]. cbn. split; [reflexivity|lia]. }
  rewrite E in E1. injection E1 as <- <- <-. cbn in Eb. destruct R as (C' & I & RI). rewrite Eb in C', RI. pose proof C as (Hl & _).
  rewrite ring_pos in I, RI by lia. rewrite Z.add_0_l, <- Hl in I, RI. exists (fst (fold_left ring_step ops (l, 0))).
  split; [exact C'|]. split; [now apply ring_Forall|]. split; [exact Eb|]. split; [exact I|]. rewrite I. exact RI.
Qed.

(** C85: the Lagrange tap in f32. After any history of a line that only ever held samples up to 2^30, with
    p the position and x the f32 nearest to p + offset, the tap is the polynomial of degree below 5 through
    the plain taps one before, at, one after and two after floor x, and through 0 in the fifth place, taken
    at the fraction of x counted from the first of them. *)
Theorem C85_lagrange_tap_f32 : forall (NP : NanPolicy) (MO : MathOps f32) (B : Build) (h : heap f32) s l (ops : list (dl_op f32)) h' d' ys (offset : f32),
  floor_ok MO -> covers h s l -> 0 < ms_len s <= 2 ^ 22 -> Forall (offset_ok (ms_len s)) ops ->
  dl_run (h, dl_new s) ops = Ret (h', d', ys) ->
  Forall (bounded (pow2 30)) l -> (forall v, In (DWrite v) ops -> bounded (pow2 30) v) ->
  fin offset = true -> (Rabs (val offset) <= pow2 22)%R ->
  let p := Z.of_nat (steps ops) mod ms_len s in let x := rnd (IZR p + val offset) in let i := Zfloor x in let f := rnd (x - IZR i) in
  isize_min + ms_len s + 50 <= i -> i + 50 <= isize_max ->
  exists a b c e v, dl_read_wrapped_at h' d' (i - 1 - p) = Ret a /\ dl_read_wrapped_at h' d' (i - p) = Ret b /\
    dl_read_wrapped_at h' d' (i + 1 - p) = Ret c /\ dl_read_wrapped_at h' d' (i + 2 - p) = Ret e /\
    dl_read_lagrange_wrapped_at h' d' offset = Ret v /\ fin v = true /\
    forall q, (length q <= 5)%nat -> peval q 0 = val a -> peval q 1 = val b -> peval q 2 = val c -> peval q 3 = val e -> peval q 4 = 0%R ->
      (Rabs (val v - peval q f) <= 5 * pow2 (-22) * spread [val a; val b; val c; val e; 0%R] f + pow2 (-80))%R.
Proof.
  intros NP MO B h s l ops h' d' ys o Hf C Hn O E Pl Pw Fo Ho p x i f Hlo Hhi.
  destruct (after_run_all (bounded (pow2 30)) h s l ops h' d' ys C ltac:(lia) O E Pl Pw) as (l' & C' & Pl' & Eb & Ei & Hp). fold p in Ei. rewrite Ei in Hp.
  destruct (of_int_exact p ltac:(lia)) as [Fp Vp].
  assert (P0 : (0 <= IZR p <= IZR (2 ^ 22 - 1))%R) by (split; apply IZR_le; lia).
  assert (E22 : pow2 22 = 4194304%R) by (cbn; lra). assert (E23 : pow2 23 = 8388608%R) by (cbn; lra). change (2 ^ 22 - 1) with 4194303 in P0.
  pose proof Ho as Ho'. apply Rabs_le_inv in Ho'. pose proof (Rle_lt_trans _ _ _ (Rle_abs _) (int_lt_big 8388607 ltac:(lia))) as BG.
  destruct (add_within (of_int p) o (- 8388607) 8388607 Fp Fo) as [[Fx Bx] Vx];
    [apply (repr_int (-8388607)); lia|apply (repr_int 8388607); lia|lra|lra|rewrite Vp; lra|]. rewrite Vp in Vx. fold x in Vx.
  destruct (tap_value h' d' s l' p (i - 1) C' ltac:(lia) Eb Ei Hp ltac:(unfold is_isize; lia)) as (a & Ha & Ra).
  destruct (tap_value h' d' s l' p i C' ltac:(lia) Eb Ei Hp ltac:(unfold is_isize; lia)) as (b & Hb & Rb).
  destruct (tap_value h' d' s l' p (i + 1) C' ltac:(lia) Eb Ei Hp ltac:(unfold is_isize; lia)) as (c & Hc & Rc).
  destruct (tap_value h' d' s l' p (i + 2) C' ltac:(lia) Eb Ei Hp ltac:(unfold is_isize; lia)) as (e & He & Re).
  set (zs := [val a; val b; val c; val e; 0%R]).
  assert (G : forall q, (length q <= 5)%nat -> peval q 0 = val a -> peval q 1 = val b -> peval q 2 = val c -> peval q 3 = val e -> peval q 4 = 0%R ->
    exists v, dl_read_lagrange_wrapped_at h' d' o = Ret v /\ fin v = true /\ (Rabs (val v - peval q f) <= 5 * pow2 (-22) * spread zs f + pow2 (-80))%R).
  { intros q Lq Q0 Q1 Q2 Q3 Q4.
    pose proof (C99_lagrange_wrapped_accuracy NP MO B h' s l' (fadd (of_int p) o) 5 zs q Hf C' ltac:(lia) Pl' ltac:(lia) Fx) as G.
    cbv zeta in G. rewrite Vx in G, Bx. fold i in G. fold f in G. destruct G as (v & R & Fv & A).
    - apply Rabs_lt; lra.
    - lia.
    - reflexivity.
    - change (5 / 2 - 1) with 1. change (2 * (5 / 2)) with 4. intros k Hk.
      destruct k as [|[|[|[|k]]]]; [| | | |lia]; unfold zs; cbn [nth].
      + exists a. split; [now replace (i - 1 + Z.of_nat 0) with (i - 1) by lia|reflexivity].
      + exists b. split; [now replace (i - 1 + Z.of_nat 1) with i by lia|reflexivity].
      + exists c. split; [now replace (i - 1 + Z.of_nat 2) with (i + 1) by lia|reflexivity].
      + exists e. split; [now replace (i - 1 + Z.of_nat 3) with (i + 2) by lia|reflexivity].
    - reflexivity.
    - exact Lq.
    - intros k Hk. change (Z.to_nat 5) with 5%nat in Hk. destruct k as [|[|[|[|[|k]]]]]; [| | | | |lia]; unfold zs; cbn [nth].
      + exact Q0.
      + exact Q1.
      + exact Q2.
      + replace (INR 3) with 3%R by (cbn; lra). exact Q3.
      + replace (INR 4) with 4%R by (cbn; lra). exact Q4.
    - exists v. split; [|split; [exact Fv|exact A]]. unfold dl_read_lagrange_wrapped_at. rewrite Eb, Ei. exact R. }
  destruct (lagrange_sum_poly zs) as (q0 & Lq0 & Pq0).
  assert (N : forall k, (k < 5)%nat -> peval q0 (IZR (Z.of_nat k)) = nth k zs 0%R).
  { intros k Hk. rewrite <- Pq0. change (IZR (Z.of_nat k)) with (node k). apply lagrange_sum_node. exact Hk. }
  destruct (G q0 Lq0 (N 0%nat ltac:(lia)) (N 1%nat ltac:(lia)) (N 2%nat ltac:(lia)) (N 3%nat ltac:(lia)) (N 4%nat ltac:(lia))) as (v & Rv & Fv & _).
  exists a, b, c, e, v. repeat (split; [assumption|]). intros q Lq Q0 Q1 Q2 Q3 Q4.
  destruct (G q Lq Q0 Q1 Q2 Q3 Q4) as (v' & Rv' & _ & A). rewrite Rv in Rv'. apply ret_inj in Rv'. now rewrite Rv'.
Qed.
Print Assumptions C85_lagrange_tap_f32.

(** The basis polynomials over five nodes, between the first two of them. *)
Lemma basis5 f : (basis 5 0 f = (1 - f) * (2 - f) * (3 - f) * (4 - f) / 24 /\ basis 5 1 f = f * (2 - f) * (3 - f) * (4 - f) / 6 /\
  basis 5 2 f = - (f * (1 - f) * (3 - f) * (4 - f) / 4) /\ basis 5 3 f = f * (1 - f) * (2 - f) * (4 - f) / 6)%R.
Proof.
  unfold basis. cbn [map seq fold_right Nat.eqb].
  replace (INR 4) with 4%R by (cbn; lra). replace (INR 3) with 3%R by (cbn; lra). replace (INR 2) with 2%R by (cbn; lra).
  change (INR 1) with 1%R. change (INR 0) with 0%R. repeat split; field; repeat split; lra.
Qed.
Lemma spread_const a f : (0 <= f <= 1)%R -> (spread [a; a; a; a; 0%R] f <= 6 * Rabs a)%R.
Proof.
  intros Hf. unfold spread. cbn [length map seq fold_right nth]. destruct (basis5 f) as (-> & -> & -> & ->).
  rewrite !Rabs_mult, Rabs_R0, Rabs_Ropp. assert (A : (0 <= Rabs a)%R) by apply Rabs_pos.
  assert (Q : (0 <= f * (1 - f) <= 1 / 4)%R) by (split; [nra|pose proof (Rle_0_sqr (f - 1 / 2)); unfold Rsqr in *; lra]).
  assert (Q1 : (0 <= (3 - f) * (4 - f) <= 12)%R) by (split; nra). assert (Q2 : (0 <= (2 - f) * (4 - f) <= 8)%R) by (split; nra).
  assert (Q3 : (0 <= (1 - f) * (2 - f) <= 2)%R) by (split; nra). assert (Q4 : (0 <= f * (2 - f) <= 1)%R).
  { split; [nra|]. pose proof (Rle_0_sqr (f - 1)). unfold Rsqr in *. lra. }
  assert (B0 : (0 <= (1 - f) * (2 - f) * (3 - f) * (4 - f) / 24 <= 1)%R).
  { replace ((1 - f) * (2 - f) * (3 - f) * (4 - f) / 24)%R with (((1 - f) * (2 - f)) * ((3 - f) * (4 - f)) / 24)%R by field. split; nra. }
  assert (B1 : (0 <= f * (2 - f) * (3 - f) * (4 - f) / 6 <= 2)%R).
  { replace (f * (2 - f) * (3 - f) * (4 - f) / 6)%R with ((f * (2 - f)) * ((3 - f) * (4 - f)) / 6)%R by field. split; nra. }
  assert (B2 : (0 <= f * (1 - f) * (3 - f) * (4 - f) / 4 <= 1)%R).
  { replace (f * (1 - f) * (3 - f) * (4 - f) / 4)%R with ((f * (1 - f)) * ((3 - f) * (4 - f)) / 4)%R by field. split; nra. }
  assert (B3 : (0 <= f * (1 - f) * (2 - f) * (4 - f) / 6 <= 1)%R).
  { replace (f * (1 - f) * (2 - f) * (4 - f) / 6)%R with ((f * (1 - f)) * ((2 - f) * (4 - f)) / 6)%R by field. split; nra. }
  rewrite (Rabs_pos_eq _ (proj1 B0)), (Rabs_pos_eq _ (proj1 B1)), (Rabs_pos_eq _ (proj1 B2)), (Rabs_pos_eq _ (proj1 B3)).
  nra.
Qed.

(** C85: so a line that holds the same value everywhere does not read as that value between two
    samples: the missing fifth sample makes the tap too large by f(1-f)(2-f)(3-f)/24 of it, 3.9 % halfway. *)
Theorem C85_constant_line_refuted : forall (NP : NanPolicy) (MO : MathOps f32) (B : Build) (h : heap f32) s l (ops : list (dl_op f32)) h' d' ys (offset a : f32),
  floor_ok MO -> covers h s l -> 0 < ms_len s <= 2 ^ 22 -> Forall (offset_ok (ms_len s)) ops ->
  dl_run (h, dl_new s) ops = Ret (h', d', ys) ->
  bounded (pow2 30) a -> Forall (eq a) l -> (forall v, In (DWrite v) ops -> a = v) ->
  fin offset = true -> (Rabs (val offset) <= pow2 22)%R ->
  let p := Z.of_nat (steps ops) mod ms_len s in let x := rnd (IZR p + val offset) in let i := Zfloor x in let f := rnd (x - IZR i) in
  isize_min + ms_len s + 50 <= i -> i + 50 <= isize_max ->
  exists v, dl_read_wrapped_at h' d' (i - p) = Ret a /\ dl_read_lagrange_wrapped_at h' d' offset = Ret v /\ fin v = true /\
    (Rabs (val v - val a * (1 + f * (1 - f) * (2 - f) * (3 - f) / 24)) <= pow2 (-17) * Rabs (val a) + pow2 (-80))%R.
Proof.
  intros NP MO B h s l ops h' d' ys o a Hf C Hn O E Ba Pl Pw Fo Ho p x i f Hlo Hhi.
  destruct (C85_lagrange_tap_f32 NP MO B h s l ops h' d' ys o Hf C Hn O E) as (a' & b & c & e & v & Ra & Rb & Rc & Re & Rv & Fv & A); auto.
  { rewrite Forall_forall in *. intros y Hy. now rewrite <- (Pl y Hy). }
  { intros y Hy. now rewrite <- (Pw y Hy). }
  fold p in A, Ra, Rb, Rc, Re. fold x in A, Ra, Rb, Rc, Re. fold i in A, Ra, Rb, Rc, Re. fold f in A.
  destruct (after_run_all (eq a) h s l ops h' d' ys C ltac:(lia) O E Pl Pw) as (l' & C' & Pl' & Eb & Ei & Hp). fold p in Ei. rewrite Ei in Hp.
  assert (T : forall j y, is_isize j -> dl_read_wrapped_at h' d' (j - p) = Ret y -> y = a).
  { intros j y Hj Hy. destruct (tap_value h' d' s l' p j C' ltac:(lia) Eb Ei Hp Hj) as (w & Hw & Rw). rewrite Hy in Rw. apply ret_inj in Rw. subst w.
    apply nthz_Some in Hw. destruct Hw as [_ Hw]. apply nth_error_In in Hw. rewrite Forall_forall in Pl'. symmetry. now apply Pl'. }
  rewrite (T (i - 1) _ ltac:(unfold is_isize; lia) Ra) in A. rewrite (T (i + 1) _ ltac:(unfold is_isize; lia) Rc) in A. rewrite (T (i + 2) _ ltac:(unfold is_isize; lia) Re) in A.
  pose proof (T i _ ltac:(unfold is_isize; lia) Rb) as Eb'. subst b.
  exists v. split; [exact Rb|]. split; [exact Rv|]. split; [exact Fv|].
  assert (Hfr : (0 <= f <= 1)%R).
  { pose proof (Zfloor_lb x) as L1. pose proof (Zfloor_ub x) as L2. fold i in L1, L2. unfold f. split.
    - rewrite <- rnd_0. apply rnd_le. lra.
    - rewrite <- (rnd_repr 1) by (apply (repr_int 1); lia). apply rnd_le. lra. }
  set (g := val a) in *.
  (* 1 - x(x-1)(x-2)(x-3)/24 *)
  set (q := [g; g * (6 / 24); - (g * (11 / 24)); g * (6 / 24); - (g / 24)]%R).
  assert (Q : forall z, peval q z = (g * (1 + z * (1 - z) * (2 - z) * (3 - z) / 24))%R) by (intros z; unfold q; cbn; field).
  rewrite <- Q. eapply Rle_trans; [apply (A q)|].
  - reflexivity.
  - rewrite Q; field.
  - rewrite Q; field.
  - rewrite Q; field.
  - rewrite Q; field.
  - rewrite Q; field.
  - pose proof (spread_const g f Hfr) as S. pose proof (Rabs_pos g). replace (pow2 (-17)) with (32 * pow2 (-22))%R by (cbn; lra).
    pose proof (bpow_gt_0 radix2 (-22)). nra.
Qed.
Print Assumptions C85_constant_line_refuted.

Example C85_constant_met (NP : NanPolicy) : let ops := [DWrite (of_int 1); DAdvance; DWrite (of_int 1)] in
  floor_ok ref_math /\ covers (B := dbg32) [repeat (of_int 1) 7] (MS (PAt 0 0) 7) (repeat (of_int 1) 7) /\
  Forall (eq (of_int 1)) (repeat (of_int 1) 7) /\ (forall v, In (DWrite v) ops -> of_int 1 = v) /\ bounded (pow2 30) (of_int 1) /\
  exists h' d' ys, dl_run (B := dbg32) ([repeat (of_int 1) 7], dl_new (MS (PAt 0 0) 7)) ops = Ret (h', d', ys) /\
    obits (dl_read_lagrange_wrapped_at (MO := ref_math) (B := dbg32) h' d' (lit (-3) (-1))) = Ret (to_bits (lit 133 (-7))).
Proof.
  cbv zeta. split; [apply ref_floor_ok|]. split; [apply C99_wrapped_met|]. split; [repeat constructor|].
  split; [intros v [H|[H|[H|[]]]]; congruence|]. split; [apply bounded_int; [lia|rewrite Rabs_R1; change 1%R with (pow2 0); apply bpow_le; lia]|].
  eexists _, _, _. split; [reflexivity|]. vm_compute. reflexivity.
Qed.
