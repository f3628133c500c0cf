(** * Theorems: fractional taps of the delay line (C85). *)

From Coq Require Import ZArith List Bool Reals Lia Lra.
From Flocq Require Import Core.
From Verif Require Import Base F32 F32Lemmas F32Ints F32Exact F32Range F32Over Num M_Memory M_Delay M_RawSlice S_Memory S_Delay P_Memory P_Delay P_Interp P_Lerp P_Lagrange T_Interp T_RawSlice Examples.
Import ListNotations.
Open Scope Z_scope.

Section Taps.
Context {F : Type} {B : Build}.
(** After a history: the buffer still covers some samples and the position is the number of steps. *)
Lemma after_run (h : heap F) s l ops h' d' ys : covers h s l -> 0 < ms_len s -> Forall (offset_ok (ms_len s)) ops ->
  dl_run (h, dl_new s) ops = Ret (h', d', ys) ->
  exists l', covers h' s l' /\ dl_buf d' = s /\ dl_idx d' = Z.of_nat (steps ops) mod ms_len s /\ 0 <= dl_idx d' < ms_len s.
Proof.
  intros C Hn O E. destruct (ring_run_ok ops h (dl_new s) (l, 0)) as (h1 & d1 & ys1 & E1 & Eb & R); [|exact O|].
  { split; [exact C|]. cbn. split; [reflexivity|lia]. }
  rewrite E in E1. injection E1 as <- <- <-. cbn in Eb. destruct R as (C' & I & RI). rewrite Eb in C', RI. pose proof C as (Hl & _).
  rewrite ring_pos in I, RI by lia. rewrite Z.add_0_l, <- Hl in I, RI. exists (fst (fold_left ring_step ops (l, 0))).
  split; [exact C'|]. split; [exact Eb|]. split; [exact I|]. rewrite I. exact RI.
Qed.
Lemma tap_value (h : heap F) (d : delay_line) s l p i : covers h s l -> 0 < ms_len s -> dl_buf d = s -> dl_idx d = p -> 0 <= p < ms_len s ->
  is_isize i -> exists v, nthz l (i mod ms_len s) = Some v /\ dl_read_wrapped_at h d (i - p) = Ret v.
Proof.
  intros C Hn Eb Ei Hp Hi. pose proof (covers_len _ _ _ C). unfold dl_read_wrapped_at. rewrite Eb, Ei. unfold is_isize in Hi.
  rewrite as_isize_id by (rewrite isize_min_max; lia). rewrite isize_add_ok by lia. cbn [bind]. replace (p + (i - p)) with i by ring.
  now apply get_wrapped_ok.
Qed.
End Taps.

(** C85: a fractional tap. After any history, with p the position (steps modulo the length) and
    x the f32 nearest to p + offset, the linearly interpolated tap is, to within 2^-21 of the larger
    sample, the interpolation at the fractional part of x between the two taps [read_wrapped_at]
    gives on either side of x. *)
Theorem C85_fractional_tap : forall (NP : NanPolicy) (MO : MathOps f32) (B : Build) (h : heap f32) s l (ops : list (dl_op f32)) h' d' ys (offset : f32),
  floor_ok MO -> covers h s l -> 0 < ms_len s <= 2 ^ 22 -> Forall (offset_ok (ms_len s)) ops ->
  dl_run (h, dl_new s) ops = Ret (h', d', ys) ->
  fin offset = true -> (Rabs (val offset) <= pow2 22)%R ->
  let p := Z.of_nat (steps ops) mod ms_len s in let x := rnd (IZR p + val offset) in let i := Zfloor x in let f := (x - IZR i)%R in
  isize_min + ms_len s <= i -> i + 1 <= isize_max ->
  exists a b v, dl_read_wrapped_at h' d' (i - p) = Ret a /\ dl_read_wrapped_at h' d' (i + 1 - p) = Ret b /\
    dl_read_lerp_wrapped_at h' d' offset = Ret v /\
    (fin a = true -> fin b = true -> fin v = true /\
      (Rabs (val v - (val a * (1 - f) + val b * f)) <= pow2 (-21) * Rmax (Rabs (val a)) (Rabs (val b)) + pow2 (-148))%R /\
      (f = 0%R -> val v = val a)).
Proof.
  intros NP MO B h s l ops h' d' ys o Hf C Hn O E Fo Ho p x i f Hlo Hhi.
  destruct (after_run h s l ops h' d' ys C ltac:(lia) O E) as (l' & C' & Eb & Ei & Hp). fold p in Ei. rewrite Ei in Hp.
  destruct (of_int_exact p ltac:(lia)) as [Fp Vp].
  assert (P0 : (0 <= IZR p <= IZR (2 ^ 22 - 1))%R) by (split; apply IZR_le; lia).
  assert (E22 : pow2 22 = 4194304%R) by (cbn; lra). assert (E23 : pow2 23 = 8388608%R) by (cbn; lra). change (2 ^ 22 - 1) with 4194303 in P0.
  pose proof Ho as Ho'. apply Rabs_le_inv in Ho'. pose proof (Rle_lt_trans _ _ _ (Rle_abs _) (int_lt_big 8388607 ltac:(lia))) as BG.
  destruct (add_within (of_int p) o (- 8388607) 8388607 Fp Fo) as [[Fx Bx] Vx];
    [apply (repr_int (-8388607)); lia|apply (repr_int 8388607); lia|lra|lra|rewrite Vp; lra|]. rewrite Vp in Vx. fold x in Vx.
  assert (Hi : is_isize i) by (unfold is_isize; lia). assert (Hi1 : is_isize (i + 1)) by (unfold is_isize; lia).
  destruct (tap_value h' d' s l' p i C' ltac:(lia) Eb Ei Hp Hi) as (a & Ha & Ra).
  destruct (tap_value h' d' s l' p (i + 1) C' ltac:(lia) Eb Ei Hp Hi1) as (b & Hb & Rb).
  pose proof (ms_lerp_wrapped_interp h' s l' (fadd (of_int p) o) Hf C' ltac:(lia) Fx) as G. cbv zeta in G. rewrite Vx in G. fold i in G.
  rewrite Vx in Bx. destruct (G ltac:(apply Rabs_lt; lra) Hi Hi1) as (a' & b' & t & Ha' & Hb' & R & Ft & Vt & Bt).
  rewrite Ha in Ha'. injection Ha' as <-. rewrite Hb in Hb'. injection Hb' as <-.
  exists a, b, (lerp_unchecked a b t). split; [exact Ra|]. split; [exact Rb|]. split.
  { unfold dl_read_lerp_wrapped_at. rewrite Eb, Ei. exact R. }
  intros Fa Fb. assert (U : unit_range t) by (split; assumption). split; [now apply lerp_exact_form|].
  fold f in Vt. assert (Hfr : (0 <= f <= 1)%R).
  { unfold f, i. pose proof (Zfloor_lb x). pose proof (Zfloor_ub x). lra. }
  split.
  - pose proof (lerp_accuracy a b t Fa Fb U) as A.
    assert (Et : (Rabs (val t - f) <= pow2 (-25))%R) by (rewrite Vt; apply (rnd_err_bpow f 0); [lia|apply Rabs_le; cbn; lra]).
    set (M := Rmax (Rabs (val a)) (Rabs (val b))) in *. assert (MA : (Rabs (val a) <= M)%R) by apply Rmax_l. assert (MB : (Rabs (val b) <= M)%R) by apply Rmax_r.
    assert (D : (Rabs ((val a * (1 - val t) + val b * val t) - (val a * (1 - f) + val b * f)) <= pow2 (-24) * M)%R).
    { replace ((val a * (1 - val t) + val b * val t) - (val a * (1 - f) + val b * f))%R with ((val b - val a) * (val t - f))%R by ring.
      rewrite Rabs_mult. apply Rle_trans with (2 * M * pow2 (-25))%R; [|replace (pow2 (-24)) with (2 * pow2 (-25))%R by (cbn; lra); lra].
      apply Rmult_le_compat; auto using Rabs_pos. apply Rle_trans with (1 := Rabs_triang (val b) (- val a)). rewrite Rabs_Ropp. lra. }
    replace (val (lerp_unchecked a b t) - (val a * (1 - f) + val b * f))%R
      with ((val (lerp_unchecked a b t) - (val a * (1 - val t) + val b * val t)) + ((val a * (1 - val t) + val b * val t) - (val a * (1 - f) + val b * f)))%R by ring.
    apply Rle_trans with (1 := Rabs_triang _ _). replace (pow2 (-21)) with (8 * pow2 (-24))%R by (cbn; lra).
    pose proof (Rabs_pos (val a)). pose proof (bpow_gt_0 radix2 (-24)). nra.
  - intros F0. apply lerp_at_0; auto. rewrite Vt, F0. apply rnd_0.
Qed.
Print Assumptions C85_fractional_tap.

(** C85: at whole offsets the interpolated tap is the plain tap, as long as the two samples next to
    it are finite. *)
Theorem C85_whole_tap : forall (NP : NanPolicy) (MO : MathOps f32) (B : Build) (h : heap f32) s l (ops : list (dl_op f32)) h' d' ys k,
  floor_ok MO -> covers h s l -> 0 < ms_len s <= 2 ^ 22 -> Forall (offset_ok (ms_len s)) ops ->
  dl_run (h, dl_new s) ops = Ret (h', d', ys) -> Z.abs k <= 2 ^ 22 ->
  isize_min + ms_len s <= k -> k + ms_len s <= isize_max ->
  exists a b v, dl_read_wrapped_at h' d' k = Ret a /\ dl_read_wrapped_at h' d' (k + 1) = Ret b /\
    dl_read_lerp_wrapped_at h' d' (of_int k) = Ret v /\ (fin a = true -> fin b = true -> fin v = true /\ val v = val a).
Proof.
  intros NP MO B h s l ops h' d' ys k Hf C Hn O E Hk Hlo Hhi.
  destruct (of_int_exact k ltac:(lia)) as [Fk Vk].
  pose proof (C85_fractional_tap NP MO B h s l ops h' d' ys (of_int k) Hf C Hn O E Fk) as G. cbv zeta in G.
  rewrite Vk in G. set (p := Z.of_nat (steps ops) mod ms_len s) in *.
  assert (Hp : 0 <= p < ms_len s) by (apply Z.mod_pos_bound; lia).
  rewrite <- plus_IZR in G. rewrite (rnd_repr (IZR (p + k))) in G by (apply repr_int; lia). rewrite Zfloor_IZR in G.
  destruct G as (a & b & v & Ra & Rb & Rv & H); [|lia|lia|].
  { apply Rabs_le. change (pow2 22) with (IZR (2 ^ 22)). rewrite <- opp_IZR. split; apply IZR_le; lia. }
  replace (p + k - p) with k in Ra by ring. replace (p + k + 1 - p) with (k + 1) in Rb by ring.
  exists a, b, v. split; [exact Ra|]. split; [exact Rb|]. split; [exact Rv|]. intros Fa Fb. destruct (H Fa Fb) as (Fv & _ & Z). split; [exact Fv|].
  apply Z. ring.
Qed.
Print Assumptions C85_whole_tap.

(** C85: the Lagrange tap is shifted: in exact arithmetic, at a whole offset k it gives the tap at
    k - 1 (the one written a sample earlier), not at k. *)
Theorem C85_lagrange_tap_shifted_refuted : forall (MO : MathOps R) (B : Build) (h : heap R) s l (ops : list (dl_op R)) h' d' ys k,
  (forall x, m_floor x = IZR (Zfloor x)) -> covers h s l -> 0 < ms_len s -> Forall (offset_ok (ms_len s)) ops ->
  dl_run (h, dl_new s) ops = Ret (h', d', ys) -> isize_min + ms_len s + 50 <= k -> k + ms_len s + 50 <= isize_max ->
  exists v, dl_read_wrapped_at h' d' (k - 1) = Ret v /\ dl_read_lagrange_wrapped_at h' d' (IZR k) = Ret v.
Proof.
  intros MO B h s l ops h' d' ys k Hf C Hn O E Hlo Hhi.
  destruct (after_run h s l ops h' d' ys C ltac:(lia) O E) as (l' & C' & Eb & Ei & Hp).
  set (p := Z.of_nat (steps ops) mod ms_len s) in *. rewrite Ei in Hp.
  destruct (C13_lagrange_wrapped_shifted_refuted MO B h' s l' 5 (p + k) Hf C' Hn ltac:(lia) ltac:(lia)) as (v & Hv & Rv).
  destruct (tap_value h' d' s l' p (p + k - 1) C' Hn Eb Ei Hp ltac:(unfold is_isize; lia)) as (w & Hw & Rw).
  change (Z.min 5 100 / 2 - 1) with 1 in Hv. rewrite Hv in Hw. injection Hw as <-. exists v.
  replace (p + k - 1 - p) with (k - 1) in Rw by ring. split; [exact Rw|]. unfold dl_read_lagrange_wrapped_at. rewrite Eb, Ei.
  assert (X : nadd (nint p) (IZR k) = IZR (p + k)) by (unfold nint; cbn; rewrite plus_IZR; ring).
  rewrite X. exact Rv.
Qed.
Print Assumptions C85_lagrange_tap_shifted_refuted.

Example C85_met (NP : NanPolicy) : let ops := [DWrite (of_int 4); DWrite (of_int 6)] in
  floor_ok ref_math /\ covers (B := dbg32) ex_heap ex_slice ex_list /\ 0 < ms_len ex_slice <= 2 ^ 22 /\
  Forall (offset_ok (B := dbg32) 3) ops /\
  exists h' d' ys, dl_run (B := dbg32) (ex_heap, dl_new ex_slice) ops = Ret (h', d', ys) /\
    obits (dl_read_lerp_wrapped_at (MO := ref_math) (B := dbg32) h' d' (lit (-3) (-1))) = Ret (to_bits (of_int 5)).
Proof.
  cbv zeta. split; [apply ref_floor_ok|]. split; [apply ex_covers|]. split; [cbn; lia|]. split; [repeat constructor|].
  eexists _, _, _. split; [reflexivity|]. vm_compute. reflexivity.
Qed.
