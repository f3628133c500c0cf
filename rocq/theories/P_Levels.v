(** * Proofs about panning, decibels, clipping and unit conversions. *)

From Coq Require Import ZArith List Bool Reals Lia Lra.
From Flocq Require Import Core IEEE754.BinarySingleNaN IEEE754.Binary Mult_error.
From Verif Require Import Base F32 F32Lemmas F32Exact F32Ints F32Range F32Over Num M_Levels P_Interp P_SineFloat P_Bits.
Import ListNotations.
Local Open Scope R_scope.

Lemma gap_below_one a : repr a -> a < 1 -> a <= 1 - pow2 (-24).
Proof.
  intros Ra H. destruct (Rle_lt_dec a (1 - pow2 (-24))) as [L|L]; [exact L|exfalso].
  assert (P : pow2 (-24) = 1 / 16777216) by (cbn; lra). assert (P24 : pow2 24 = 16777216) by (cbn; lra).
  assert (P23 : pow2 23 = 8388608) by (cbn; lra).
  destruct (repr_large_int (a * pow2 24)) as [n Hn].
  - apply repr_up; [exact Ra|lia].
  - rewrite P23, P24. rewrite Rabs_right; lra.
  - rewrite P24 in Hn. assert (16777215 < n)%Z by (apply lt_IZR; lra). assert (n < 16777216)%Z by (apply lt_IZR; lra). lia.
Qed.

(** ** Panning *)
Section Pan.
Context {NP : NanPolicy}.

Lemma half_exact y : fin y = true -> val y = 0 \/ pow2 (-100) <= Rabs (val y) -> isv (fmul y (lit 1 (-1))) (val y / 2).
Proof.
  intros F H. assert (I : isv (lit 1 (-1)) (1 / 2)) by (eapply isv_eq; [apply isv_lit; lia|]; cbn; lra).
  replace (val y / 2) with (val y * (1 / 2)) by field. apply mul_exact; [now apply isv_self|exact I| |].
  - replace (1 / 2) with (pow2 (-1)) by (cbn; lra). destruct H as [->|H]; [rewrite Rmult_0_l; apply repr_0|].
    apply mult_bpow_exact_FLT; [apply repr_val|]. assert (-99 <= mag radix2 (val y))%Z; [|lia]. apply mag_ge_bpow. exact H.
  - pose proof (val_lt_big y). rewrite Rabs_mult, (Rabs_right (1 / 2)) by lra. pose proof (Rabs_pos (val y)). lra.
Qed.

Definition pan_l (a : f32) : f32 := fst (equal_amplitude_pan_unchecked a).
Definition pan_r (a : f32) : f32 := snd (equal_amplitude_pan_unchecked a).

Lemma pan_sum_spec (v : R) : repr v -> -1 <= v <= 1 ->
  0 <= rnd (1 + v) <= 2 /\ (rnd (1 + v) = 0 /\ v = -1 \/ pow2 (-24) <= rnd (1 + v)).
Proof.
  intros R H. assert (R24 : repr (pow2 (-24))) by (apply repr_bpow; lia). split.
  - apply repr_between; [apply repr_0|apply (repr_int 2); lia|lra].
  - destruct (Req_dec v (-1)) as [->|N].
    + left. split; [|reflexivity]. replace (1 + -1) with 0 by ring. apply rnd_0.
    + right. apply rnd_ge_repr; [exact R24|].
      pose proof (gap_below_one (- v) (repr_opp _ R) ltac:(lra)). lra.
Qed.

Lemma pan_r_spec a : fin a = true -> -1 <= val a <= 1 ->
  fin (pan_r a) = true /\ val (pan_r a) = rnd (1 + val a) / 2 /\ 0 <= val (pan_r a) <= 1.
Proof.
  intros F H. destruct (of_int_exact 1 ltac:(lia)) as [F1 V1]. destruct (pan_sum_spec (val a) (repr_val a) H) as [B C].
  pose proof big_ge.
  destruct (fadd_spec (of_int 1) a F1 F) as [Fs Vs]; [rewrite V1, Rabs_right; lra|]. rewrite V1 in Vs.
  destruct (half_exact (fadd (of_int 1) a) Fs) as [Fh Vh].
  - rewrite Vs. destruct C as [[C _]|C]; [now left|right]. rewrite Rabs_right by lra.
    apply Rle_trans with (2 := C). apply bpow_le. lia.
  - rewrite Vs in Vh. split; [exact Fh|]. split; [exact Vh|]. change (val (pan_r a)) with (val (fmul (fadd (of_int 1) a) (lit 1 (-1)))).
    rewrite Vh. lra.
Qed.

Lemma pan_l_spec a : fin a = true -> -1 <= val a <= 1 ->
  fin (pan_l a) = true /\ val (pan_l a) = rnd (1 - val a) / 2 /\ 0 <= val (pan_l a) <= 1.
Proof.
  intros F H. destruct (of_int_exact 1 ltac:(lia)) as [F1 V1].
  destruct (pan_sum_spec (- val a) (repr_opp _ (repr_val a)) ltac:(lra)) as [B C].
  change (1 + - val a) with (1 - val a) in B, C. pose proof big_ge.
  destruct (fsub_spec (of_int 1) a F1 F) as [Fs Vs]; [rewrite V1, Rabs_right; lra|]. rewrite V1 in Vs.
  destruct (half_exact (fsub (of_int 1) a) Fs) as [Fh Vh].
  - rewrite Vs. destruct C as [[C _]|C]; [now left|right]. rewrite Rabs_right by lra.
    apply Rle_trans with (2 := C). apply bpow_le. lia.
  - rewrite Vs in Vh. split; [exact Fh|]. split; [exact Vh|]. change (val (pan_l a)) with (val (fmul (fsub (of_int 1) a) (lit 1 (-1)))).
    rewrite Vh. lra.
Qed.

Lemma val_minus_one a : fin a = true -> val a = -1 -> a = of_int (-1).
Proof.
  intros F V. destruct (of_int_exact (-1) ltac:(lia)) as [F1 V1]. apply val_inj; [exact F|exact F1|now rewrite V, V1|lra].
Qed.

Lemma fneg_neg x : fneg (fneg x) = x.
Proof. apply bits_inj. unfold fneg. destruct x as [[]|[]|[]|[]]; reflexivity. Qed.

Lemma pan_swap a : fin a = true -> -1 <= val a <= 1 -> pan_l (fneg a) = pan_r a /\ pan_r (fneg a) = pan_l a.
Proof.
  intros F H. assert (G : forall a, fin a = true -> -1 <= val a <= 1 -> pan_l (fneg a) = pan_r a).
  { clear a F H. intros a F H. destruct (pan_r_spec a F H) as (Fr & Vr & _).
    destruct (pan_l_spec (fneg a)) as (Fl & Vl & _); [now rewrite fin_fneg|rewrite val_fneg; lra|].
    rewrite val_fneg in Vl. replace (1 - - val a) with (1 + val a) in Vl by ring.
    destruct (pan_sum_spec (val a) (repr_val a) H) as [_ [[_ C]|C]].
    - rewrite (val_minus_one a F C). apply bits_inj. vm_compute. reflexivity.
    - pose proof (bpow_gt_0 radix2 (-24)). apply val_inj; [exact Fl|exact Fr|now rewrite Vl, Vr|]. rewrite Vl. lra. }
  split; [now apply G|]. rewrite <- (fneg_neg a) at 2. symmetry. apply G; [now rewrite fin_fneg|rewrite val_fneg; lra].
Qed.

Lemma gain_mul s g : fin s = true -> fin g = true -> 0 <= val g <= 1 ->
  fin (fmul s g) = true /\ val (fmul s g) = rnd (val s * val g) /\ Rabs (val (fmul s g)) <= Rabs (val s).
Proof.
  intros Fs Fg Hg. apply fmul_bnd; [exact Fs|exact Fg| | |].
  - apply generic_format_abs, repr_val.
  - apply val_lt_big.
  - rewrite Rabs_mult, (Rabs_right (val g)) by lra. pose proof (Rabs_pos (val s)). nra.
Qed.

Lemma rnd_abs x : Rabs (rnd x) = rnd (Rabs x).
Proof. symmetry. apply round_NE_abs. typeclasses eauto. Qed.

Lemma gain_mono s g g' : fin s = true -> fin g = true -> fin g' = true -> 0 <= val g -> val g <= val g' -> val g' <= 1 ->
  Rabs (val (fmul s g)) <= Rabs (val (fmul s g')).
Proof.
  intros Fs Fg Fg' H0 H H1. destruct (gain_mul s g Fs Fg ltac:(lra)) as (_ & -> & _).
  destruct (gain_mul s g' Fs Fg' ltac:(lra)) as (_ & -> & _). rewrite !rnd_abs. apply rnd_le.
  rewrite !Rabs_mult, (Rabs_right (val g)), (Rabs_right (val g')) by lra. apply Rmult_le_compat_l; [apply Rabs_pos|exact H].
Qed.

Lemma mul_one s g : fin s = true -> fin g = true -> val g = 1 -> sgn g = false -> fmul s g = s.
Proof.
  intros Fs Fg Vg Sg. destruct (gain_mul s g Fs Fg ltac:(lra)) as (F & V & _).
  rewrite Vg, Rmult_1_r, rnd_repr in V by apply repr_val. apply val_sgn_inj; [exact F|exact Fs|exact V|].
  rewrite fmul_sgn by now apply fin_notnan. rewrite Sg. now destruct (sgn s).
Qed.
End Pan.

(** ** Monotone multiplication and division, overflow included *)
Section Mono.
Context {NP : NanPolicy}.

Definition clampb (r : R) : R := Rmax (- big) (Rmin big r).
Lemma clampb_mono a b : a <= b -> clampb a <= clampb b.
Proof. intros H. unfold clampb. apply Rle_max_compat_l, Rle_min_compat_l, H. Qed.
Lemma clampb_in a : Rabs a < big -> clampb a = a.
Proof.
  intros H. apply Rabs_lt_inv in H. unfold clampb. rewrite Rmin_right by lra. apply Rmax_right. lra.
Qed.
Lemma clampb_range a : - big <= clampb a <= big.
Proof.
  pose proof big_pos. unfold clampb. split; [apply Rmax_l|]. apply Rmax_lub; [lra|apply Rmin_l].
Qed.

Lemma ext_mul x c : fin x = true -> fin c = true -> 0 < val c -> isnan (fmul x c) = false /\
  ext (fmul x c) = clampb (rnd (val x * val c)).
Proof.
  intros Fx Fc Pc. pose proof (sgn_pos_val c Fc Pc) as Sc. destruct (fmul_cases x c Fx Fc) as [(L & F & V & _)|[L E]].
  - split; [now apply fin_notnan|]. rewrite ext_fin, V, clampb_in by assumption. reflexivity.
  - rewrite E. split; [reflexivity|]. rewrite Sc, xorb_false_r. pose proof big_pos. unfold ext, clampb.
    destruct (sgn x) eqn:S.
    + pose proof (sgn_val_le x S). assert (rnd (val x * val c) <= 0) by (apply rnd_le_repr; [apply repr_0|nra]).
      rewrite Rabs_left1 in L by lra. rewrite Rmin_right by lra. rewrite Rmax_left; lra.
    + pose proof (sgn_val_ge x S). assert (0 <= rnd (val x * val c)) by (apply rnd_ge_repr; [apply repr_0|nra]).
      rewrite Rabs_right in L by lra. rewrite Rmin_left by lra. rewrite Rmax_right; lra.
Qed.

Lemma ext_div x c : fin x = true -> fin c = true -> 0 < val c -> isnan (fdiv x c) = false /\
  ext (fdiv x c) = clampb (rnd (val x / val c)).
Proof.
  intros Fx Fc Pc. pose proof (sgn_pos_val c Fc Pc) as Sc. assert (Ic : 0 < / val c) by now apply Rinv_0_lt_compat.
  destruct (fdiv_cases x c Fx Fc ltac:(lra)) as [(L & F & V & _)|[L E]].
  - split; [now apply fin_notnan|]. rewrite ext_fin, V, clampb_in by assumption. reflexivity.
  - rewrite E. split; [reflexivity|]. rewrite Sc, xorb_false_r. pose proof big_pos. unfold ext, clampb, Rdiv in *.
    destruct (sgn x) eqn:S.
    + pose proof (sgn_val_le x S). assert (rnd (val x * / val c) <= 0) by (apply rnd_le_repr; [apply repr_0|nra]).
      rewrite Rabs_left1 in L by lra. rewrite Rmin_right by lra. rewrite Rmax_left; lra.
    + pose proof (sgn_val_ge x S). assert (0 <= rnd (val x * / val c)) by (apply rnd_ge_repr; [apply repr_0|nra]).
      rewrite Rabs_right in L by lra. rewrite Rmin_left by lra. rewrite Rmax_right; lra.
Qed.

Lemma inf_mul s c : fin c = true -> 0 < val c -> fmul (B754_infinity 24 128 s) c = B754_infinity 24 128 s.
Proof.
  intros Fc Pc. pose proof (sgn_pos_val c Fc Pc) as Sc. destruct c as [sc|sc|sc pl H|sc m e H]; try discriminate Fc.
  - unfold val in Pc. cbn in Pc. lra.
  - cbn in Sc. subst sc. destruct s; reflexivity.
Qed.
Lemma inf_div s c : fin c = true -> 0 < val c -> fdiv (B754_infinity 24 128 s) c = B754_infinity 24 128 s.
Proof.
  intros Fc Pc. pose proof (sgn_pos_val c Fc Pc) as Sc. destruct c as [sc|sc|sc pl H|sc m e H]; try discriminate Fc.
  - unfold val in Pc. cbn in Pc. lra.
  - cbn in Sc. subst sc. destruct s; reflexivity.
Qed.

Lemma ext_inf s : ext (B754_infinity 24 128 s) = if s then - big else big.
Proof. reflexivity. Qed.
Lemma fin_or_inf (x : f32) : isnan x = false -> fin x = true \/ exists s, x = B754_infinity 24 128 s.
Proof. destruct x as [s|s|s pl H|s m e H]; intros N; try discriminate; auto. right. now exists s. Qed.

Lemma mono_op (op : f32 -> f32) (g : R -> R) :
  (forall x, fin x = true -> isnan (op x) = false /\ ext (op x) = clampb (rnd (g (val x)))) ->
  (forall s, op (B754_infinity 24 128 s) = B754_infinity 24 128 s) ->
  (forall a b, a <= b -> g a <= g b) ->
  forall x y, fle x y = true -> fle (op x) (op y) = true.
Proof.
  intros Hf Hi Hg x y H. apply fle_true in H. destruct H as (Nx & Ny & H). pose proof big_pos as Bp.
  assert (G : isnan (op x) = false /\ isnan (op y) = false /\ ext (op x) <= ext (op y)).
  { destruct (fin_or_inf x Nx) as [Fx|[sx ->]]; destruct (fin_or_inf y Ny) as [Fy|[sy ->]]; rewrite ?Hi, ?ext_inf in *.
    - destruct (Hf x Fx) as [N1 E1]. destruct (Hf y Fy) as [N2 E2]. split; [exact N1|]. split; [exact N2|].
      rewrite E1, E2. apply clampb_mono, rnd_le, Hg. now rewrite !ext_fin in H by assumption.
    - destruct (Hf x Fx) as [N1 E1]. pose proof (clampb_range (rnd (g (val x)))). pose proof (val_lt_big x) as V. apply Rabs_lt_inv in V.
      rewrite (ext_fin x Fx) in H. split; [exact N1|]. split; [reflexivity|]. rewrite E1. destruct sy; lra.
    - destruct (Hf y Fy) as [N1 E1]. pose proof (clampb_range (rnd (g (val y)))). pose proof (val_lt_big y) as V. apply Rabs_lt_inv in V.
      rewrite (ext_fin y Fy) in H. split; [reflexivity|]. split; [exact N1|]. rewrite E1. destruct sx; lra.
    - split; [reflexivity|]. split; [reflexivity|]. exact H. }
  destruct G as (N1 & N2 & G). rewrite fle_ext by assumption. now apply Rle_bool_true.
Qed.

Lemma mul_mono c : fin c = true -> 0 < val c -> forall x y, fle x y = true -> fle (fmul x c) (fmul y c) = true.
Proof.
  intros Fc Pc. apply (mono_op (fun x => fmul x c) (fun v => v * val c)).
  - intros x Fx. now apply ext_mul.
  - intros s. now apply inf_mul.
  - intros a b H. apply Rmult_le_compat_r; lra.
Qed.
Lemma div_mono c : fin c = true -> 0 < val c -> forall x y, fle x y = true -> fle (fdiv x c) (fdiv y c) = true.
Proof.
  intros Fc Pc. apply (mono_op (fun x => fdiv x c) (fun v => v / val c)).
  - intros x Fx. now apply ext_div.
  - intros s. now apply inf_div.
  - intros a b H. apply Rmult_le_compat_r; [|exact H]. left. now apply Rinv_0_lt_compat.
Qed.
End Mono.

(** ** Relative errors *)
Definition rel (u v e : R) : Prop := Rabs (u - v) <= e * Rabs v.

Lemma rel_refl v : rel v v 0.
Proof. unfold rel. rewrite Rminus_diag_eq, Rabs_R0 by reflexivity. lra. Qed.
Lemma rel_abs u v e : rel u v e -> Rabs u <= (1 + e) * Rabs v /\ (1 - e) * Rabs v <= Rabs u.
Proof.
  unfold rel. intros H. pose proof (Rabs_triang_inv u v). pose proof (Rabs_triang_inv v u). rewrite (Rabs_minus_sym v u) in H1. lra.
Qed.
Lemma rel_rnd u v e : 0 <= e -> rel u v e -> pow2 (-126) <= Rabs u -> rel (rnd u) v (e + pow2 (-24) * (1 + e)).
Proof.
  intros He H L. pose proof (rnd_err_rel u L) as R. destruct (rel_abs u v e H) as [A _]. unfold rel in *.
  replace (rnd u - v) with ((rnd u - u) + (u - v)) by ring. apply Rle_trans with (1 := Rabs_triang _ _).
  pose proof (bpow_gt_0 radix2 (-24)). nra.
Qed.
Lemma rel_mul u v e c : rel u v e -> rel (u * c) (v * c) e.
Proof.
  unfold rel. intros H. replace (u * c - v * c) with ((u - v) * c) by ring. rewrite !Rabs_mult. pose proof (Rabs_pos c). nra.
Qed.
Lemma rel_div u v e c : rel u v e -> rel (u / c) (v / c) e.
Proof. intros H. unfold Rdiv. now apply rel_mul. Qed.
