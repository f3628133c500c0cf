(** * Theorems: decibel conversions in f32 (C100). *)

From Coq Require Import ZArith Bool Reals Lia Lra.
From Flocq Require Import Core IEEE754.Binary.
From Verif Require Import Base F32 F32Lemmas Num M_Levels S_DecibelsF32 P_Interp P_Lerp T_Levels.
Local Open Scope R_scope.

(** ** Real arithmetic *)

Lemma ln10_pos : 0 < ln 10.
Proof. rewrite <- ln_1. apply ln_increasing; lra. Qed.
Lemma ln10_le : ln 10 <= 5 / 2.
Proof.
  rewrite <- (ln_exp (5 / 2)). apply Rlt_le, ln_increasing; [lra|].
  assert (E : exp (5 / 2) = exp (5 / 32) ^ 16).
  { replace (5 / 2) with (INR 16 * (5 / 32)) by (cbn; lra). rewrite <- Rpower_pow by apply exp_pos.
    unfold Rpower. now rewrite ln_exp. }
  rewrite E. assert (1 + 5 / 32 < exp (5 / 32)) by (apply exp_ineq1; lra).
  assert (P : (1 + 5 / 32) ^ 16 <= exp (5 / 32) ^ 16) by (apply pow_incr; lra).
  eapply Rlt_le_trans; [|exact P]. cbn [pow]. lra.
Qed.
Lemma pow10_pos y : 0 < Rpower 10 y. Proof. apply exp_pos. Qed.
Lemma pow10_plus a b : Rpower 10 (a + b) = Rpower 10 a * Rpower 10 b.
Proof. apply Rpower_plus. Qed.
Lemma pow10_log10 x : 0 < x -> Rpower 10 (log10 x) = x.
Proof.
  intros H. unfold Rpower, log10. pose proof ln10_pos. replace (ln x / ln 10 * ln 10) with (ln x) by (field; lra). now apply exp_ln.
Qed.
(** 10^d - 1 for a small d *)
Lemma pow10_small d b : Rabs d <= b -> b <= / 50 -> Rabs (Rpower 10 d - 1) <= 27 / 10 * b.
Proof.
  intros Hd Hb. pose proof ln10_pos as L. pose proof ln10_le as U.
  set (z := d * ln 10). assert (Z : Rabs z <= 5 / 2 * b).
  { unfold z. rewrite Rabs_mult, (Rabs_pos_eq (ln 10)) by lra. pose proof (Rabs_pos d).
    assert (Rabs d * ln 10 <= b * (5 / 2)) by (apply Rmult_le_compat; lra). lra. }
  change (Rpower 10 d) with (exp z).
  assert (G : forall w, 1 + w <= exp w).
  { intros w. destruct (Req_dec w 0) as [->|N]; [rewrite exp_0; lra|]. apply Rlt_le, exp_ineq1; lra. }
  pose proof (G z) as G1. pose proof (G (- z)) as G2.
  assert (E : exp z * exp (- z) = 1) by (rewrite <- exp_plus, Rplus_opp_r; apply exp_0).
  pose proof (exp_pos z) as P. apply Rabs_le_inv in Z.
  assert (H : exp z * (1 - z) <= 1) by (rewrite <- E; apply Rmult_le_compat_l; lra).
  set (b2 := 5 / 2 * b) in *. assert (B0 : 0 <= b2) by lra. assert (B1 : b2 <= / 20) by (unfold b2; lra).
  (* exp z <= 1 / (1 - b2) *)
  assert (U1 : exp z <= 1 + 27 / 25 * b2).
  { assert (Q : exp z * (1 - b2) <= 1).
    { apply Rle_trans with (exp z * (1 - z)); [apply Rmult_le_compat_l; lra|exact H]. }
    assert (W : 1 <= (1 + 27 / 25 * b2) * (1 - b2)).
    { assert (b2 * b2 <= b2 * / 20) by (apply Rmult_le_compat_l; lra). 
      replace ((1 + 27 / 25 * b2) * (1 - b2)) with (1 + 2 / 25 * b2 - 27 / 25 * (b2 * b2)) by field. lra. }
    apply Rmult_le_reg_r with (1 - b2); [lra|]. lra. }
  apply Rabs_le. unfold b2 in *. lra.
Qed.

Lemma pow2_10 : pow2 10 = 1024. Proof. reflexivity. Qed.

(** The logarithm of a positive f32 is between -46 and 46. *)
Lemma log10_range (x : f32) : fin x = true -> 0 < val x -> Rabs (log10 (val x)) <= 46.
Proof.
  intros Fx Px. pose proof ln10_pos as L.
  assert (T46 : 46 * ln 10 = ln (10 ^ 46)).
  { rewrite <- (Rpower_pow 46 10) by lra. unfold Rpower. rewrite ln_exp. f_equal. cbn. lra. }
  assert (Hi : val x <= 10 ^ 46).
  { pose proof (Binary.abs_B2R_lt_emax 24 128 x) as B. fold (val x) in B. rewrite Rabs_pos_eq in B by lra.
    apply Rlt_le. eapply Rlt_le_trans; [exact B|]. cbn [bpow]. rewrite pow_IZR. apply IZR_le. vm_compute. discriminate. }
  assert (Lo : / 10 ^ 46 <= val x).
  { apply Rle_trans with (pow2 (-149)).
    - cbn [bpow]. apply Rinv_le; [apply IZR_lt; reflexivity|]. rewrite pow_IZR. apply IZR_le. vm_compute. discriminate.
    - destruct (tiny_or_zero (val x) (repr_val x) ltac:(lra)) as [H|H]; [exfalso; rewrite <- H in Px; lra|exact H]. }
  assert (P : 0 < 10 ^ 46) by (apply pow_lt; lra).
  assert (Q : 0 < / 10 ^ 46) by now apply Rinv_0_lt_compat.
  assert (A : ln (val x) <= 46 * ln 10).
  { rewrite T46. destruct (Rle_lt_or_eq_dec _ _ Hi) as [H|<-]; [|lra]. now apply Rlt_le, ln_increasing. }
  assert (B : - (46 * ln 10) <= ln (val x)).
  { rewrite T46, <- ln_Rinv by exact P. destruct (Rle_lt_or_eq_dec _ _ Lo) as [H|<-]; [|lra]. now apply Rlt_le, ln_increasing. }
  unfold log10, Rdiv. assert (I : 0 < / ln 10) by now apply Rinv_0_lt_compat.
  assert (E : ln 10 * / ln 10 = 1) by (apply Rinv_r; lra).
  apply Rabs_le. split.
  - apply Rmult_le_compat_r with (r := / ln 10) in B; [|lra]. rewrite <- Ropp_mult_distr_l, Rmult_assoc, E in B. lra.
  - apply Rmult_le_compat_r with (r := / ln 10) in A; [|lra]. rewrite Rmult_assoc, E in A. lra.
Qed.

Section Conv.
Context {NP : NanPolicy} {MO : MathOps f32}.

Lemma twenty : fin (of_int 20) = true /\ val (of_int 20) = 20.
Proof. apply of_int_exact. vm_compute. discriminate. Qed.

Lemma decibels_shape (x : f32) : to_decibels_unchecked x = fmul (of_int 20) (m_log10 x).
Proof. reflexivity. Qed.
Lemma ratio_shape (d : f32) : to_volt_ratio d = m_powf (of_int 10) (fdiv d (of_int 20)).
Proof. reflexivity. Qed.

Lemma decibels_near (l : f32) : fin l = true -> Rabs (val l) <= 50 ->
  fin (fmul (of_int 20) l) = true /\ val (fmul (of_int 20) l) = rnd (20 * val l) /\ Rabs (rnd (20 * val l) - 20 * val l) <= pow2 (-15).
Proof.
  intros Fl Hl. destruct twenty as [F20 V20].
  assert (A : Rabs (20 * val l) <= pow2 10).
  { rewrite pow2_10, Rabs_mult, (Rabs_pos_eq 20) by lra. lra. }
  destruct (fmul_spec (of_int 20) l F20 Fl) as [F V].
  { rewrite V20. eapply Rle_lt_trans; [apply rnd_abs_le with (M := pow2 10); [apply repr_bpow; lia|exact A]|]. apply bpow_lt. lia. }
  rewrite V20 in V. repeat split; auto. now apply rnd_err_bpow with (e := 10%Z).
Qed.

Lemma twentieth_near (d : f32) : fin d = true -> Rabs (val d) <= 1024 ->
  fin (fdiv d (of_int 20)) = true /\ val (fdiv d (of_int 20)) = rnd (val d / 20) /\ Rabs (rnd (val d / 20) - val d / 20) <= pow2 (-19).
Proof.
  intros Fd Hd. destruct twenty as [F20 V20].
  assert (A : Rabs (val d / 20) <= pow2 6).
  { change (pow2 6) with 64. unfold Rdiv. rewrite Rabs_mult, (Rabs_pos_eq (/ 20)) by lra. lra. }
  destruct (fdiv_spec d (of_int 20) Fd) as [F V].
  { rewrite V20. lra. }
  { rewrite V20. eapply Rle_lt_trans; [apply rnd_abs_le with (M := pow2 6); [apply repr_bpow; lia|exact A]|]. apply bpow_lt. lia. }
  rewrite V20 in V. repeat split; auto. now apply rnd_err_bpow with (e := 6%Z).
Qed.
End Conv.

Lemma p15 : pow2 (-15) = / 32768. Proof. reflexivity. Qed.
Lemma p17 : pow2 (-17) = / 131072. Proof. reflexivity. Qed.
Lemma p18 : pow2 (-18) = / 262144. Proof. reflexivity. Qed.
Lemma p19 : pow2 (-19) = / 524288. Proof. reflexivity. Qed.

(** C100: with a logarithm good to [e], the decibels of every positive finite ratio are finite and within 20 e + 2^-15
    of 20 log10 of it; both checked conversions return just that. *)
Theorem C100_decibels_accuracy : forall (NP : NanPolicy) (MO : MathOps f32) (e : R) (x : f32), close_log10 MO e -> e <= 1 ->
  fin x = true -> 0 < val x ->
  exists d : f32, to_decibels_unchecked x = d /\ to_decibels x = Ok d /\ to_decibels_checked x = Ok d /\
    fin d = true /\ Rabs (val d - 20 * log10 (val x)) <= 20 * e + pow2 (-15).
Proof.
  intros NP MO e x HL He Fx Px. exists (to_decibels_unchecked x). split; [reflexivity|].
  destruct (C68_decibel_validation NP MO x) as (_ & _ & HV).
  assert (HX : to_decibels x = Ok (to_decibels_unchecked x) /\ to_decibels_checked x = Ok (to_decibels_unchecked x)).
  { apply HV. right. rewrite (ext_fin _ Fx). exact Px. }
  destruct HX as [E1 E2]. split; [exact E1|]. split; [exact E2|].
  destruct (HL x Fx Px) as [Fl Vl]. pose proof (log10_range x Fx Px) as Lr. apply Rabs_le_inv in Lr. apply Rabs_le_inv in Vl.
  rewrite decibels_shape. destruct (decibels_near (m_log10 x) Fl) as (Fd & Vd & Ed); [apply Rabs_le; lra|].
  split; [exact Fd|]. rewrite Vd. apply Rabs_le_inv in Ed. apply Rabs_le. lra.
Qed.
Print Assumptions C100_decibels_accuracy.

(** C100: with a power of ten good to a relative [p], a level from -739 to 739 dB becomes a finite ratio within a relative
    p + 2^-16 of 10^(d/20). *)
Theorem C100_volt_ratio_accuracy : forall (NP : NanPolicy) (MO : MathOps f32) (p : R) (d : f32), close_powf MO p -> p <= 1 ->
  fin d = true -> Rabs (val d) <= 739 ->
  fin (to_volt_ratio d) = true /\
  Rabs (val (to_volt_ratio d) - Rpower 10 (val d / 20)) <= (p + pow2 (-16)) * Rpower 10 (val d / 20).
Proof.
  intros NP MO p d HP Hp Fd Hd. rewrite ratio_shape.
  destruct (twentieth_near d Fd) as (Fy & Vy & Ey); [lra|]. set (y := fdiv d (of_int 20)) in *. clearbody y. rewrite <- Vy in Ey.
  rewrite p19 in Ey. change (pow2 (-16)) with (/ 65536).
  destruct (HP y Fy) as [Fr Vr].
  { apply Rabs_le_inv in Ey. apply Rabs_le_inv in Hd. apply Rabs_le. lra. }
  split; [exact Fr|]. set (r := val (m_powf (of_int 10) y)) in *. clearbody r.
  pose proof (pow10_small (val y - val d / 20) (/ 524288) Ey ltac:(lra)) as S.
  pose proof (pow10_pos (val d / 20)) as P. set (A := Rpower 10 (val d / 20)) in *.
  assert (E : Rpower 10 (val y) = A * Rpower 10 (val y - val d / 20)).
  { unfold A. rewrite <- pow10_plus. f_equal. lra. }
  rewrite E in Vr. set (k := Rpower 10 (val y - val d / 20)) in *. clearbody A k.
  apply Rabs_le_inv in S.
  assert (p0 : 0 <= p).
  { apply Rmult_le_reg_r with (A * k); [apply Rmult_lt_0_compat; lra|]. rewrite Rmult_0_l. eapply Rle_trans; [apply Rabs_pos|exact Vr]. }
  replace (r - A) with ((r - A * k) + A * (k - 1)) by ring.
  eapply Rle_trans; [apply Rabs_triang|]. rewrite (Rabs_mult A), (Rabs_pos_eq A) by lra.
  assert (K : Rabs (k - 1) <= 27 / 10 * / 524288) by (apply Rabs_le; lra).
  assert (K2 : A * Rabs (k - 1) <= A * (27 / 10 * / 524288)) by (apply Rmult_le_compat_l; lra).
  assert (K3 : p * (A * k) <= p * A + A * (27 / 10 * / 524288)).
  { replace (p * (A * k)) with (p * A + A * (p * (k - 1))) by ring. apply Rplus_le_compat_l, Rmult_le_compat_l; [lra|].
    apply Rle_trans with (1 * (27 / 10 * / 524288)); [|lra].
    apply Rle_trans with (p * (27 / 10 * / 524288)); [apply Rmult_le_compat_l; lra|apply Rmult_le_compat_r; lra]. }
  lra.
Qed.
Print Assumptions C100_volt_ratio_accuracy.

(** C100: a ratio from 10^-36 to 10^36 comes back from decibels to within a relative p + 4 (e + 2^-18). *)
Theorem C100_round_trip_f32 : forall (NP : NanPolicy) (MO : MathOps f32) (e p : R) (x : f32), close_log10 MO e -> close_powf MO p ->
  e <= / 100 -> p <= / 4 -> fin x = true -> Rpower 10 (-36) <= val x <= Rpower 10 36 ->
  fin (to_volt_ratio (to_decibels_unchecked x)) = true /\
  Rabs (val (to_volt_ratio (to_decibels_unchecked x)) - val x) <= (p + 4 * (e + pow2 (-18))) * val x.
Proof.
  intros NP MO e p x HL HP He Hp Fx Hx. pose proof (pow10_pos (-36)) as P36. assert (Px : 0 < val x) by lra.
  destruct (HL x Fx Px) as [Fl Vl]. pose proof (pow10_log10 (val x) Px) as EX. set (L := log10 (val x)) in *.
  assert (HLr : -36 <= L <= 36).
  { split; apply Rnot_lt_le; intros H; apply (Rpower_lt 10) in H; lra. }
  assert (e0 : 0 <= e) by (eapply Rle_trans; [apply Rabs_pos|exact Vl]).
  rewrite ratio_shape, decibels_shape. apply Rabs_le_inv in Vl.
  destruct (decibels_near (m_log10 x) Fl) as (Fd & Vd & Ed); [apply Rabs_le; lra|].
  set (d := fmul (of_int 20) (m_log10 x)) in *. rewrite <- Vd in Ed. clearbody d. rewrite p15 in Ed. apply Rabs_le_inv in Ed.
  destruct (twentieth_near d Fd) as (Fy & Vy & Ey); [apply Rabs_le; lra|]. rewrite <- Vy in Ey. rewrite p19 in Ey. apply Rabs_le_inv in Ey.
  set (y := fdiv d (of_int 20)) in *. clearbody y.
  destruct (HP y Fy) as [Fr Vr]; [apply Rabs_le; lra|]. split; [exact Fr|].
  set (r := val (m_powf (of_int 10) y)) in *. clearbody r. rewrite p18.
  set (b := e + / 262144). assert (Hb : Rabs (val y - L) <= b) by (apply Rabs_le; unfold b; lra).
  assert (Hb2 : b <= / 50) by (unfold b; lra). assert (Hb0 : 0 <= b) by (unfold b; lra).
  pose proof (pow10_small _ _ Hb Hb2) as S.
  assert (E : Rpower 10 (val y) = val x * Rpower 10 (val y - L)).
  { rewrite <- EX at 1. rewrite <- pow10_plus. f_equal. lra. }
  rewrite E in Vr. pose proof (pow10_pos (val y - L)) as Pk. set (k := Rpower 10 (val y - L)) in *. set (X := val x) in *. clearbody X k b.
  assert (p0 : 0 <= p).
  { apply Rmult_le_reg_r with (X * k); [apply Rmult_lt_0_compat; lra|]. rewrite Rmult_0_l. eapply Rle_trans; [apply Rabs_pos|exact Vr]. }
  pose proof S as S'. apply Rabs_le_inv in S'.
  replace (r - X) with ((r - X * k) + X * (k - 1)) by ring.
  eapply Rle_trans; [apply Rabs_triang|]. rewrite (Rabs_mult X), (Rabs_pos_eq X) by lra.
  assert (K2 : X * Rabs (k - 1) <= X * (27 / 10 * b)) by (apply Rmult_le_compat_l; lra).
  assert (K3 : p * (X * k) <= p * X + X * (/ 4 * (27 / 10 * b))).
  { replace (p * (X * k)) with (p * X + X * (p * (k - 1))) by ring. apply Rplus_le_compat_l, Rmult_le_compat_l; [lra|].
    apply Rle_trans with (p * (27 / 10 * b)); [apply Rmult_le_compat_l; lra|apply Rmult_le_compat_r; lra]. }
  assert (0 <= X * b) by (apply Rmult_le_pos; lra).
  replace ((p + 4 * b) * X) with (p * X + 4 * (X * b)) by ring.
  replace (X * (/ 4 * (27 / 10 * b))) with (27 / 40 * (X * b)) in K3 by field.
  replace (X * (27 / 10 * b)) with (27 / 10 * (X * b)) in K2 by ring. lra.
Qed.
Print Assumptions C100_round_trip_f32.

(** C100: neither conversion reverses an order: the louder ratio never has fewer decibels, if the external logarithm
    keeps order, and the higher level never gives the smaller ratio, if the external power does. *)
Theorem C100_order_kept : forall (NP : NanPolicy) (MO : MathOps f32),
  (forall e (x y : f32), close_log10 MO e -> e <= 1 ->
    (forall a b : f32, fin a = true -> fin b = true -> 0 < val a <= val b -> val (m_log10 a) <= val (m_log10 b)) ->
    fin x = true -> fin y = true -> 0 < val x <= val y ->
    val (to_decibels_unchecked x) <= val (to_decibels_unchecked y)) /\
  (forall c d : f32,
    (forall a b : f32, fin a = true -> fin b = true -> val a <= val b ->
      val (m_powf (of_int 10) a) <= val (m_powf (of_int 10) b)) ->
    fin c = true -> fin d = true -> Rabs (val c) <= 1024 -> Rabs (val d) <= 1024 -> val c <= val d ->
    val (to_volt_ratio c) <= val (to_volt_ratio d)).
Proof.
  intros NP MO. split.
  - intros e x y HL He HM Fx Fy Hxy. rewrite !decibels_shape.
    assert (G : forall z : f32, fin z = true -> 0 < val z -> fin (m_log10 z) = true /\ Rabs (val (m_log10 z)) <= 50).
    { intros z Fz Pz. destruct (HL z Fz Pz) as [F V]. split; [exact F|]. pose proof (log10_range z Fz Pz) as B.
      apply Rabs_le_inv in B. apply Rabs_le_inv in V. apply Rabs_le. lra. }
    destruct (G x Fx ltac:(lra)) as [F1 B1]. destruct (G y Fy ltac:(lra)) as [F2 B2].
    destruct (decibels_near _ F1 B1) as (_ & -> & _). destruct (decibels_near _ F2 B2) as (_ & -> & _).
    apply rnd_le. pose proof (HM x y Fx Fy Hxy). lra.
  - intros c d HM Fc Fd Hc Hd Hcd. rewrite !ratio_shape.
    destruct (twentieth_near c Fc Hc) as (F1 & V1 & _). destruct (twentieth_near d Fd Hd) as (F2 & V2 & _).
    apply HM; auto. rewrite V1, V2. apply rnd_le. lra.
Qed.
Print Assumptions C100_order_kept.

(** ** An instance: functions that round the mathematical result. *)

Definition nearest (r : R) : f32 :=
  lit (Ztrunc (scaled_mantissa radix2 fexp32 (rnd r))) (cexp radix2 fexp32 (rnd r)).
Lemma nearest_spec r : Rabs r <= pow2 127 -> fin (nearest r) = true /\ val (nearest r) = rnd r.
Proof.
  intros H. unfold nearest.
  assert (G : repr (rnd r)) by (apply generic_format_round; typeclasses eauto).
  assert (E : IZR (Ztrunc (scaled_mantissa radix2 fexp32 (rnd r))) * pow2 (cexp radix2 fexp32 (rnd r)) = rnd r) by (symmetry; exact G).
  destruct (lit_spec (Ztrunc (scaled_mantissa radix2 fexp32 (rnd r))) (cexp radix2 fexp32 (rnd r))) as [F V].
  { rewrite E. rewrite rnd_repr by exact G. eapply Rle_lt_trans; [apply rnd_abs_le with (M := pow2 127); [apply repr_bpow; lia|exact H]|].
    apply bpow_lt. lia. }
  split; [exact F|]. rewrite V, E. now apply rnd_repr.
Qed.

Definition nearest_math : MathOps f32 := {|
  m_floor := fun x => nearest (IZR (Zfloor (val x))); m_sqrt := fun x => nearest (sqrt (val x)); m_exp := fun x => nearest (exp (val x));
  m_log10 := fun x => nearest (log10 (val x)); m_powf := fun x y => nearest (Rpower (val x) (val y));
  m_powi := fun x n => nearest (powerRZ (val x) n) |}.

Example C100_met (NP : NanPolicy) : close_log10 nearest_math (pow2 (-19)) /\ close_powf nearest_math (pow2 (-24)) /\
  pow2 (-19) <= / 100 /\ pow2 (-24) <= / 4 /\ Rpower 10 (-36) <= val (of_int 2) <= Rpower 10 36.
Proof.
  assert (E64 : pow2 6 = 64) by reflexivity.
  split; [|split; [|split; [|split]]].
  - intros x Fx Px. pose proof (log10_range x Fx Px) as B. cbn [m_log10 nearest_math].
    assert (B6 : Rabs (log10 (val x)) <= pow2 6) by (rewrite E64; lra).
    destruct (nearest_spec (log10 (val x))) as [F V].
    { eapply Rle_trans; [exact B6|]. apply bpow_le. lia. }
    split; [exact F|]. rewrite V. now apply rnd_err_bpow with (e := 6%Z).
  - intros y Fy By. cbn [m_powf nearest_math]. destruct (of_int_exact 10 ltac:(lia)) as [_ V10]. rewrite V10.
    apply Rabs_le_inv in By. pose proof (pow10_pos (val y)) as P.
    assert (T37 : Rpower 10 37 = 10 ^ 37) by (rewrite <- Rpower_pow by lra; f_equal; cbn; lra).
    assert (Tm : Rpower 10 (-37) = / 10 ^ 37) by (replace (-37) with (- (37)) by lra; rewrite Rpower_Ropp, T37; reflexivity).
    assert (Hi : Rpower 10 (val y) <= Rpower 10 37) by (apply Rle_Rpower; lra).
    assert (Lo : Rpower 10 (-37) <= Rpower 10 (val y)) by (apply Rle_Rpower; lra).
    destruct (nearest_spec (Rpower 10 (val y))) as [F V].
    { rewrite Rabs_pos_eq by lra. eapply Rle_trans; [exact Hi|]. rewrite T37, pow_IZR. cbn [bpow]. apply IZR_le. vm_compute. discriminate. }
    split; [exact F|]. rewrite V. rewrite <- (Rabs_pos_eq (Rpower 10 (val y))) at 3 by lra. apply rnd_err_rel. rewrite Rabs_pos_eq by lra.
    eapply Rle_trans; [|exact Lo]. rewrite Tm, pow_IZR. cbn [bpow]. apply Rinv_le; [apply IZR_lt; reflexivity|]. apply IZR_le. vm_compute. discriminate.
  - rewrite p19. lra.
  - change (pow2 (-24)) with (/ 16777216). lra.
  - destruct (of_int_exact 2 ltac:(lia)) as [_ V2]. rewrite V2.
    assert (T36 : Rpower 10 36 = 10 ^ 36) by (rewrite <- Rpower_pow by lra; f_equal; cbn; lra).
    replace (-36) with (- (36)) by lra. rewrite Rpower_Ropp, T36. split.
    + apply Rle_trans with (/ 1); [|lra]. apply Rinv_le; [lra|]. apply pow_R1_Rle. lra.
    + rewrite pow_IZR. apply IZR_le. vm_compute. discriminate.
Qed.
