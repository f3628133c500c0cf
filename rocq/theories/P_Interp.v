(** * Proofs about src/float/interpolation.rs: lerp. *)

From Coq Require Import ZArith List Bool Reals Lia Lra Psatz.
From Flocq Require Import Core Relative Sterbenz.
From Verif Require Import Base F32 F32Lemmas F32Ints Num M_Memory P_Lerp.
Import ListNotations.
Open Scope R_scope.

(** Relative error, normal range. *)
Lemma rnd_err_rel x : pow2 (-126) <= Rabs x -> Rabs (rnd x - x) <= pow2 (-24) * Rabs x.
Proof.
  intros H. pose proof (relative_error_N_FLT radix2 (-149) 24 ltac:(lia) (fun z => negb (Z.even z)) x H) as E.
  change (rnd x) with (round radix2 fexp32 (Znearest (fun z => negb (Z.even z))) x).
  eapply Rle_trans; [exact E|].
  change (- (24) + 1)%Z with (-24 + 1)%Z. replace (/ 2 * pow2 (-24 + 1)) with (pow2 (-24)).
  2:{ rewrite (bpow_plus radix2 (-24) 1). change (pow2 1) with 2. field. }
  lra.
Qed.

(** Below MAX plus half an ulp nothing overflows. *)
Lemma rnd_no_overflow x : Rabs x < pow2 128 - pow2 103 -> Rabs (rnd x) < big.
Proof.
  intros H. pose proof (bpow_gt_0 radix2 103).
  pose proof (rnd_err_bpow x 128 ltac:(lia) ltac:(lra)) as E. change (128 - 25)%Z with 103%Z in E.
  unfold big. unfold Rabs in *.
  destruct (Rcase_abs x); destruct (Rcase_abs (rnd x)); destruct (Rcase_abs (rnd x - x)); lra.
Qed.

Definition fmaxv : R := pow2 128 - pow2 104.

Lemma fmaxv_eq : fmaxv = pow2 128 * (1 - pow2 (-24)).
Proof.
  unfold fmaxv. rewrite Rmult_minus_distr_l, <- bpow_plus, Rmult_1_r. reflexivity.
Qed.

(** A representable number at or above 2^127 in magnitude is a multiple of 2^104. *)
Lemma repr_top x : repr x -> pow2 127 <= Rabs x -> exists n : Z, x = IZR n * pow2 104.
Proof.
  intros Hr Hb. destruct (repr_form _ Hr) as (m & e & E & Hm & He).
  assert (He2 : (104 <= e)%Z).
  { destruct (Z.le_gt_cases 104 e) as [|G]; auto. exfalso.
    assert (Rabs x < pow2 127).
    { rewrite E, Rabs_mult, (Rabs_pos_eq (pow2 e)) by apply bpow_ge_0. rewrite <- abs_IZR.
      apply Rlt_le_trans with (pow2 24 * pow2 e).
      - apply Rmult_lt_compat_r; [apply bpow_gt_0|]. change (pow2 24) with (IZR (2 ^ 24)). apply IZR_lt. lia.
      - rewrite <- bpow_plus. apply bpow_le. lia. }
    lra. }
  exists (m * 2 ^ (e - 104))%Z. rewrite E, mult_IZR.
  replace (2 ^ (e - 104))%Z with (Zpower radix2 (e - 104)) by reflexivity.
  rewrite (IZR_Zpower radix2) by lia. rewrite Rmult_assoc, <- bpow_plus.
  now replace (e - 104 + 104)%Z with e by lia.
Qed.

Lemma repr_lt_big_max x : repr x -> Rabs x < big -> Rabs x <= fmaxv.
Proof.
  intros Hr Hb. destruct (Rle_or_lt (pow2 127) (Rabs x)) as [L|L].
  - assert (Ha : repr (Rabs x)) by now apply generic_format_abs.
    destruct (repr_top _ Ha) as [n En].
    { rewrite Rabs_pos_eq by apply Rabs_pos. exact L. }
    unfold big in Hb. unfold fmaxv. rewrite En in *.
    change 128%Z with (24 + 104)%Z in *. rewrite bpow_plus in *. change (pow2 24) with (IZR (2 ^ 24)) in *.
    pose proof (bpow_gt_0 radix2 104) as P. apply Rmult_lt_reg_r in Hb; [|exact P].
    apply lt_IZR in Hb. assert (n <= 2 ^ 24 - 1)%Z as Q by lia. apply IZR_le in Q. rewrite minus_IZR in Q.
    nra.
  - unfold fmaxv. pose proof (bpow_le radix2 104 127 ltac:(lia)).
    replace (pow2 128) with (2 * pow2 127) by (change 128%Z with (1 + 127)%Z; rewrite bpow_plus; reflexivity). lra.
Qed.
Lemma val_max x : Rabs (val x) <= fmaxv.
Proof. apply repr_lt_big_max; [apply repr_val|apply val_lt_big]. Qed.

(** MAX * t rounds strictly below 2^128 * t. *)
Lemma max_mul_lt t : pow2 (-149) <= t -> rnd (fmaxv * t) < pow2 128 * t.
Proof.
  intros Ht. assert (0 < t) by (eapply Rlt_le_trans; [apply bpow_gt_0|exact Ht]).
  rewrite fmaxv_eq. set (y := pow2 128 * t).
  assert (Hy : pow2 (-21) <= y).
  { unfold y. change (-21)%Z with (128 + -149)%Z. rewrite bpow_plus. apply Rmult_le_compat_l; auto. apply bpow_ge_0. }
  replace (pow2 128 * (1 - pow2 (-24)) * t) with (y * (1 - pow2 (-24))) by (unfold y; ring).
  assert (He : pow2 (-24) = / 16777216) by reflexivity.
  assert (P21 : 0 < pow2 (-21)) by apply bpow_gt_0.
  assert (Hx : pow2 (-126) <= Rabs (y * (1 - pow2 (-24)))).
  { rewrite Rabs_pos_eq by (rewrite He; nra).
    assert (pow2 (-126) <= pow2 (-22)) by (apply bpow_le; lia).
    assert (pow2 (-21) = 2 * pow2 (-22)) by (change (-21)%Z with (1 + -22)%Z; rewrite bpow_plus; reflexivity).
    rewrite He. lra. }
  pose proof (rnd_err_rel _ Hx) as E.
  rewrite (Rabs_pos_eq (y * _)) in E by (rewrite He; nra).
  apply Rabs_le_inv in E. rewrite He in *. nra.
Qed.
Lemma max_mul_le t : 0 = t \/ pow2 (-149) <= t -> rnd (fmaxv * t) <= pow2 128 * t.
Proof.
  intros [<-|H].
  - rewrite !Rmult_0_r, rnd_0. lra.
  - left. now apply max_mul_lt.
Qed.

(** ... and at least an ulp below when t is above 1/2. *)
Lemma max_mul_top u : repr u -> / 2 < u <= 1 -> rnd (fmaxv * u) <= pow2 128 * u - pow2 104.
Proof.
  intros Ru Hu.
  assert (Hm : pow2 (-149) <= u).
  { apply Rle_trans with (pow2 (-1)); [apply bpow_le; lia|]. change (pow2 (-1)) with (/ 2). lra. }
  pose proof (max_mul_lt u Hm) as L. set (r := rnd (fmaxv * u)) in *.
  assert (Ry : repr (pow2 128 * u)).
  { destruct (repr_form u Ru) as (m & e & -> & A & B).
    replace (pow2 128 * (IZR m * pow2 e)) with (IZR m * pow2 (128 + e)) by (rewrite bpow_plus; ring).
    apply repr_dy; lia. }
  assert (P127 : pow2 127 = pow2 128 * / 2).
  { change 127%Z with (128 + -1)%Z. rewrite bpow_plus. reflexivity. }
  pose proof (bpow_gt_0 radix2 128) as PB.
  destruct (repr_top _ Ry) as [n En].
  { rewrite Rabs_pos_eq by nra. rewrite P127. nra. }
  destruct (Rle_or_lt (pow2 127) r) as [G|G].
  - destruct (repr_top r (repr_rnd _)) as [k Ek].
    { rewrite Rabs_pos_eq; [exact G|]. eapply Rle_trans; [apply (bpow_ge_0 radix2 127)|exact G]. }
    rewrite Ek, En in *. pose proof (bpow_gt_0 radix2 104) as P.
    apply Rmult_lt_reg_r in L; [|exact P]. apply lt_IZR in L.
    assert (k <= n - 1)%Z as Q by lia. apply IZR_le in Q. rewrite minus_IZR in Q. nra.
  - (* r < 2^127 < y, y a multiple of 2^104 as 2^127 is *)
    assert (pow2 127 <= pow2 128 * u - pow2 104).
    { rewrite En. change 127%Z with (23 + 104)%Z. rewrite bpow_plus. change (pow2 23) with (IZR (2 ^ 23)).
      assert (Q : (2 ^ 23 + 1 <= n)%Z).
      { apply Zlt_le_succ. apply lt_IZR. apply Rmult_lt_reg_r with (pow2 104); [apply bpow_gt_0|].
        rewrite <- En. change (IZR (2 ^ 23)) with (pow2 23). rewrite <- bpow_plus. change (23 + 104)%Z with 127%Z.
        rewrite P127. nra. }
      apply IZR_le in Q. rewrite plus_IZR in Q. pose proof (bpow_gt_0 radix2 104). nra. }
    lra.
Qed.

Section Lerp.
Context {NP : NanPolicy}.
Implicit Types a b t : f32.

Definition unit_range t : Prop := fin t = true /\ 0 <= val t <= 1.

Lemma one_f32 : fin (nint 1 : f32) = true /\ val (nint 1 : f32) = 1.
Proof. exact (of_int_exact 1 ltac:(lia)). Qed.

(** 1 - t: its value u, bounds, exactness for t >= 1/2, distance. *)
Lemma one_minus t : unit_range t ->
  let u := nsub (nint 1) t in
  fin u = true /\ val u = rnd (1 - val t) /\ 0 <= val u <= 1 /\ Rabs (val u - (1 - val t)) <= pow2 (-25) /\
  (/ 2 <= val t -> val u = 1 - val t).
Proof.
  intros [Ft Ht] u. destruct one_f32 as [F1 V1].
  destruct (fsub_bnd (nint 1) t 1 F1 Ft) as (F & V & B).
  { apply (repr_int 1). lia. } { apply (pow2_lt_big 0). lia. }
  { rewrite V1. apply Rabs_le. lra. }
  rewrite V1 in V. change (fsub (nint 1) t) with u in *.
  split; [exact F|]. split; [exact V|]. split.
  { split; [rewrite V; apply rnd_pos; lra|]. apply Rabs_le_inv in B. lra. }
  split.
  - rewrite V. apply (rnd_err_bpow (1 - val t) 0); [lia|]. change (pow2 0) with 1. apply Rabs_le. lra.
  - intros Hh. rewrite V. apply rnd_repr. apply sterbenz; try typeclasses eauto.
    + apply (repr_int 1). lia.
    + apply repr_val.
    + lra.
Qed.

Lemma tiny_or_zero (x : R) : repr x -> 0 <= x -> 0 = x \/ pow2 (-149) <= x.
Proof.
  intros Hr H. destruct (Req_dec 0 x) as [|N]; [now left|right].
  destruct (repr_form x Hr) as (m & e & -> & A & B).
  pose proof (bpow_gt_0 radix2 e) as P.
  assert (1 <= m)%Z.
  { destruct (Z.le_gt_cases 1 m) as [|G]; auto. exfalso.
    assert (m <= 0)%Z as Q by lia. apply IZR_le in Q.
    destruct (Z.eq_dec m 0) as [->|]; [apply N; ring|].
    assert (m < 0)%Z as Q2 by lia. apply IZR_lt in Q2. nra. }
  apply IZR_le in H0. apply Rle_trans with (pow2 e); [apply bpow_le; lia|]. nra.
Qed.

Lemma rnd_mul_max (x t : R) : 0 <= t -> Rabs x <= fmaxv -> Rabs (rnd (x * t)) <= rnd (fmaxv * t).
Proof.
  intros Ht Hx. assert (0 <= fmaxv) by (eapply Rle_trans; [apply Rabs_pos|exact Hx]).
  destruct (Rle_or_lt 0 (x * t)) as [P|N].
  - rewrite Rabs_pos_eq by now apply rnd_pos. apply rnd_le. apply Rabs_le_inv in Hx. nra.
  - rewrite <- Rabs_Ropp, <- rnd_opp, Rabs_pos_eq by (apply rnd_pos; lra).
    apply rnd_le. apply Rabs_le_inv in Hx. nra.
Qed.

Lemma lerp_sum_bound (u t : R) : repr u -> repr t -> 0 <= t <= 1 -> 0 <= u <= 1 ->
  (/ 2 <= t -> u = 1 - t) -> Rabs (u - (1 - t)) <= pow2 (-25) ->
  (t < / 2 -> / 2 <= u) ->
  rnd (fmaxv * u) + rnd (fmaxv * t) < pow2 128 - pow2 103.
Proof.
  intros Ru Rt Ht Hu Hex Herr Hlow.
  pose proof (tiny_or_zero t Rt (proj1 Ht)) as Tt. pose proof (tiny_or_zero u Ru (proj1 Hu)) as Tu.
  pose proof (max_mul_le t Tt) as Lt. pose proof (max_mul_le u Tu) as Lu.
  assert (B : pow2 128 = pow2 104 * 16777216).
  { change 128%Z with (104 + 24)%Z. rewrite bpow_plus. reflexivity. }
  assert (B2 : pow2 104 = 2 * pow2 103).
  { change 104%Z with (1 + 103)%Z. rewrite bpow_plus. reflexivity. }
  pose proof (bpow_gt_0 radix2 103) as P103.
  assert (E25 : pow2 (-25) = / 33554432) by reflexivity.
  assert (Hhalf : forall v, v = / 2 -> rnd (fmaxv * v) <= pow2 127 - pow2 103).
  { intros v ->. apply Req_le. rewrite rnd_repr.
    - unfold fmaxv. change 127%Z with (128 + -1)%Z. change 103%Z with (104 + -1)%Z. rewrite !bpow_plus.
      change (pow2 (-1)) with (/ 2). lra.
    - replace (fmaxv * / 2) with (IZR 16777215 * pow2 103); [apply repr_dy; lia|].
      unfold fmaxv. rewrite B, B2. lra. }
  assert (P127 : pow2 127 = pow2 128 * / 2).
  { change 127%Z with (128 + -1)%Z. rewrite bpow_plus. reflexivity. }
  destruct (Rle_or_lt (/ 2) t) as [Gt|Gt].
  - specialize (Hex Gt). destruct (Req_dec t (/ 2)) as [E|E].
    + assert (E2 : u = / 2) by lra. pose proof (Hhalf t E). pose proof (Hhalf u E2). lra.
    + pose proof (max_mul_top t Rt ltac:(lra)) as T. rewrite Hex in Lu |- *. lra.
  - specialize (Hlow Gt). apply Rabs_le_inv in Herr. rewrite E25 in Herr.
    destruct Tt as [<-|Tt].
    + rewrite Rmult_0_r, rnd_0. destruct (Req_dec u (/ 2)) as [E|E].
      * pose proof (Hhalf u E). lra.
      * pose proof (max_mul_top u Ru ltac:(lra)). nra.
    + pose proof (max_mul_lt t Tt) as T.
      destruct (Req_dec u (/ 2)) as [E|E].
      * pose proof (Hhalf u E). nra.
      * pose proof (max_mul_top u Ru ltac:(lra)). nra.
Qed.

Lemma lerp_exact_form a b t : fin a = true -> fin b = true -> unit_range t ->
  let u := val (nsub (nint 1) t) in
  let v := lerp_unchecked a b t in
  fin v = true /\ val v = rnd (rnd (val a * u) + rnd (val b * val t)).
Proof.
  intros Fa Fb Ht u v. destruct (one_minus t Ht) as (Fu & Vu & Hu & Eu & Xu). fold u in Vu, Hu, Eu, Xu.
  destruct Ht as [Ft Ht].
  pose proof (val_max a) as Ma. pose proof (val_max b) as Mb.
  assert (Hlow : val t < / 2 -> / 2 <= u).
  { intros H. rewrite Vu. apply rnd_ge_repr; [|lra]. change (/ 2) with (pow2 (-1)). apply repr_bpow. lia. }
  pose proof (lerp_sum_bound u (val t) (repr_val _) (repr_val t) Ht Hu Xu Eu Hlow) as S.
  pose proof (rnd_mul_max (val a) u (proj1 Hu) Ma) as Pa.
  pose proof (rnd_mul_max (val b) (val t) (proj1 Ht) Mb) as Pb.
  pose proof (bpow_gt_0 radix2 103).
  assert (Ha0 : 0 <= rnd (fmaxv * u)) by (eapply Rle_trans; [apply Rabs_pos|exact Pa]).
  assert (Hb0 : 0 <= rnd (fmaxv * val t)) by (eapply Rle_trans; [apply Rabs_pos|exact Pb]).
  destruct (fmul_spec a (nsub (nint 1) t) Fa Fu) as [F1 V1].
  { fold u. unfold big. lra. }
  destruct (fmul_spec b t Fb Ft) as [F2 V2].
  { unfold big. lra. }
  fold u in V1. unfold v, lerp_unchecked. cbn [nadd nmul num_f32].
  destruct (fadd_spec (fmul a (nsub (nint 1) t)) (fmul b t) F1 F2) as [F3 V3].
  { rewrite V1, V2. apply rnd_no_overflow. eapply Rle_lt_trans; [apply Rabs_triang|]. lra. }
  split; [exact F3|]. rewrite V3, V1, V2. reflexivity.
Qed.

Lemma lerp_accuracy a b t : fin a = true -> fin b = true -> unit_range t ->
  Rabs (val (lerp_unchecked a b t) - (val a * (1 - val t) + val b * val t))
    <= 3 * pow2 (-24) * Rmax (Rabs (val a)) (Rabs (val b)) + pow2 (-148).
Proof.
  intros Fa Fb Ht. destruct (lerp_exact_form a b t Fa Fb Ht) as [_ E]. cbv zeta in E. rewrite E. clear E.
  destruct (one_minus t Ht) as (_ & _ & Hu & Eu & _).
  set (u := val (nsub (nint 1) t)) in *. destruct Ht as [_ Ht].
  set (A := val a). set (Bv := val b). set (T := val t) in *. set (M := Rmax (Rabs A) (Rabs Bv)).
  assert (MA : Rabs A <= M) by apply Rmax_l. assert (MB : Rabs Bv <= M) by apply Rmax_r.
  assert (M0 : 0 <= M) by (eapply Rle_trans; [apply Rabs_pos|exact MA]).
  pose proof (rnd_err (A * u)) as E1. pose proof (rnd_err (Bv * T)) as E2.
  set (p := rnd (A * u)) in *. set (q := rnd (Bv * T)) in *.
  pose proof (rnd_err (p + q)) as E3. set (r := rnd (p + q)) in *.
  assert (C24 : pow2 (-24) = / 16777216) by reflexivity.
  assert (C25 : pow2 (-25) = / 33554432) by reflexivity.
  assert (C148 : pow2 (-148) = 4 * pow2 (-150)).
  { change (-148)%Z with (2 + -150)%Z. rewrite bpow_plus. reflexivity. }
  assert (P150 : 0 < pow2 (-150)) by apply bpow_gt_0.
  set (d := pow2 (-150)) in *. rewrite C24 in *. rewrite C148. rewrite C25 in Eu. clearbody p q r d.
  assert (B1 : Rabs (A * u) <= M * u).
  { rewrite Rabs_mult, (Rabs_pos_eq u) by lra. apply Rmult_le_compat_r; lra. }
  assert (B2 : Rabs (Bv * T) <= M * T).
  { rewrite Rabs_mult, (Rabs_pos_eq T) by lra. apply Rmult_le_compat_r; lra. }
  assert (B3 : Rabs (A * u - A * (1 - T)) <= M * / 33554432).
  { rewrite <- Rmult_minus_distr_l, Rabs_mult. apply Rmult_le_compat; auto; apply Rabs_pos. }
  assert (B4 : Rabs (p + q) <= M * (u + T) * (1 + / 16777216) + 2 * d).
  { replace (p + q) with ((p - A * u) + (q - Bv * T) + (A * u + Bv * T)) by ring.
    eapply Rle_trans; [apply Rabs_triang|]. pose proof (Rabs_triang (p - A * u) (q - Bv * T)).
    pose proof (Rabs_triang (A * u) (Bv * T)). lra. }
  assert (B5 : M * (u + T) <= M * (1 + / 33554432)).
  { apply Rmult_le_compat_l; auto. apply Rabs_le_inv in Eu. lra. }
  replace (r - (A * (1 - T) + Bv * T)) with
    ((r - (p + q)) + (p - A * u) + (q - Bv * T) + (A * u - A * (1 - T))) by ring.
  eapply Rle_trans; [apply Rabs_triang|]. eapply Rle_trans; [apply Rplus_le_compat_r, Rabs_triang|].
  eapply Rle_trans; [apply Rplus_le_compat_r, Rplus_le_compat_r, Rabs_triang|].
  nra.
Qed.

Lemma lerp_at_0 a b t : fin a = true -> fin b = true -> fin t = true -> val t = 0 ->
  val (lerp_unchecked a b t) = val a.
Proof.
  intros Fa Fb Ft Vt. assert (Ht : unit_range t) by (split; auto; lra).
  destruct (lerp_exact_form a b t Fa Fb Ht) as [_ E]. cbv zeta in E. rewrite E.
  destruct (one_minus t Ht) as (_ & Vu & _). rewrite Vu, Vt, Rminus_0_r.
  rewrite (rnd_repr 1) by (apply (repr_int 1); lia).
  rewrite Rmult_1_r, Rmult_0_r, rnd_0, Rplus_0_r. rewrite !rnd_repr; auto using repr_val, repr_rnd.
Qed.
Lemma lerp_at_1 a b t : fin a = true -> fin b = true -> fin t = true -> val t = 1 ->
  val (lerp_unchecked a b t) = val b.
Proof.
  intros Fa Fb Ft Vt. assert (Ht : unit_range t) by (split; auto; lra).
  destruct (lerp_exact_form a b t Fa Fb Ht) as [_ E]. cbv zeta in E. rewrite E.
  destruct (one_minus t Ht) as (_ & Vu & _). rewrite Vu, Vt. replace (1 - 1) with 0 by ring.
  rewrite rnd_0, Rmult_0_r, rnd_0, Rmult_1_r, Rplus_0_l. rewrite !rnd_repr; auto using repr_val, repr_rnd.
Qed.
End Lerp.

Section LerpChecked.
Context {NP : NanPolicy}.
Implicit Types a b t : f32.

Lemma zero_f32 : fin (of_int 0) = true /\ val (of_int 0) = 0.
Proof. exact (of_int_exact 0 ltac:(lia)). Qed.

Lemma lerp_ok a b t : fin a = true -> fin b = true -> unit_range t ->
  lerp_checked a b t = Ok (lerp_unchecked a b t).
Proof.
  intros Fa Fb [Ft Ht]. unfold lerp_checked.
  rewrite (fin_notnan a Fa), (fin_notnan b Fb), (fin_notinf a Fa), (fin_notinf b Fb). cbn [orb].
  destruct zero_f32 as [F0 V0]. destruct (of_int_exact 1 ltac:(lia)) as [F1 V1].
  unfold fgt. rewrite (flt_fin t _ Ft F0), (flt_fin _ t F1 Ft), V0, V1.
  rewrite Rlt_bool_false by lra. rewrite Rlt_bool_false by lra. reflexivity.
Qed.

Lemma lerp_nan_t a b t : isnan t = true -> isnan (lerp_unchecked a b t) = true.
Proof.
  intros N. unfold lerp_unchecked. cbn [nadd nmul num_f32]. apply fadd_nan. right. apply fmul_nan. now right.
Qed.

Lemma fin_iff x : fin x = true <-> isnan x = false /\ isinf x = false.
Proof. destruct x; cbn; intuition congruence. Qed.

Lemma lerp_validation a b t :
  (isnan a = true \/ isnan b = true <-> lerp_checked a b t = Err InputNaN) /\
  ((isnan a = false /\ isnan b = false) /\ (isinf a = true \/ isinf b = true)
     <-> lerp_checked a b t = Err InputInfinite) /\
  (fin a = true /\ fin b = true /\ isnan t = false /\ (ext t < 0 \/ 1 < ext t)%R
     <-> lerp_checked a b t = Err InterpolationRange) /\
  (fin a = true /\ fin b = true /\ (isnan t = true \/ 0 <= ext t <= 1)%R
     <-> exists v, lerp_checked a b t = Ok v) /\
  (fin a = true -> fin b = true -> isnan t = true ->
     exists v, lerp_checked a b t = Ok v /\ isnan v = true).
Proof.
  destruct zero_f32 as [F0 V0]. destruct (of_int_exact 1 ltac:(lia)) as [F1 V1].
  assert (R : isnan t = false -> (flt t (of_int 0) || fgt t (of_int 1) = true <-> (ext t < 0 \/ 1 < ext t)%R)).
  { intros N. unfold fgt. rewrite (flt_ext t), (flt_ext _ t) by (auto using fin_notnan).
    rewrite (ext_fin _ F0), (ext_fin _ F1), V0, V1. rewrite orb_true_iff.
    case Rlt_bool_spec; case Rlt_bool_spec; intros; intuition (try congruence; try lra). }
  assert (Rn : isnan t = true -> flt t (of_int 0) || fgt t (of_int 1) = false).
  { intros N. unfold fgt. rewrite (flt_nan t), (flt_nan _ t); auto. }
  pose proof (lerp_nan_t a b t) as Nv.
  unfold lerp_checked. rewrite !fin_iff.
  set (oo := flt t (of_int 0) || fgt t (of_int 1)) in *. clearbody oo.
  set (v := lerp_unchecked a b t) in *. clearbody v.
  assert (Q : oo = true <-> isnan t = false /\ (ext t < 0 \/ 1 < ext t)).
  { destruct (isnan t); [rewrite Rn by reflexivity|rewrite R by reflexivity]; intuition congruence. }
  assert (Q2 : oo = false <-> isnan t = true \/ 0 <= ext t <= 1).
  { destruct (isnan t).
    - rewrite Rn by reflexivity. intuition.
    - specialize (R eq_refl). split; [intros ->|intros [D|D]; [discriminate|]].
      + right. destruct (Rle_or_lt 0 (ext t)); destruct (Rle_or_lt (ext t) 1); try lra;
          exfalso; assert (false = true) by (apply R; lra); discriminate.
      + destruct oo; auto. exfalso. destruct (proj1 R eq_refl); lra. }
  clear R Rn. rewrite <- Q2.
  assert (Q' : forall P1 P2 : Prop, (P1 /\ P2 /\ isnan t = false /\ (ext t < 0 \/ 1 < ext t)) <-> (P1 /\ P2 /\ oo = true))
    by (intros; rewrite Q; tauto).
  rewrite Q'. 
  assert (Nn : isnan t = true -> oo = false) by (intros N; apply Q2; now left).
  clear Q Q2 Q'.
  assert (Ex : forall (E : InterpolationError), (exists w : f32, Err E = Ok w) <-> False)
    by (intros; split; [intros [? ?]; discriminate|tauto]).
  destruct (isnan a), (isnan b), (isinf a), (isinf b), oo; cbn [orb]; rewrite ?Ex;
    intuition (try congruence; eauto).
Qed.
End LerpChecked.
