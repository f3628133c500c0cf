(** * Proofs: rounding errors in the filter designs (C96). *)

From Coq Require Import ZArith List Bool Reals Lia Lra Psatz.
From Flocq Require Import Core.
From Verif Require Import Base F32 F32Lemmas F32Range Num M_FloatMath M_Biquad S_Biquad S_BiquadF32 S_DesignF32 P_DelayNum P_Biquad.
Local Open Scope R_scope.

(** The unit roundoff 2^-24 and the floor below the normal numbers. *)
Definition u : R := / 16777216.
Definition t : R := pow2 (-150).
Lemma u_eq : pow2 (-24) = u. Proof. cbn. reflexivity. Qed.
Lemma t_range : 0 < t <= u / 1099511627776.
Proof.
  split; [apply bpow_gt_0|]. unfold t. apply Rle_trans with (pow2 (-24) * pow2 (-40)); [rewrite <- bpow_plus; apply bpow_le; lia|].
  rewrite u_eq. right. cbn. unfold u. field.
Qed.

Lemma rnd_u x : Rabs x <= pow2 100 -> Rabs (rnd x - x) <= u * Rabs x + t /\ Rabs (rnd x) < big.
Proof.
  intros H. pose proof (rnd_err x) as E. rewrite u_eq in E. fold t in E. split; [exact E|].
  assert (B : Rabs (rnd x) <= 2 * pow2 100 + t).
  { replace (rnd x) with (rnd x - x + x) by ring. eapply Rle_trans; [apply Rabs_triang|]. pose proof (Rabs_pos x). unfold u in E. lra. }
  apply Rle_lt_trans with (pow2 102); [|apply bpow_lt; lia]. pose proof t_range. replace (pow2 102) with (4 * pow2 100) by (replace 4 with (pow2 2) by (cbn; lra); rewrite <- bpow_plus; reflexivity).
  assert (1 <= pow2 100) by (change 1 with (pow2 0); apply bpow_le; lia). unfold u in *. lra.
Qed.

Section Ops.
Context {NP : NanPolicy}.
Lemma add_u a b : fin a = true -> fin b = true -> Rabs (val a + val b) <= pow2 100 ->
  fin (fadd a b) = true /\ Rabs (val (fadd a b) - (val a + val b)) <= u * Rabs (val a + val b) + t.
Proof. intros Fa Fb H. destruct (rnd_u _ H) as [R1 R2]. destruct (fadd_spec a b Fa Fb R2) as [F ->]. tauto. Qed.
Lemma sub_u a b : fin a = true -> fin b = true -> Rabs (val a - val b) <= pow2 100 ->
  fin (fsub a b) = true /\ Rabs (val (fsub a b) - (val a - val b)) <= u * Rabs (val a - val b) + t.
Proof. intros Fa Fb H. destruct (rnd_u _ H) as [R1 R2]. destruct (fsub_spec a b Fa Fb R2) as [F ->]. tauto. Qed.
Lemma mul_u a b : fin a = true -> fin b = true -> Rabs (val a * val b) <= pow2 100 ->
  fin (fmul a b) = true /\ Rabs (val (fmul a b) - val a * val b) <= u * Rabs (val a * val b) + t.
Proof. intros Fa Fb H. destruct (rnd_u _ H) as [R1 R2]. destruct (fmul_spec a b Fa Fb R2) as [F ->]. tauto. Qed.
Lemma div_u a b : fin a = true -> val b <> 0 -> Rabs (val a / val b) <= pow2 100 ->
  fin (fdiv a b) = true /\ Rabs (val (fdiv a b) - val a / val b) <= u * Rabs (val a / val b) + t.
Proof. intros Fa Fb H. destruct (rnd_u _ H) as [R1 R2]. destruct (fdiv_spec a b Fa Fb R2) as [F ->]. tauto. Qed.

Lemma small100 x : Rabs x <= 1099511627776 -> Rabs x <= pow2 100.
Proof. intros H. eapply Rle_trans; [exact H|]. replace 1099511627776 with (pow2 40) by (cbn; lra). apply bpow_le. lia. Qed.

Lemma one_spec : fin (of_int 1) = true /\ val (of_int 1) = 1.
Proof. apply of_int_exact. lia. Qed.
Lemma two_spec : fin (of_int 2) = true /\ val (of_int 2) = 2.
Proof. apply of_int_exact. lia. Qed.

(** Doubling is exact. *)
Lemma dbl_exact a : fin a = true -> Rabs (val a) <= 1099511627776 ->
  (fin (fmul (of_int 2) a) = true /\ val (fmul (of_int 2) a) = 2 * val a) /\ (fin (fmul a (of_int 2)) = true /\ val (fmul a (of_int 2)) = 2 * val a).
Proof.
  intros Fa Ha. destruct two_spec as [F2 V2].
  assert (R : rnd (2 * val a) = 2 * val a).
  { apply rnd_repr. pose proof (repr_val a) as H. unfold repr in *.
    apply generic_format_FLT. apply FLT_format_generic in H; [|reflexivity]. destruct H as [[m e] H1 H2 H3].
    exists (Float radix2 m (e + 1)); cbn [Fnum Fexp] in *; [|exact H2|lia]. rewrite H1. unfold F2R. cbn [Fnum Fexp]. rewrite bpow_plus. change (bpow radix2 1) with 2. ring. }
  assert (B : Rabs (2 * val a) < big).
  { rewrite Rabs_mult, (Rabs_pos_eq 2) by lra. apply Rle_lt_trans with (pow2 41); [cbn; lra|apply bpow_lt; lia]. }
  pose proof (fmul_spec (of_int 2) a F2 Fa) as P. pose proof (fmul_spec a (of_int 2) Fa F2) as Q. rewrite V2 in P, Q. rewrite (Rmult_comm (val a) 2) in Q. rewrite R in P, Q.
  split; [exact (P B)|exact (Q B)].
Qed.

(** ** The common denominator *)
Section Den.
Variables s k2 : f32.
Let S := val s. Let K := val k2. Let D := 1 + S + K.
Hypothesis Fs : fin s = true.
Hypothesis Fk : fin k2 = true.
Hypothesis PS : 0 <= S.
Hypothesis PK : 0 <= K.
Hypothesis HD : D <= 4194304.

Definition a0_ := fadd (fadd (of_int 1) s) k2.
Definition nrm := fdiv (of_int 1) a0_.

Lemma D_range : 1 <= D /\ 0 <= S <= D /\ 0 <= K <= D.
Proof. unfold D. lra. Qed.

Lemma a0_ok : fin a0_ = true /\ Rabs (val a0_ - D) <= 2001 / 1000 * u * D.
Proof.
  destruct one_spec as [F1 V1]. pose proof D_range as (D1 & _). pose proof t_range as T. unfold u in *.
  destruct (add_u (of_int 1) s F1 Fs) as [Fa Ea]; [rewrite V1; fold S; apply small100; rewrite Rabs_pos_eq; unfold D in *; lra|].
  rewrite V1 in Ea. fold S in Ea. rewrite (Rabs_pos_eq (1 + S)) in Ea by lra. apply Rabs_le_inv in Ea. unfold u in *. unfold D in *.
  destruct (add_u (fadd (of_int 1) s) k2 Fa Fk) as [Fb Eb]; [fold K; apply small100; rewrite Rabs_pos_eq; lra|].
  fold K in Eb. rewrite (Rabs_pos_eq (val (fadd (of_int 1) s) + K)) in Eb by lra. apply Rabs_le_inv in Eb. unfold u in *.
  split; [exact Fb|]. fold a0_ in Eb. apply Rabs_le. lra.
Qed.

Lemma nrm_ok : fin nrm = true /\ Rabs (val nrm * D - 1) <= 3002 / 1000 * u /\ 0 < val nrm <= 1003 / 1000.
Proof.
  destruct a0_ok as [Fa Ea]. destruct one_spec as [F1 V1]. pose proof D_range as (D1 & _). pose proof t_range as T. apply Rabs_le_inv in Ea.
  set (a := val a0_) in *. assert (Pa : 999 / 1000 < a) by (unfold u in *; lra).
  assert (I : 0 < / a <= 1002 / 1000).
  { split; [apply Rinv_0_lt_compat; lra|]. apply Rle_trans with (/ (999 / 1000)); [apply Rinv_le_contravar|]; lra. }
  assert (E1 : 1 / a = / a) by (unfold Rdiv; ring).
  destruct (div_u (of_int 1) a0_ F1) as [Fn En]; [fold a; lra| |].
  { rewrite V1. fold a. apply small100. rewrite E1, Rabs_pos_eq; lra. }
  rewrite V1 in En. fold a in En. rewrite E1, (Rabs_pos_eq (/ a)) in En by lra. fold nrm in Fn, En. apply Rabs_le_inv in En.
  split; [exact Fn|].
  set (n := val nrm) in *. assert (X : / a * a = 1) by (apply Rinv_l; lra).
  set (i := / a) in *. clearbody i n a. clear Pa V1 E1. unfold u in *.
  (* n is close to i, a to D, i a = 1 *)
  assert (TD : t * D <= u / 100000).
  { apply Rle_trans with (t * 4194304); [apply Rmult_le_compat_l; lra|]. unfold u. lra. }
  assert (iD1 : i * D <= 1 + 20011 / 10000 / 16777216) by nra.
  assert (iD2 : 1 - 20011 / 10000 / 16777216 <= i * D) by nra.
  assert (n1 : n * D <= (i + / 16777216 * i + t) * D) by (apply Rmult_le_compat_r; lra).
  assert (n2 : (i - / 16777216 * i - t) * D <= n * D) by (apply Rmult_le_compat_r; lra).
  unfold u in TD. split; [apply Rabs_le; split; nra|]. 
  assert (Q : t <= i / 1000).
  { assert (0 < i * D) by lra. apply Rmult_le_reg_r with D; [lra|]. lra. }
  lra.
Qed.

(** A coefficient norm * v, where [v] stands for the exact [w]. *)
Lemma coef v w c d : fin v = true -> Rabs w <= c * D -> c <= 4 -> Rabs (val v - w) <= d * u * D -> 0 <= d <= 8 ->
  fin (fmul nrm v) = true /\ Rabs (val (fmul nrm v) - w / D) <= (1001 / 1000 * d + 4003 / 1000 * c) * u + t.
Proof.
  intros Fv Hw Hc Hv Hd. destruct nrm_ok as (Fn & En & Bn). pose proof D_range as (D1 & _). pose proof t_range as T.
  set (n := val nrm) in *. set (x := val v) in *.
  assert (P : Rabs (n * x - w / D) <= (10001 / 10000 * d + 3002 / 1000 * c) * u).
  { replace (n * x - w / D) with ((n * D - 1) * (w / D) + (n * D) * ((x - w) / D)) by (field; lra).
    eapply Rle_trans; [apply Rabs_triang|]. rewrite !Rabs_mult.
    assert (A1 : Rabs (w / D) <= c).
    { unfold Rdiv. rewrite Rabs_mult, (Rabs_pos_eq (/ D)) by (left; apply Rinv_0_lt_compat; lra). apply Rmult_le_reg_r with D; [lra|]. rewrite Rmult_assoc, Rinv_l by lra. lra. }
    assert (A2 : Rabs ((x - w) / D) <= d * u).
    { unfold Rdiv. rewrite Rabs_mult, (Rabs_pos_eq (/ D)) by (left; apply Rinv_0_lt_compat; lra). apply Rmult_le_reg_r with D; [lra|]. rewrite Rmult_assoc, Rinv_l by lra. lra. }
    pose proof (Rabs_pos (w / D)) as A0. pose proof (Rabs_pos ((x - w) / D)) as A0'.
    assert (A3 : Rabs n * Rabs D <= 10001 / 10000).
    { rewrite !Rabs_pos_eq by lra. apply Rabs_le_inv in En. unfold u in En. lra. }
    assert (0 <= d * u) by (unfold u; lra).
    pose proof (Rmult_le_compat _ _ _ _ (Rabs_pos _) A0 En A1). pose proof (Rmult_le_compat _ _ _ _ (Rmult_le_pos _ _ (Rabs_pos n) (Rabs_pos D)) A0' A3 A2). lra. }
  assert (C0 : 0 <= c) by (pose proof (Rabs_pos w); nra).
  assert (Bx : Rabs (n * x) <= 10002 / 10000 * c + 101 / 100 * d * u).
  { assert (A1 : Rabs (w / D) <= c).
    { unfold Rdiv. rewrite Rabs_mult, (Rabs_pos_eq (/ D)) by (left; apply Rinv_0_lt_compat; lra). apply Rmult_le_reg_r with D; [lra|]. rewrite Rmult_assoc, Rinv_l by lra. lra. }
    replace (n * x) with (n * x - w / D + w / D) by ring. eapply Rle_trans; [apply Rabs_triang|]. unfold u in *. lra. }
  destruct (mul_u nrm v Fn Fv) as [F E]; [fold n x; apply small100; unfold u in *; lra|].
  split; [exact F|]. fold n x in E. replace (val (fmul nrm v) - w / D) with ((val (fmul nrm v) - n * x) + (n * x - w / D)) by ring.
  eapply Rle_trans; [apply Rabs_triang|]. unfold u in *. lra.
Qed.

Lemma km1_ok : fin (fsub k2 (of_int 1)) = true /\ Rabs (val (fsub k2 (of_int 1)) - (K - 1)) <= 1001 / 1000 * u * D.
Proof.
  destruct one_spec as [F1 V1]. pose proof D_range as (D1 & _). pose proof t_range as T.
  assert (B : Rabs (K - 1) <= D) by (apply Rabs_le; unfold D; lra).
  destruct (sub_u k2 (of_int 1) Fk F1) as [F E]; [rewrite V1; fold K; apply small100; lra|]. rewrite V1 in E. fold K in E.
  split; [exact F|]. unfold u in *. lra.
Qed.

(** The three ways the designs write the same coefficient. *)
Lemma a1_ok : let x := fmul nrm (fmul (of_int 2) (fsub k2 (of_int 1))) in let y := fmul (fmul nrm (of_int 2)) (fsub k2 (of_int 1)) in
  (fin x = true /\ Rabs (val x - 2 * (K - 1) / D) <= 102 / 10 * u) /\ fin y = true /\ Rabs (val y - 2 * (K - 1) / D) <= 102 / 10 * u.
Proof.
  intros x y. destruct km1_ok as [F E]. destruct nrm_ok as (Fn & En & Bn). pose proof D_range as (D1 & _). pose proof t_range as T.
  set (m := fsub k2 (of_int 1)) in *. assert (B : Rabs (K - 1) <= D) by (apply Rabs_le; unfold D; lra).
  assert (Bm : Rabs (val m) <= 4194400).
  { replace (val m) with (val m - (K - 1) + (K - 1)) by ring. eapply Rle_trans; [apply Rabs_triang|]. unfold u in E. lra. }
  destruct (dbl_exact m F ltac:(lra)) as [[Fd Vd] _].
  destruct (coef (fmul (of_int 2) m) (2 * (K - 1)) 2 (2002 / 1000) Fd) as [Fx Ex].
  { rewrite Rabs_mult, (Rabs_pos_eq 2) by lra. lra. } { lra. }
  { rewrite Vd. replace (2 * val m - 2 * (K - 1)) with (2 * (val m - (K - 1))) by ring. rewrite Rabs_mult, (Rabs_pos_eq 2) by lra. lra. } { lra. }
  assert (Ex' : Rabs (val x - 2 * (K - 1) / D) <= 102 / 10 * u) by (unfold x; unfold u in *; lra).
  split; [split; [exact Fx|exact Ex']|].
  destruct (dbl_exact nrm Fn) as [_ [Fn2 Vn2]]; [rewrite Rabs_pos_eq; lra|].
  assert (Vx : val x = rnd (2 * val nrm * val m)).
  { destruct (fmul_spec nrm (fmul (of_int 2) m) Fn Fd) as [_ V].
    - destruct (rnd_u (val nrm * val (fmul (of_int 2) m))) as [_ W]; [|exact W]. rewrite Vd. apply small100. rewrite !Rabs_mult, (Rabs_pos_eq 2), (Rabs_pos_eq (val nrm)) by lra. pose proof (Rabs_pos (val m)). nra.
    - unfold x. rewrite V, Vd. f_equal. ring. }
  destruct (fmul_spec (fmul nrm (of_int 2)) m Fn2 F) as [Fy Vy]; [rewrite Vn2, <- Vx; apply val_lt_big|].
  split; [exact Fy|]. unfold y. rewrite Vy, Vn2, <- Vx. exact Ex'.
Qed.

Lemma r2_ok : fin (fadd (fsub (of_int 1) s) k2) = true /\ Rabs (val (fadd (fsub (of_int 1) s) k2) - (1 - S + K)) <= 2003 / 1000 * u * D.
Proof.
  destruct one_spec as [F1 V1]. pose proof D_range as (D1 & D2 & D3). pose proof t_range as T.
  assert (B : Rabs (1 - S) <= D) by (apply Rabs_le; unfold D; lra).
  assert (B' : Rabs (1 - S + K) <= D) by (apply Rabs_le; unfold D; lra).
  destruct (sub_u (of_int 1) s F1 Fs) as [F E]; [rewrite V1; fold S; apply small100; lra|]. rewrite V1 in E. fold S in E.
  set (r := fsub (of_int 1) s) in *.
  assert (B2 : Rabs (val r + K) <= 10001 / 10000 * D).
  { replace (val r + K) with ((val r - (1 - S)) + (1 - S + K)) by ring. eapply Rle_trans; [apply Rabs_triang|]. unfold u in *. lra. }
  destruct (add_u r k2 F Fk) as [F' E']; [fold K; apply small100; lra|]. fold K in E'. split; [exact F'|].
  replace (val (fadd r k2) - (1 - S + K)) with ((val (fadd r k2) - (val r + K)) + (val r - (1 - S))) by ring.
  eapply Rle_trans; [apply Rabs_triang|]. unfold u in *. lra.
Qed.

Lemma a2_ok : let x := fmul nrm (fadd (fsub (of_int 1) s) k2) in fin x = true /\ Rabs (val x - (1 - S + K) / D) <= 61 / 10 * u.
Proof.
  intros x. destruct r2_ok as [F E]. pose proof D_range as (D1 & D2 & D3). pose proof t_range as T.
  destruct (coef (fadd (fsub (of_int 1) s) k2) (1 - S + K) 1 (2003 / 1000) F) as [Fx Ex]; [|lra|exact E|lra|].
  - apply Rabs_le. unfold D. lra.
  - split; [exact Fx|]. fold x in Ex. unfold u in *. lra.
Qed.

(** The rounded poles stay inside the unit circle unless the cut-off is very low. *)
Lemma rounded_jury a b : Rabs (a - 2 * (K - 1) / D) <= 102 / 10 * u -> Rabs (b - (1 - S + K) / D) <= 61 / 10 * u ->
  D / 2097152 <= K -> D / 2097152 <= S -> D <= 2097152 -> -1 < b < 1 /\ - (1 + b) < a < 1 + b.
Proof.
  intros Ha Hb H1 H2 H3. pose proof D_range as (D1 & D2 & D3).
  assert (I : 0 < / D) by (apply Rinv_0_lt_compat; lra).
  assert (X1 : 1 / 2097152 <= K / D) by (apply Rmult_le_reg_r with D; [lra|]; unfold Rdiv; rewrite (Rmult_assoc K), Rinv_l by lra; lra).
  assert (X2 : 1 / 2097152 <= S / D) by (apply Rmult_le_reg_r with D; [lra|]; unfold Rdiv; rewrite (Rmult_assoc S), Rinv_l by lra; lra).
  assert (X3 : 1 / 2097152 <= 1 / D) by (unfold Rdiv; rewrite !Rmult_1_l; apply Rinv_le_contravar; lra).
  assert (X4 : 1 / D + S / D + K / D = 1) by (unfold D; field; unfold D in *; lra).
  replace (2 * (K - 1) / D) with (2 * (K / D) - 2 * (1 / D)) in Ha by (field; lra).
  replace ((1 - S + K) / D) with (1 / D - S / D + K / D) in Hb by (field; lra).
  apply Rabs_le_inv in Ha, Hb. unfold u in *. split; lra.
Qed.

(** Feed-forward coefficients. *)
Lemma kD : 0 <= K / D <= 1.
Proof.
  pose proof D_range as (D1 & D2 & D3). assert (I : 0 < / D) by (apply Rinv_0_lt_compat; lra). unfold Rdiv. split; [apply Rmult_le_pos; lra|].
  apply Rmult_le_reg_r with D; [lra|]. rewrite Rmult_assoc, Rinv_l by lra. lra.
Qed.

Lemma bk_ok : let x := fmul nrm k2 in let y := fmul (fmul nrm (of_int 2)) k2 in
  (fin x = true /\ Rabs (val x - K / D) <= 401 / 100 * u * (K / D) + t) /\ fin y = true /\ Rabs (val y - 2 * K / D) <= 401 / 100 * u * (2 * (K / D)) + t.
Proof.
  intros x y. pose proof D_range as (D1 & D2 & D3). pose proof t_range as T. destruct nrm_ok as (Fn & En & Bn). pose proof kD as Q.
  assert (H : forall v w : f32, fin v = true -> fin w = true -> forall a b, 0 <= a <= 2 -> 1 <= b <= 2 -> val v * val w = b * (val nrm * K) ->
    fin (fmul v w) = true /\ Rabs (val (fmul v w) - b * (K / D)) <= 401 / 100 * u * (b * (K / D)) + t).
  { intros v w Fv Fw a b _ Hb E.
    assert (P : Rabs (b * (val nrm * K) - b * (K / D)) <= 3002 / 1000 * u * (b * (K / D))).
    { replace (b * (val nrm * K) - b * (K / D)) with ((val nrm * D - 1) * (b * (K / D))) by (field; lra).
      rewrite Rabs_mult. rewrite (Rabs_pos_eq (b * (K / D))) by nra. apply Rmult_le_compat_r; [nra|exact En]. }
    set (z := b * (K / D)) in *. assert (Z : 0 <= z <= 2) by (unfold z; nra).
    assert (B : Rabs (b * (val nrm * K)) <= 10001 / 10000 * z).
    { replace (b * (val nrm * K)) with (b * (val nrm * K) - z + z) by ring. eapply Rle_trans; [apply Rabs_triang|]. rewrite (Rabs_pos_eq z) by lra. unfold u in *. lra. }
    destruct (mul_u v w Fv Fw) as [F M]; [rewrite E; apply small100; lra|]. rewrite E in M. split; [exact F|].
    replace (val (fmul v w) - z) with ((val (fmul v w) - b * (val nrm * K)) + (b * (val nrm * K) - z)) by ring.
    eapply Rle_trans; [apply Rabs_triang|]. unfold u in *. lra. }
  destruct (dbl_exact nrm Fn) as [_ [Fn2 Vn2]]; [rewrite Rabs_pos_eq; lra|].
  split.
  - destruct (H nrm k2 Fn Fk 0 1 ltac:(lra) ltac:(lra)) as [F E]; [fold K; ring|]. rewrite !Rmult_1_l in E. split; assumption.
  - replace (2 * K / D) with (2 * (K / D)) by (field; lra). apply (H (fmul nrm (of_int 2)) k2 Fn2 Fk 0 2); [lra|lra|]. rewrite Vn2. fold K. ring.
Qed.

Lemma b1_ok : fin nrm = true /\ Rabs (val nrm - 1 / D) <= 31 / 10 * u.
Proof.
  destruct nrm_ok as (Fn & En & Bn). pose proof D_range as (D1 & _). split; [exact Fn|].
  replace (val nrm - 1 / D) with ((val nrm * D - 1) * / D) by (field; lra). rewrite Rabs_mult, (Rabs_pos_eq (/ D)) by (left; apply Rinv_0_lt_compat; lra).
  assert (I : / D <= 1) by (rewrite <- Rinv_1; apply Rinv_le_contravar; lra). assert (0 < / D) by (apply Rinv_0_lt_compat; lra).
  apply Rle_trans with (3002 / 1000 * u * 1); [apply Rmult_le_compat; try lra; apply Rabs_pos|unfold u; lra].
Qed.

Lemma bm2_ok : let x := fmul nrm (fneg (of_int 2)) in fin x = true /\ Rabs (val x - -2 / D) <= 83 / 10 * u.
Proof.
  intros x. pose proof D_range as (D1 & _). pose proof t_range as T. destruct two_spec as [F2 V2].
  destruct (coef (fneg (of_int 2)) (-2) 2 0) as [F E]; [rewrite fin_fneg; exact F2| |lra| |lra|].
  - rewrite Rabs_left; lra.
  - rewrite val_fneg, V2. replace (- (2) - -2) with 0 by ring. rewrite Rabs_R0. lra.
  - split; [exact F|]. fold x in E. unfold u in *. lra.
Qed.

Lemma bn_ok : let x := fmul nrm (fadd (of_int 1) k2) in fin x = true /\ Rabs (val x - (1 + K) / D) <= 51 / 10 * u.
Proof.
  intros x. pose proof D_range as (D1 & D2 & D3). pose proof t_range as T. destruct one_spec as [F1 V1].
  destruct (add_u (of_int 1) k2 F1 Fk) as [F E]; [rewrite V1; fold K; apply small100; rewrite Rabs_pos_eq; unfold D in *; lra|]. rewrite V1 in E. fold K in E.
  rewrite (Rabs_pos_eq (1 + K)) in E by lra.
  destruct (coef (fadd (of_int 1) k2) (1 + K) 1 (1001 / 1000) F) as [Fx Ex]; [|lra| |lra|].
  - rewrite Rabs_pos_eq by lra. unfold D. lra.
  - eapply Rle_trans; [exact E|]. unfold D, u in *. lra.
  - split; [exact Fx|]. fold x in Ex. unfold u in *. lra.
Qed.
End Den.
End Ops.

(** ** Poles at or outside the unit circle *)
Lemma poles_needs c : poles_inside c -> 0 < 1 + a1 c + a2 c /\ a2 c < 1.
Proof.
  intros H. set (p := a1 c) in *. set (q := a2 c) in *. unfold poles_inside in H. fold p q in H. clearbody p q. split.
  - destruct (Rlt_or_le 0 (1 + p + q)) as [L|L]; [exact L|exfalso].
    assert (Dp : 0 <= (p + 2) * (p + 2) <= p * p - 4 * q) by (split; [apply Rle_0_sqr|lra]). set (r := sqrt (p * p - 4 * q)). assert (R0 : 0 <= r) by apply sqrt_pos. assert (Rr : r * r = p * p - 4 * q) by (apply sqrt_sqrt; lra).
    assert (G : p + 2 <= r).
    { destruct (Rle_lt_dec (p + 2) r) as [Q|Q]; [exact Q|exfalso; nra]. }
    pose proof (H ((- p + r) / 2) 0 ltac:(nra) ltac:(ring)) as B. nra.
  - destruct (Rlt_or_le q 1) as [L|L]; [exact L|exfalso]. destruct (Rle_or_lt (p * p) (4 * q)) as [D|D].
    + assert (S : sqrt (q - p * p / 4) * sqrt (q - p * p / 4) = q - p * p / 4) by (apply sqrt_sqrt; lra).
      pose proof (H (- p / 2) (sqrt (q - p * p / 4)) ltac:(rewrite S; field) ltac:(field)) as B. rewrite S in B. lra.
    + set (r := sqrt (p * p - 4 * q)). assert (Rr : r * r = p * p - 4 * q) by (apply sqrt_sqrt; lra).
      pose proof (H ((- p + r) / 2) 0 ltac:(nra) ltac:(ring)) as B1. pose proof (H ((- p - r) / 2) 0 ltac:(nra) ltac:(ring)) as B2.
      set (x := (- p + r) / 2) in *. set (y := (- p - r) / 2) in *. assert (E : x * y = q) by (unfold x, y; nra).
      assert ((x * y) * (x * y) < 1); [|nra]. replace (x * y * (x * y)) with ((x * x) * (y * y)) by ring. assert (0 <= x * x) by nra. assert (0 <= y * y) by nra. nra.
Qed.

(** A number of magnitude at least 2^e is a multiple of 2^(e-23). *)
Lemma repr_multiple x e : repr x -> (-120 <= e)%Z -> pow2 e <= Rabs x -> exists n : Z, x = IZR n * pow2 (e - 23).
Proof.
  intros H He Hb. apply FLT_format_generic in H; [|reflexivity]. destruct H as [[m e'] H1 H2 H3]. cbn [Fnum Fexp] in *.
  assert (L : (e - 23 <= e')%Z).
  { assert (B : pow2 e < pow2 (24 + e')).
    { eapply Rle_lt_trans; [exact Hb|]. rewrite H1. unfold F2R. cbn [Fnum Fexp]. rewrite Rabs_mult, (Rabs_pos_eq (bpow radix2 e')), bpow_plus by apply bpow_ge_0.
      apply Rmult_lt_compat_r; [apply bpow_gt_0|]. rewrite <- abs_IZR. change (bpow radix2 24) with (IZR (2 ^ 24)). now apply IZR_lt. }
    apply lt_bpow in B. lia. }
  exists (m * 2 ^ (e' - (e - 23)))%Z. rewrite H1. unfold F2R. cbn [Fnum Fexp]. rewrite mult_IZR, Rmult_assoc. f_equal.
  change 2%Z with (radix_val radix2). rewrite IZR_Zpower by lia. rewrite <- bpow_plus. f_equal. lia.
Qed.
