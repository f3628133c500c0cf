(** * Proofs: rounding errors of Lagrange interpolation (C99). *)

From Coq Require Import ZArith List Bool Reals Lia Lra Psatz.
From Flocq Require Import Core Plus_error Relative.
From Verif Require Import Base F32 F32Lemmas F32Exact Num M_Memory S_Memory S_Delay S_Poly S_LagrangeF32 P_Lagrange P_DesignF32.
Import ListNotations.
Local Open Scope R_scope.

Local Notation tau := P_DesignF32.t.

(** Sums round without underflow. *)
Lemma rnd_plus a b : repr a -> repr b -> Rabs (rnd (a + b) - (a + b)) <= u * Rabs (a + b).
Proof.
  intros Ha Hb. destruct (FLT_plus_error_N_ex radix2 (-149) 24 (fun z => negb (Z.even z)) a b Ha Hb) as (e & He & E).
  fold (rnd (a + b)) in E. change (round radix2 fexp32 ZnearestE (a + b)) with (rnd (a + b)) in E. rewrite E.
  replace ((a + b) * (1 + e) - (a + b)) with (e * (a + b)) by ring. rewrite Rabs_mult. apply Rmult_le_compat_r; [apply Rabs_pos|].
  eapply Rle_trans; [exact He|]. unfold u_ro. change (bpow radix2 (- (24) + 1)) with (/ 8388608). unfold u. lra.
Qed.

Section Ops.
Context {NP : NanPolicy}.
Lemma add_rel a b : fin a = true -> fin b = true -> Rabs (val a + val b) <= pow2 100 ->
  fin (fadd a b) = true /\ Rabs (val (fadd a b) - (val a + val b)) <= u * Rabs (val a + val b).
Proof. intros Fa Fb H. destruct (rnd_u _ H) as [_ R2]. destruct (fadd_spec a b Fa Fb R2) as [F ->]. split; [exact F|]. apply rnd_plus; apply repr_val. Qed.
Lemma sub_rel a b : fin a = true -> fin b = true -> Rabs (val a - val b) <= pow2 100 ->
  fin (fsub a b) = true /\ Rabs (val (fsub a b) - (val a - val b)) <= u * Rabs (val a - val b).
Proof. intros Fa Fb H. destruct (rnd_u _ H) as [_ R2]. destruct (fsub_spec a b Fa Fb R2) as [F ->]. split; [exact F|]. apply rnd_plus; [apply repr_val|apply repr_opp, repr_val]. Qed.
End Ops.

(** One factor, over plain reals. *)
Lemma step_real T tm f0 f m q g e A ta : Rabs (tm - T) <= e * Rabs T + A -> 0 <= e <= 1 / 10000 -> 8 * ta <= A -> 0 <= ta ->
  Rabs f0 <= 15 -> 1 <= Rabs g -> Rabs (f - f0) <= u * Rabs f0 -> Rabs (m - tm * f) <= u * Rabs (tm * f) + ta -> Rabs (q - m / g) <= u * Rabs (m / g) + ta ->
  Rabs (q - T * f0 / g) <= (e + 31 / 10 * u) * Rabs (T * f0 / g) + 16 * A.
Proof.
  intros HT He HA Hta Hf0 Hg Hf Hm Hq.
  assert (Gn : g <> 0) by (intros ->; rewrite Rabs_R0 in Hg; lra).
  set (s := Rabs (f0 / g)). set (W := Rabs T) in *. set (V := Rabs tm). assert (PW : 0 <= W) by apply Rabs_pos. assert (PV : 0 <= V) by apply Rabs_pos.
  assert (Ig : 0 < / Rabs g <= 1) by (split; [apply Rinv_0_lt_compat; lra|]; rewrite <- Rinv_1; apply Rinv_le_contravar; lra).
  assert (Es : s = Rabs f0 * / Rabs g) by (unfold s, Rdiv; rewrite Rabs_mult, Rabs_inv; reflexivity).
  pose proof (Rabs_pos f0) as P0. assert (Hs : 0 <= s <= 15) by (rewrite Es; split; nra).
  assert (HV : V <= (1 + e) * W + A).
  { unfold V. replace tm with (T + (tm - T)) by ring. eapply Rle_trans; [apply Rabs_triang|]. fold W. lra. }
  assert (Hu : 0 < u) by (unfold u; lra).
  assert (Hf' : Rabs f <= (1 + u) * Rabs f0) by (replace f with (f0 + (f - f0)) by ring; eapply Rle_trans; [apply Rabs_triang|]; lra).
  assert (E4 : Rabs (tm * f0 / g - T * f0 / g) <= s * (e * W + A)).
  { replace (tm * f0 / g - T * f0 / g) with (f0 / g * (tm - T)) by (field; exact Gn). rewrite Rabs_mult. fold s. apply Rmult_le_compat_l; lra. }
  assert (E3 : Rabs (tm * f / g - tm * f0 / g) <= V * s * u).
  { replace (tm * f / g - tm * f0 / g) with (tm * ((f - f0) / g)) by (field; exact Gn). rewrite Rabs_mult. fold V. rewrite Rmult_assoc. apply Rmult_le_compat_l; [exact PV|].
    unfold Rdiv. rewrite Rabs_mult, Rabs_inv, Es. replace (Rabs f0 * / Rabs g * u) with (u * Rabs f0 * / Rabs g) by ring. apply Rmult_le_compat_r; lra. }
  assert (E2 : Rabs (m / g - tm * f / g) <= u * (1 + u) * (V * s) + ta).
  { replace (m / g - tm * f / g) with ((m - tm * f) * / g) by (field; exact Gn). rewrite Rabs_mult, Rabs_inv.
    apply Rle_trans with ((u * (V * ((1 + u) * Rabs f0)) + ta) * / Rabs g).
    - apply Rmult_le_compat_r; [lra|]. eapply Rle_trans; [exact Hm|]. apply Rplus_le_compat_r, Rmult_le_compat_l; [lra|]. rewrite Rabs_mult. fold V. apply Rmult_le_compat_l; lra.
    - rewrite Es. replace ((u * (V * ((1 + u) * Rabs f0)) + ta) * / Rabs g) with (u * (1 + u) * (V * (Rabs f0 * / Rabs g)) + ta * / Rabs g) by ring. apply Rplus_le_compat_l. nra. }
  assert (Em : Rabs (m / g) <= (1 + u) * (1 + u) * (V * s) + ta).
  { replace (m / g) with (tm * f / g + (m / g - tm * f / g)) by ring. eapply Rle_trans; [apply Rabs_triang|].
    assert (Rabs (tm * f / g) <= (1 + u) * (V * s)).
    { unfold Rdiv. rewrite !Rabs_mult, Rabs_inv. fold V. rewrite Es. replace ((1 + u) * (V * (Rabs f0 * / Rabs g))) with (V * ((1 + u) * Rabs f0) * / Rabs g) by ring.
      apply Rmult_le_compat_r; [lra|]. apply Rmult_le_compat_l; lra. }
    lra. }
  replace (q - T * f0 / g) with ((q - m / g) + (m / g - tm * f / g) + (tm * f / g - tm * f0 / g) + (tm * f0 / g - T * f0 / g)) by ring.
  assert (ET : Rabs (T * f0 / g) = W * s) by (replace (T * f0 / g) with (T * (f0 / g)) by (field; exact Gn); rewrite Rabs_mult; reflexivity). rewrite ET.
  eapply Rle_trans; [apply Rabs_triang|]. eapply Rle_trans; [apply Rplus_le_compat_r, Rabs_triang|]. eapply Rle_trans; [apply Rplus_le_compat_r, Rplus_le_compat_r, Rabs_triang|].
  assert (Hq' : Rabs (q - m / g) <= u * ((1 + u) * (1 + u) * (V * s) + ta) + ta) by (eapply Rle_trans; [exact Hq|]; apply Rplus_le_compat_r, Rmult_le_compat_l; lra).
  assert (HVs : V * s <= ((1 + e) * W + A) * s) by (apply Rmult_le_compat_r; lra).
  set (X := V * s) in *. assert (PX : 0 <= X) by (unfold X; nra).
  assert (B1 : u * ((1 + u) * (1 + u) * X + ta) + ta + (u * (1 + u) * X + ta) + X * u <= 301 / 100 * u * X + 3 * ta).
  { replace (u * ((1 + u) * (1 + u) * X + ta) + ta + (u * (1 + u) * X + ta) + X * u) with (u * X * ((1 + u) * (1 + u) + (1 + u) + 1) + u * ta + 2 * ta) by ring.
    assert (K1 : (1 + u) * (1 + u) + (1 + u) + 1 <= 301 / 100) by (unfold u; lra). assert (K2 : 0 <= u * X) by (apply Rmult_le_pos; lra).
    assert (K3 : u * ta <= ta) by (unfold u; lra). assert (u * X * ((1 + u) * (1 + u) + (1 + u) + 1) <= u * X * (301 / 100)) by (apply Rmult_le_compat_l; assumption). lra. }
  assert (B2 : 301 / 100 * u * X <= 31 / 10 * u * (W * s) + A / 2).
  { assert (K1 : 301 / 100 * u * X <= 301 / 100 * u * (((1 + e) * W + A) * s)) by (apply Rmult_le_compat_l; lra).
    assert (K2 : 301 / 100 * u * (((1 + e) * W + A) * s) = u * (301 / 100 * (1 + e)) * (W * s) + 301 / 100 * u * (A * s)) by ring.
    assert (K3 : 0 <= W * s) by (apply Rmult_le_pos; lra).
    assert (K4 : u * (301 / 100 * (1 + e)) * (W * s) <= u * (31 / 10) * (W * s)) by (apply Rmult_le_compat_r; [exact K3|]; apply Rmult_le_compat_l; lra).
    assert (K5 : A * s <= A * 15) by (apply Rmult_le_compat_l; lra).
    assert (K6 : 301 / 100 * u * (A * s) <= 301 / 100 * u * (A * 15)) by (apply Rmult_le_compat_l; lra).
    assert (K7 : 301 / 100 * u * (A * 15) <= A / 2) by (unfold u; lra). lra. }
  assert (B3 : s * (e * W + A) <= e * (W * s) + 15 * A).
  { replace (s * (e * W + A)) with (e * (W * s) + s * A) by ring. apply Rplus_le_compat_l, Rmult_le_compat_r; lra. }
  clear - Hq' E2 E3 E4 B1 B2 B3 HA Hta. lra.
Qed.

(** The bound for one term: [k] factors done. *)
Definition c31 : R := 31 / 10 * u.
Definition flo (k : nat) : R := 8 * tau * 16 ^ k.

Section Terms.
Context {NP : NanPolicy}.
Variables (x : f32) (n : nat).
Let X := val x.
Hypothesis Fx : fin x = true.
Hypothesis Hn : (n <= 16)%nat.
Hypothesis Hx : 0 <= X <= INR (n - 1).

Lemma INR15 : INR (n - 1) <= 15.
Proof. replace 15 with (INR 15) by (cbn; lra). apply le_INR. lia. Qed.

Lemma pow16 k : 1 <= 16 ^ k.
Proof. apply pow_R1_Rle. lra. Qed.

Lemma pow16_le k m : (k <= m)%nat -> 16 ^ k <= 16 ^ m.
Proof. apply Rle_pow. lra. Qed.

Lemma pow16_15 : 16 ^ 15 = pow2 60.
Proof. replace 16 with (pow2 4) by (cbn; lra). cbn. lra. Qed.

Lemma flo_small k : (k <= 15)%nat -> 0 < flo k <= pow2 (-87).
Proof.
  intros Hk. pose proof t_range as [Pt _]. split; [unfold flo; pose proof (pow16 k); nra|].
  unfold flo, P_DesignF32.t. replace 8 with (pow2 3) by (cbn; lra). apply Rle_trans with (pow2 3 * pow2 (-150) * 16 ^ 15).
  - apply Rmult_le_compat_l; [apply Rmult_le_pos; apply bpow_ge_0|now apply pow16_le].
  - rewrite pow16_15, <- !bpow_plus. apply Rle_refl.
Qed.

Definition near_term (k : nat) (tm : f32) (T : R) : Prop :=
  fin tm = true /\ Rabs (val tm - T) <= INR k * c31 * Rabs T + flo k /\ Rabs T <= pow2 30 * 16 ^ k.

Lemma factor_range j : (j < n)%nat -> Rabs (X - INR j) <= 15.
Proof.
  intros Hj. pose proof INR15 as H15. assert (INR j <= INR (n - 1)) by (apply le_INR; lia). pose proof (pos_INR j). apply Rabs_le. lra.
Qed.

Lemma one_factor i j k tm T : (i < n)%nat -> (j < n)%nat -> i <> j -> (k < 15)%nat -> near_term k tm T ->
  near_term (S k) (fdiv (fmul tm (fsub x (of_int (Z.of_nat j)))) (fsub (of_int (Z.of_nat i)) (of_int (Z.of_nat j)))) (T * (X - INR j) / (INR i - INR j)).
Proof.
  intros Hi Hj Hij Hk (Ft & Et & BT).
  destruct (of_int_exact (Z.of_nat j) ltac:(lia)) as [Fj Vj]. rewrite <- INR_IZR_INZ in Vj.
  assert (G : isv (fsub (of_int (Z.of_nat i)) (of_int (Z.of_nat j))) (IZR (Z.of_nat i - Z.of_nat j))) by (apply sub_int; [apply isv_int; lia|apply isv_int; lia|lia]).
  destruct G as [Fg Vg]. rewrite minus_IZR, <- !INR_IZR_INZ in Vg. set (gf := fsub (of_int (Z.of_nat i)) (of_int (Z.of_nat j))) in *.
  assert (Hg : 1 <= Rabs (INR i - INR j)).
  { destruct (Nat.lt_ge_cases i j) as [L|L].
    - assert (INR i + 1 <= INR j) by (rewrite <- S_INR; apply le_INR; lia). rewrite Rabs_left; lra.
    - assert (INR j + 1 <= INR i) by (rewrite <- S_INR; apply le_INR; lia). rewrite Rabs_pos_eq; lra. }
  pose proof (factor_range j Hj) as H15.
  pose proof (bpow_gt_0 radix2 30) as P30. pose proof (pow16 k) as P16. pose proof (flo_small k ltac:(lia)) as [Pf Hf].
  assert (L16 : 16 ^ k <= 16 ^ 14) by (apply pow16_le; lia).
  assert (B30 : pow2 30 * 16 ^ k <= pow2 86).
  { replace (pow2 86) with (pow2 30 * 16 ^ 14); [apply Rmult_le_compat_l; lra|]. replace 16 with (pow2 4) by (cbn; lra). cbn. lra. }
  assert (Hc : 0 <= INR k * c31 <= 1 / 10000).
  { assert (INR k <= 15) by (replace 15 with (INR 15) by (cbn; lra); apply le_INR; lia). pose proof (pos_INR k). unfold c31, u. split; nra. }
  assert (Bt : Rabs (val tm) <= 2 * pow2 86).
  { replace (val tm) with (T + (val tm - T)) by ring. eapply Rle_trans; [apply Rabs_triang|]. pose proof (Rabs_pos T).
    assert (pow2 (-87) <= 1) by (change 1 with (pow2 0); apply bpow_le; lia). assert (2 <= pow2 86) by (change 2 with (pow2 1); apply bpow_le; lia).
    assert (INR k * c31 * Rabs T <= 1 / 10000 * Rabs T) by (apply Rmult_le_compat_r; lra). lra. }
  assert (P86 : 1 <= pow2 86) by (change 1 with (pow2 0); apply bpow_le; lia).
  assert (E100 : pow2 100 = 16384 * pow2 86) by (replace 16384 with (pow2 14) by (cbn; lra); rewrite <- bpow_plus; reflexivity).
  destruct (sub_rel x (of_int (Z.of_nat j)) Fx Fj) as [Fs Es]; [rewrite Vj; fold X; lra|]. rewrite Vj in Es. fold X in Es.
  set (sf := fsub x (of_int (Z.of_nat j))) in *.
  assert (Bs : Rabs (val sf) <= 16).
  { replace (val sf) with (X - INR j + (val sf - (X - INR j))) by ring. eapply Rle_trans; [apply Rabs_triang|]. unfold u in Es. lra. }
  assert (Bm : Rabs (val tm * val sf) <= 32 * pow2 86).
  { rewrite Rabs_mult. replace (32 * pow2 86) with (2 * pow2 86 * 16) by ring. apply Rmult_le_compat; try apply Rabs_pos; assumption. }
  destruct (mul_u tm sf Ft Fs) as [Fm Em]; [lra|]. set (mf := fmul tm sf) in *.
  assert (Bm' : Rabs (val mf) <= 64 * pow2 86).
  { replace (val mf) with (val tm * val sf + (val mf - val tm * val sf)) by ring. eapply Rle_trans; [apply Rabs_triang|]. pose proof t_range. unfold u in *. lra. }
  assert (Gn : val gf <> 0) by (rewrite Vg; intros Z; rewrite Z, Rabs_R0 in Hg; lra).
  assert (Bq : Rabs (val mf / val gf) <= 64 * pow2 86).
  { unfold Rdiv. rewrite Rabs_mult, Rabs_inv, Vg. rewrite <- (Rmult_1_r (64 * pow2 86)). apply Rmult_le_compat; [apply Rabs_pos|left; apply Rinv_0_lt_compat; lra|exact Bm'|].
    rewrite <- Rinv_1. apply Rinv_le_contravar; lra. }
  destruct (div_u mf gf Fm Gn) as [Fq Eq]; [lra|].
  split; [exact Fq|]. rewrite Vg in Eq. split.
  - assert (SR : INR (S k) * c31 = INR k * c31 + 31 / 10 * u) by (rewrite S_INR; unfold c31; ring). rewrite SR.
    replace (flo (S k)) with (16 * flo k) by (unfold flo; cbn [pow]; ring).
    eapply step_real with (tm := val tm) (f := val sf) (m := val mf) (ta := tau); try eassumption.
    + pose proof t_range as [Pt _]. unfold flo. nra.
    + left. apply t_range.
  - replace (T * (X - INR j) / (INR i - INR j)) with (T * ((X - INR j) * / (INR i - INR j))) by (unfold Rdiv; ring).
    rewrite Rabs_mult, Rabs_mult, Rabs_inv. cbn [pow]. replace (pow2 30 * (16 * 16 ^ k)) with (pow2 30 * 16 ^ k * (16 * 1)) by ring.
    apply Rmult_le_compat; [apply Rabs_pos| |exact BT|].
    + apply Rmult_le_pos; [apply Rabs_pos|]. left. apply Rinv_0_lt_compat. lra.
    + apply Rmult_le_compat; [apply Rabs_pos|left; apply Rinv_0_lt_compat; lra|lra|]. rewrite <- Rinv_1. apply Rinv_le_contravar; lra.
Qed.

Lemma term_near i js : (i < n)%nat -> (forall j, In j js -> (j < n)%nat) -> forall k tm T,
  (k + length (filter (fun j => negb (Nat.eqb i j)) js) <= 15)%nat -> near_term k tm T ->
  near_term (k + length (filter (fun j => negb (Nat.eqb i j)) js)) (lagrange_term tm i x js) (lagrange_term T i X js).
Proof.
  intros Hi. induction js as [|j js IH]; intros Hj k tm T Hk H; cbn [filter] in *.
  - cbn [length] in *. rewrite Nat.add_0_r. exact H.
  - unfold lagrange_term. cbn [fold_left]. destruct (Nat.eqb_spec i j) as [E|E]; cbn [negb length] in *.
    + apply IH; [intros; apply Hj; now right|assumption|assumption].
    + rewrite Nat.add_succ_r, <- Nat.add_succ_l. apply IH; [intros; apply Hj; now right|lia|]. rewrite term_step. unfold node. rewrite <- !INR_IZR_INZ.
      apply one_factor; [exact Hi|apply Hj; now left|exact E|lia|exact H].
Qed.
End Terms.

Section Sum.
Context {NP : NanPolicy}.
Variables (gam A : R).
Hypothesis Hgam : 0 <= gam <= 1 / 20000.
Hypothesis HA : 0 <= A <= 1.

(** Recursive summation of terms known to within gam |T| + A. *)
Lemma sum_near (f : nat -> f32) (T : nat -> R) is : forall m y S P,
  (m + length is <= 16)%nat ->
  (forall i, In i is -> fin (f i) = true /\ Rabs (val (f i) - T i) <= gam * Rabs (T i) + A /\ Rabs (T i) <= pow2 90) ->
  fin y = true -> Rabs (val y - S) <= (gam + INR m * (101 / 100 * u)) * P + INR m * (101 / 100 * A) -> Rabs S <= P -> P <= INR m * pow2 90 ->
  let y' := fold_left (fun y i => fadd y (f i)) is y in
  let S' := fold_left (fun y i => y + T i) is S in
  let P' := fold_left (fun y i => y + Rabs (T i)) is P in
  fin y' = true /\ Rabs (val y' - S') <= (gam + INR (m + length is) * (101 / 100 * u)) * P' + INR (m + length is) * (101 / 100 * A).
Proof.
  induction is as [|i is IH]; intros m y S P Hm Hf Fy Ey HS HP y' S' P'.
  { cbn [length] in *. rewrite Nat.add_0_r. split; assumption. }
  subst y' S' P'. cbn [fold_left length]. rewrite Nat.add_succ_r, <- Nat.add_succ_l. cbn [length] in Hm.
  destruct (Hf i (or_introl eq_refl)) as (Fi & Ei & Bi).
  assert (Hm16 : 0 <= INR m <= 16) by (split; [apply pos_INR|replace 16 with (INR 16) by (cbn; lra); apply le_INR; lia]).
  pose proof (bpow_gt_0 radix2 90) as P90. assert (P1 : 1 <= pow2 90) by (change 1 with (pow2 0); apply bpow_le; lia). pose proof (Rabs_pos S) as PS. pose proof (Rabs_pos (T i)) as PT.
  set (al := gam + INR m * (101 / 100 * u)) in *. assert (Hal : gam <= al <= 1 / 10000) by (unfold al, u; split; nra).
  set (Bm := INR m * (101 / 100 * A)) in *. assert (HB : 0 <= Bm <= 17) by (unfold Bm; split; nra).
  assert (E1 : Rabs (val y + val (f i) - (S + T i)) <= al * (P + Rabs (T i)) + Bm + A).
  { replace (val y + val (f i) - (S + T i)) with ((val y - S) + (val (f i) - T i)) by ring. eapply Rle_trans; [apply Rabs_triang|].
    assert (gam * Rabs (T i) <= al * Rabs (T i)) by (apply Rmult_le_compat_r; lra). lra. }
  assert (HP' : P + Rabs (T i) <= INR (Datatypes.S m) * pow2 90) by (rewrite S_INR; lra).
  assert (HS' : Rabs (S + T i) <= P + Rabs (T i)) by (eapply Rle_trans; [apply Rabs_triang|]; lra).
  assert (HP17 : P + Rabs (T i) <= 17 * pow2 90) by (rewrite S_INR in HP'; nra).
  set (P1' := P + Rabs (T i)) in *. assert (PP : 0 <= P1') by (unfold P1'; lra).
  assert (Bsum : Rabs (val y + val (f i)) <= pow2 100).
  { replace (val y + val (f i)) with ((S + T i) + (val y + val (f i) - (S + T i))) by ring. eapply Rle_trans; [apply Rabs_triang|].
    assert (al * P1' <= 1 / 10000 * P1') by (apply Rmult_le_compat_r; lra).
    replace (pow2 100) with (1024 * pow2 90) by (replace 1024 with (pow2 10) by (cbn; lra); rewrite <- bpow_plus; reflexivity). lra. }
  destruct (add_rel y (f i) Fy Fi Bsum) as [Fa Ea].
  apply IH; [lia|intros; apply Hf; now right|exact Fa| |exact HS'|exact HP'].
  replace (val (fadd y (f i)) - (S + T i)) with ((val (fadd y (f i)) - (val y + val (f i))) + (val y + val (f i) - (S + T i))) by ring.
  eapply Rle_trans; [apply Rabs_triang|].
  assert (Hv : Rabs (val y + val (f i)) <= P1' + (al * P1' + Bm + A)).
  { replace (val y + val (f i)) with ((S + T i) + (val y + val (f i) - (S + T i))) by ring. eapply Rle_trans; [apply Rabs_triang|]. lra. }
  assert (Q1 : u * Rabs (val y + val (f i)) <= u * (P1' + (al * P1' + Bm + A))) by (apply Rmult_le_compat_l; [unfold u; lra|exact Hv]).
  assert (Q2 : u * (al * P1') <= u * (1 / 10000 * P1')) by (apply Rmult_le_compat_l; [unfold u; lra|]; apply Rmult_le_compat_r; lra).
  rewrite S_INR. replace (gam + (INR m + 1) * (101 / 100 * u)) with (al + 101 / 100 * u) by (unfold al; ring).
  replace ((INR m + 1) * (101 / 100 * A)) with (Bm + 101 / 100 * A) by (unfold Bm; ring).
  assert (Q3 : u * Bm + u * A <= 1 / 100 * A).
  { unfold Bm. replace (u * (INR m * (101 / 100 * A)) + u * A) with ((INR m * (101 / 100) * u + u) * A) by ring. apply Rmult_le_compat_r; [lra|]. unfold u. lra. }
  assert (Q4 : 0 <= u * P1') by (apply Rmult_le_pos; [unfold u; lra|exact PP]).
  replace (u * (P1' + (al * P1' + Bm + A))) with (u * P1' + u * (al * P1') + (u * Bm + u * A)) in Q1 by ring.
  replace (u * (1 / 10000 * P1')) with (1 / 10000 * (u * P1')) in Q2 by ring.
  replace ((al + 101 / 100 * u) * P1') with (al * P1' + 101 / 100 * (u * P1')) by ring.
  clear - E1 Q1 Q2 Q3 Q4 Ea HA. lra.
Qed.
End Sum.

(** The specification's sum of contributions. *)
Lemma term_basis (a x : R) i n : lagrange_term a i x (seq 0 n) = a * basis n i x.
Proof.
  unfold basis. generalize (seq 0 n). intros js. revert a. induction js as [|j js IH]; intros a; [cbn; ring|].
  unfold lagrange_term. cbn [fold_left map fold_right]. destruct (Nat.eqb_spec i j) as [E|E].
  - fold (lagrange_term a i x js). rewrite IH. ring.
  - rewrite term_step. match goal with |- fold_left ?f js ?b = _ => change (lagrange_term b i x js = a * ((x - INR j) / (INR i - INR j) * fold_right Rmult 1 (map (fun j => if Nat.eqb i j then 1 else (x - INR j) / (INR i - INR j)) js))) end.
    rewrite IH. unfold node. rewrite <- !INR_IZR_INZ. unfold Rdiv. ring.
Qed.

Lemma fold_abs (T : nat -> R) is : forall P, fold_left (fun y i => y + Rabs (T i)) is P = P + fold_right Rplus 0 (map (fun i => Rabs (T i)) is).
Proof. induction is as [|i is IH]; intros P; cbn [fold_left fold_right map]; [ring|]. rewrite IH. ring. Qed.

Section Main.
Context {NP : NanPolicy}.

Lemma sum_f32_near (ys : list f32) x : (1 <= length ys <= 16)%nat -> Forall (bounded (pow2 30)) ys -> fin x = true -> 0 <= val x <= INR (length ys - 1) ->
  fin (lagrange_sum ys x) = true /\
  Rabs (val (lagrange_sum ys x) - lagrange_sum (map val ys) (val x)) <= INR (length ys) * pow2 (-22) * spread (map val ys) (val x) + pow2 (-80).
Proof.
  intros Hn Hy Fx Hx. set (n := length ys) in *. set (T := lterm (map val ys) (val x)).
  set (f := fun i => lagrange_term (nth i ys (nint 0)) i x (seq 0 n)).
  assert (Term : forall i, In i (seq 0 n) -> near_term (n - 1) (f i) (T i)).
  { intros i Hi. apply in_seq in Hi. unfold T, lterm, f. rewrite map_length. fold n. rewrite <- (filter_seq_len i n) by lia.
    apply (term_near x n Fx ltac:(lia) Hx i (seq 0 n) ltac:(lia)) with (k := 0%nat).
    - intros j Hj. apply in_seq in Hj. lia.
    - rewrite filter_seq_len by lia. lia.
    - assert (Bi : bounded (pow2 30) (nth i ys (nint 0))) by (apply Forall_nth; [exact Hy|fold n; lia]). destruct Bi as [Fi Bi].
      replace (nth i (map val ys) 0) with (val (nth i ys (nint 0))).
      + split; [exact Fi|]. split; [|cbn [pow]; lra]. rewrite Rminus_eq_0, Rabs_R0. cbn [INR]. pose proof (flo_small 0 ltac:(lia)). lra.
      + rewrite <- (map_nth val). apply nth_indep. rewrite map_length. fold n. lia. }
  assert (Hk : INR (n - 1) <= 15) by (replace 15 with (INR 15) by (cbn; lra); apply le_INR; lia). pose proof (pos_INR (n - 1)) as Hk0.
  destruct (flo_small (n - 1) ltac:(lia)) as [Pf Hf]. assert (F1 : pow2 (-87) <= 1) by (change 1 with (pow2 0); apply bpow_le; lia).
  destruct (of_int_exact 0 ltac:(lia)) as [F0 V0].
  destruct (sum_near (INR (n - 1) * c31) (flo (n - 1)) ltac:(unfold c31, u; split; nra) ltac:(lra) f T (seq 0 n) 0 (of_int 0) 0 0) as [Fs Es].
  { rewrite seq_length. lia. }
  { intros i Hi. destruct (Term i Hi) as (A1 & A2 & A3). split; [exact A1|]. split; [exact A2|]. eapply Rle_trans; [exact A3|].
    apply Rle_trans with (pow2 30 * 16 ^ 15); [apply Rmult_le_compat_l; [apply bpow_ge_0|apply pow16_le; lia]|]. rewrite pow16_15, <- bpow_plus. apply Rle_refl. }
  { exact F0. }
  { rewrite V0, Rminus_eq_0, Rabs_R0. cbn [INR]. lra. }
  { rewrite Rabs_R0. lra. }
  { cbn [INR]. lra. }
  cbv zeta in Es. rewrite seq_length in Es. cbn [Nat.add] in Es.
  replace (lagrange_sum (map val ys) (val x)) with (fold_left (fun y i => y + T i) (seq 0 n) 0) by (rewrite lagrange_sum_fold, map_length; reflexivity).
  change (lagrange_sum ys x) with (fold_left (fun y i => fadd y (f i)) (seq 0 n) (of_int 0)).
  split; [exact Fs|]. eapply Rle_trans; [exact Es|]. rewrite fold_abs, Rplus_0_l.
  assert (Sp : fold_right Rplus 0 (map (fun i => Rabs (T i)) (seq 0 n)) = spread (map val ys) (val x)).
  { unfold spread. rewrite map_length. fold n. f_equal. apply map_ext. intros i. unfold T, lterm. rewrite map_length. fold n. now rewrite term_basis. }
  rewrite Sp. assert (Ps : 0 <= spread (map val ys) (val x)).
  { unfold spread. generalize (seq 0 (length (map val ys))). intros js. induction js as [|j js IH]; cbn [map fold_right]; [lra|]. pose proof (Rabs_pos (nth j (map val ys) 0 * basis (length (map val ys)) j (val x))). lra. }
  assert (Hn16 : 1 <= INR n <= 16) by (split; [change 1 with (INR 1)|replace 16 with (INR 16) by (cbn; lra)]; apply le_INR; lia).
  assert (En : INR (n - 1) = INR n - 1) by (rewrite minus_INR by lia; reflexivity).
  apply Rplus_le_compat.
  - apply Rmult_le_compat_r; [exact Ps|]. rewrite En. replace (pow2 (-22)) with (4 * u) by (cbn; unfold u; lra). unfold c31, u. lra.
  - apply Rle_trans with (32 * pow2 (-87)); [|replace 32 with (pow2 5) by (cbn; lra); rewrite <- bpow_plus; apply bpow_le; lia].
    apply Rle_trans with (16 * (101 / 100 * pow2 (-87))); [apply Rmult_le_compat; lra|]. pose proof (bpow_gt_0 radix2 (-87)). lra.
Qed.
End Main.
