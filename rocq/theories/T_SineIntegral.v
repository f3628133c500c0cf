(** * Theorems: the sine integral (C89). *)

From Coq Require Import ZArith List Bool Reals Lia Lra Arith.
From Flocq Require Import Core.
From Verif Require Import Base F32 F32Lemmas F32Exact F32Ints F32Range F32Over Num M_Sine M_Integral S_Integral S_SineIntegral P_SincReal P_Integral P_Interp P_SineAcc P_SineFloat T_Sine T_Integral Examples.
Import ListNotations.
Local Open Scope R_scope.

(** ** The shape of the computation *)

Section Shape.
Context {NP : NanPolicy} {B : Build}.

(** The value of [sinc], which never panics. *)
Definition sinc_v (x : f32) : f32 := match sinc x with Ret v => v | _ => of_int 0 end.
Lemma sinc_ret x : sinc x = Ret (sinc_v x).
Proof.
  unfold sinc_v. destruct (fin x) eqn:F; [destruct (C81_sinc_accuracy NP B x F) as (v & -> & _); reflexivity|].
  unfold sinc. destruct (feq x (of_int 0)); [reflexivity|]. destruct (C80_fixed_point_sin_nonfinite NP B x F) as [-> _]. reflexivity.
Qed.

Lemma map_outcome_ext {F} (f g : F -> outcome F) l : (forall x, f x = g x) -> map_outcome f l = map_outcome g l.
Proof. intros H. induction l as [|x l IH]; [reflexivity|]. cbn [map_outcome]. now rewrite H, IH. Qed.
Lemma simpsons_ext {F} {NF : Num F} N (f g : F -> outcome F) a b : (forall x, f x = g x) -> simpsons_rule N f a b = simpsons_rule N g a b.
Proof. intros H. unfold simpsons_rule. cbv zeta. rewrite (map_outcome_ext f g) by exact H. now rewrite !H. Qed.

Definition h_ (m : nat) (x : f32) : f32 := fdiv (fsub x (of_int 0)) (of_int (Z.of_nat (2 * m))).
Definition node_ (m : nat) (x : f32) (i : nat) : f32 := fadd (of_int 0) (fmul (of_int (Z.of_nat i)) (h_ m x)).
Definition odd_ (m : nat) (x : f32) : f32 := sum (map (fun i => sinc_v (node_ m x (2 * i + 1))) (seq 0 m)).
Definition even_ (m : nat) (x : f32) : f32 := sum (map (fun i => sinc_v (node_ m x (2 * i + 2))) (seq 0 (m - 1))).
Definition total_ (m : nat) (x : f32) : f32 :=
  fadd (fadd (fadd (fadd (sinc_v (of_int 0)) (fmul (of_int 4) (odd_ m x))) (fmul (of_int 2) (even_ m x))) (fmul (of_int 4) (odd_ m x))) (sinc_v x).
Lemma si_shape_gen m x : (2 <= m)%nat -> simpsons_rule (2 * m) (fun x => Ret (sinc_v x)) (of_int 0) x = Ret (fmul (fdiv (h_ m x) (of_int 3)) (total_ m x)).
Proof.
  intros H. rewrite simpson_even by exact H. cbv zeta. unfold total_, odd_, even_, node_, h_, node, nint, of_int.
  cbn [nadd nsub nmul ndiv ndy num_f32]. reflexivity.
Qed.
Lemma si_shape x : si x = Ret (fmul (fdiv (h_ 500 x) (of_int 3)) (total_ 500 x)).
Proof.
  rewrite <- (si_shape_gen 500) by (apply Nat.leb_le; reflexivity). unfold si. apply simpsons_ext. apply sinc_ret.
Qed.
End Shape.

(** C89: [si] never panics, whatever its argument. *)
Theorem C89_si_total : forall (NP : NanPolicy) (B : Build) (x : f32), exists v, si x = Ret v.
Proof. intros NP B x. eexists. apply si_shape. Qed.
Print Assumptions C89_si_total.

(** ** Rounding errors *)

Section Errors.
Context {NP : NanPolicy} {B : Build}.

Lemma sinc_v_spec x : fin x = true -> fin (sinc_v x) = true /\ Rabs (val (sinc_v x)) <= 7 /\ (val x = 0 -> val (sinc_v x) = 1) /\
  (val x <> 0 -> Rabs (val (sinc_v x) - sin (val x) / val x) <= 16 / 100000 / Rabs (val x) + pow2 (-21)).
Proof.
  intros F. destruct (C81_sinc_accuracy NP B x F) as (v & E & Fv & Z & A). unfold sinc_v. rewrite E. split; [exact Fv|]. split; [|auto].
  destruct (Req_dec (val x) 0) as [H|H]; [rewrite (Z H); rewrite Rabs_R1; lra|]. specialize (A H).
  assert (PX : 0 < Rabs (val x)) by now apply Rabs_pos_lt.
  destruct (Rle_lt_dec (Rabs (val x)) (1 / 32768)) as [L|L].
  { destruct (C81_sinc_near_zero_refuted NP B x F H L) as (w & E' & _ & V). rewrite E in E'. injection E' as <-. rewrite V, Rabs_R0. lra. }
  assert (S1 : Rabs (sin (val x) / val x) <= 1).
  { unfold Rdiv. rewrite Rabs_mult, Rabs_inv. apply Rmult_le_reg_r with (Rabs (val x)); [exact PX|].
    rewrite Rmult_assoc, Rinv_l by lra. pose proof (abs_sin_le (val x)). lra. }
  assert (I : / Rabs (val x) <= 32768).
  { replace 32768 with (/ (1 / 32768)) by lra. apply Rinv_le_contravar; lra. }
  replace (pow2 (-21)) with (1 / 2097152) in A by (cbn; lra). unfold Rdiv in A at 2.
  apply Rabs_le_inv in A. apply Rabs_le_inv in S1. apply Rabs_le. lra.
Qed.

Lemma rsum_bound k (g : nat -> R) M : (forall i, (i < k)%nat -> Rabs (g i) <= M) -> Rabs (rsum k g) <= INR k * M.
Proof.
  induction k as [|k IH]; intros H; [cbn; rewrite Rabs_R0; lra|]. cbn [rsum]. rewrite S_INR.
  pose proof (IH (fun i Hi => H i ltac:(lia))) as A. specialize (H k ltac:(lia)).
  apply Rle_trans with (1 := Rabs_triang _ _). lra.
Qed.
Lemma sum_f32 (c : nat -> f32) k : (Z.of_nat k <= 500)%Z -> (forall i, (i < k)%nat -> fin (c i) = true /\ Rabs (val (c i)) <= 7) ->
  fin (sum (map c (seq 0 k))) = true /\ Rabs (val (sum (map c (seq 0 k))) - rsum k (fun i => val (c i))) <= INR k * pow2 (-11).
Proof.
  intros Hk H. unfold sum. induction k as [|k IH].
  - cbn [seq map fold_left rsum]. change (@nint f32 num_f32 0) with (of_int 0). destruct (of_int_exact 0 ltac:(lia)) as [F V].
    split; [exact F|]. rewrite V, Rminus_0_r, Rabs_R0. cbn. lra.
  - destruct IH as [F A]; [lia|intros i Hi; apply H; lia|]. replace (S k) with (k + 1)%nat at 1 2 by lia.
    rewrite seq_app, map_app, fold_left_app. cbn [seq map fold_left]. replace (0 + k)%nat with k by lia. cbn [rsum].
    set (s := fold_left nadd (map c (seq 0 k)) (nint 0)) in *. destruct (H k ltac:(lia)) as [Fc Bc].
    pose proof (rsum_bound k (fun i => val (c i)) 7 (fun i Hi => proj2 (H i ltac:(lia)))) as R.
    assert (K : INR k <= 499) by (rewrite INR_IZR_INZ; apply IZR_le; lia). pose proof (pos_INR k) as K0.
    assert (P11 : pow2 (-11) = 1 / 2048) by (cbn; lra). rewrite P11 in *.
    apply Rabs_le_inv in A. apply Rabs_le_inv in R. apply Rabs_le_inv in Bc.
    assert (BB : Rabs (val s + val (c k)) <= pow2 12) by (replace (pow2 12) with 4096 by (cbn; lra); apply Rabs_le; lra).
    destruct (fadd_bnd s (c k) (pow2 12) F Fc) as (F' & V & _); [apply repr_bpow; lia|apply Rlt_trans with (2 := big_ge); cbn; lra|exact BB|].
    change (nadd s (c k)) with (fadd s (c k)). split; [exact F'|]. rewrite V, S_INR.
    pose proof (rnd_err (val s + val (c k))) as Re. pose proof tiny_pow.
    replace (pow2 (-24)) with (1 / 16777216) in Re by (cbn; lra). replace (pow2 12) with 4096 in BB by (cbn; lra).
    apply Rabs_le_inv in Re. apply Rabs_le. lra.
Qed.

Variables (m : nat).
Hypothesis Hm : Z.of_nat m = 500%Z.
Variable x : f32.
Hypothesis Fx : fin x = true.
Let X := val x.
Hypothesis HX : pow2 (-100) <= Rabs X <= 1024.

Lemma h_spec : fin (h_ m x) = true /\ Rabs (val (h_ m x) - X / 1000) <= pow2 (-24) * Rabs (X / 1000).
Proof.
  destruct (of_int_exact 0 ltac:(lia)) as [F0 V0]. replace (Z.of_nat (2 * m)) with 1000%Z by lia. unfold h_.
  replace (Z.of_nat (2 * m)) with 1000%Z by lia. destruct (of_int_exact 1000 ltac:(lia)) as [F1 V1].
  assert (RX : rnd (X - 0) = X) by (rewrite Rminus_0_r; apply rnd_repr, repr_val).
  destruct (fsub_spec x (of_int 0) Fx F0) as [F V]; [rewrite V0; fold X; rewrite RX; pose proof big_ge; lra|].
  rewrite V0 in V. fold X in V. rewrite RX in V.
  assert (D : Rabs (X / 1000) <= pow2 10).
  { unfold Rdiv. rewrite Rabs_mult, (Rabs_pos_eq (/ 1000)) by lra. replace (pow2 10) with 1024 by (cbn; lra). lra. }
  destruct (fdiv_spec (fsub x (of_int 0)) (of_int 1000) F) as [F2 V2].
  { rewrite V1. lra. }
  { rewrite V, V1. apply Rle_lt_trans with (pow2 10); [apply rnd_abs_le; [apply repr_bpow; lia|exact D]|]. apply Rlt_trans with (2 := big_ge). cbn; lra. }
  split; [exact F2|]. rewrite V2, V, V1. apply rnd_err_rel. unfold Rdiv. rewrite Rabs_mult, (Rabs_pos_eq (/ 1000)) by lra.
  apply Rle_trans with (pow2 (-100) * pow2 (-10)); [rewrite <- bpow_plus; apply bpow_le; lia|].
  apply Rmult_le_compat; [apply bpow_ge_0|apply bpow_ge_0|tauto|cbn; lra].
Qed.

Lemma node_spec i : (1 <= Z.of_nat i <= 999)%Z -> let t := INR i * (X / 1000) in
  fin (node_ m x i) = true /\ Rabs (val (node_ m x i) - t) <= pow2 (-22) * Rabs t.
Proof.
  intros Hi t. destruct h_spec as [Fh Eh]. unfold node_. set (hv := val (h_ m x)) in *.
  destruct (of_int_exact 0 ltac:(lia)) as [F0 V0]. destruct (of_int_exact (Z.of_nat i) ltac:(lia)) as [Fi Vi].
  assert (I : 1 <= INR i <= 999) by (rewrite INR_IZR_INZ; split; apply IZR_le; lia).
  rewrite <- INR_IZR_INZ in Vi. set (d := X / 1000) in *.
  assert (D0 : pow2 (-110) <= Rabs d).
  { unfold d, Rdiv. rewrite Rabs_mult, (Rabs_pos_eq (/ 1000)) by lra.
    apply Rle_trans with (pow2 (-100) * pow2 (-10)); [rewrite <- bpow_plus; apply bpow_le; lia|].
    apply Rmult_le_compat; [apply bpow_ge_0|apply bpow_ge_0|tauto|cbn; lra]. }
  assert (D1 : Rabs d <= 1024 / 1000) by (unfold d, Rdiv; rewrite Rabs_mult, (Rabs_pos_eq (/ 1000)) by lra; lra).
  assert (P24 : pow2 (-24) = 1 / 16777216) by (cbn; lra). assert (P22 : pow2 (-22) = 1 / 4194304) by (cbn; lra). rewrite P24 in Eh. rewrite P22.
  assert (Pd : 0 < pow2 (-110)) by apply bpow_gt_0.
  assert (E1 : Rabs (INR i * hv - t) <= 1 / 16777216 * Rabs t).
  { unfold t. replace (INR i * hv - INR i * d) with (INR i * (hv - d)) by ring. rewrite !Rabs_mult, (Rabs_pos_eq (INR i)) by lra. nra. }
  assert (T : Rabs t = INR i * Rabs d) by (unfold t; rewrite Rabs_mult, (Rabs_pos_eq (INR i)) by lra; reflexivity).
  assert (T1 : Rabs d <= Rabs t <= 1024) by (rewrite T; split; nra).
  assert (T2 : Rabs t / 2 <= Rabs (INR i * hv) <= 2000).
  { assert (Rabs (Rabs (INR i * hv) - Rabs t) <= Rabs (INR i * hv - t)) as Q by apply Rabs_triang_inv2. apply Rabs_le_inv in Q. lra. }
  destruct (fmul_bnd (of_int (Z.of_nat i)) (h_ m x) (pow2 11) Fi Fh) as (F & V & _); [apply repr_bpow; lia|apply Rlt_trans with (2 := big_ge); cbn; lra| |].
  { rewrite Vi. fold hv. replace (pow2 11) with 2048 by (cbn; lra). lra. }
  rewrite Vi in V. fold hv in V.
  pose proof (rnd_err_rel (INR i * hv)) as Re. rewrite P24 in Re.
  assert (pow2 (-126) <= Rabs (INR i * hv)).
  { apply Rle_trans with (pow2 (-110) / 2); [|lra]. replace (pow2 (-110) / 2) with (pow2 (-111)) by (change (-110)%Z with (1 + -111)%Z; rewrite bpow_plus; change (pow2 1) with 2; lra). apply bpow_le. lia. }
  specialize (Re H).
  assert (R0 : rnd (0 + rnd (INR i * hv)) = rnd (INR i * hv)) by (rewrite Rplus_0_l; apply rnd_repr, repr_rnd).
  assert (BR : Rabs (rnd (INR i * hv)) <= pow2 11) by (apply rnd_abs_le; [apply repr_bpow; lia|replace (pow2 11) with 2048 by (cbn; lra); lra]).
  destruct (fadd_spec (of_int 0) (fmul (of_int (Z.of_nat i)) (h_ m x)) F0 F) as [F2 V2].
  { rewrite V0, V, R0. apply Rle_lt_trans with (1 := BR). apply Rlt_trans with (2 := big_ge); cbn; lra. }
  split; [exact F2|]. rewrite V2, V0, V, R0.
  assert (Q : Rabs (INR i * hv) <= 2 * Rabs t).
  { assert (Rabs (Rabs (INR i * hv) - Rabs t) <= Rabs (INR i * hv - t)) as Q by apply Rabs_triang_inv2. apply Rabs_le_inv in Q. lra. }
  apply Rabs_le_inv in Re. apply Rabs_le_inv in E1. apply Rabs_le. lra.
Qed.

Lemma d_pos : 0 < Rabs (X / 1000).
Proof.
  unfold Rdiv. rewrite Rabs_mult, (Rabs_pos_eq (/ 1000)) by lra. pose proof (bpow_gt_0 radix2 (-100)). lra.
Qed.
Lemma X_n0 : X <> 0.
Proof. intros E. pose proof d_pos as P. rewrite E in P. unfold Rdiv in P. rewrite Rmult_0_l, Rabs_R0 in P. lra. Qed.

(** The value at a node, times the step. *)
Lemma value_spec i : (1 <= Z.of_nat i <= 999)%Z -> let y := sinc_v (node_ m x i) in
  fin y = true /\ Rabs (val y) <= 7 /\
  Rabs (val y - sincr (0 + INR i * (X / 1000))) * Rabs (X / 1000) <= 17 / 100000 * / INR i + Rabs (X / 1000) * (1 / 2000000 + 1 / 8000000 * Rabs X).
Proof.
  intros Hi y. rewrite Rplus_0_l. destruct (node_spec i Hi) as [Fn En]. cbv zeta in En. set (d := X / 1000) in *. set (t := INR i * d) in *.
  set (v := val (node_ m x i)) in *. pose proof d_pos as Pd. fold d in Pd.
  assert (I : 1 <= INR i <= 999) by (rewrite INR_IZR_INZ; split; apply IZR_le; lia).
  assert (T : Rabs t = INR i * Rabs d) by (unfold t; rewrite Rabs_mult, (Rabs_pos_eq (INR i)) by lra; reflexivity).
  assert (DX : Rabs d * 1000 = Rabs X).
  { unfold d, Rdiv. rewrite Rabs_mult, (Rabs_pos_eq (/ 1000)) by lra. lra. }
  assert (T0 : 0 < Rabs t) by (rewrite T; nra). assert (TX : Rabs t <= Rabs X) by (rewrite T; nra).
  replace (pow2 (-22)) with (1 / 4194304) in En by (cbn; lra).
  assert (Bv : Rabs t * (16 / 17) <= Rabs v).
  { assert (Q : Rabs (Rabs v - Rabs t) <= Rabs (v - t)) by apply Rabs_triang_inv2. apply Rabs_le_inv in Q. lra. }
  assert (V0 : v <> 0) by (intros E; rewrite E, Rabs_R0 in Bv; lra).
  destruct (sinc_v_spec _ Fn) as (Fy & By & _ & A). fold v in A. specialize (A V0). fold y in Fy, By, A. split; [exact Fy|]. split; [exact By|].
  rewrite <- sincr_n0 in A by exact V0. pose proof (sincr_lip t v) as L.
  replace (pow2 (-21)) with (1 / 2097152) in A by (cbn; lra).
  assert (IV : 16 / 100000 / Rabs v <= 17 / 100000 * / Rabs t).
  { unfold Rdiv at 1. apply Rmult_le_reg_r with (Rabs v); [lra|]. rewrite Rmult_assoc, Rinv_l by lra.
    apply Rmult_le_reg_r with (Rabs t); [exact T0|]. replace (17 / 100000 * / Rabs t * Rabs v * Rabs t) with (17 / 100000 * Rabs v) by (field; lra). lra. }
  assert (G : Rabs (val y - sincr t) <= 17 / 100000 * / Rabs t + (1 / 2000000 + 1 / 8000000 * Rabs X)).
  { replace (val y - sincr t) with ((val y - sincr v) + (sincr v - sincr t)) by ring. apply Rle_trans with (1 := Rabs_triang _ _). lra. }
  apply Rle_trans with ((17 / 100000 * / Rabs t + (1 / 2000000 + 1 / 8000000 * Rabs X)) * Rabs d); [apply Rmult_le_compat_r; lra|].
  rewrite T. right. field. lra.
Qed.

Lemma rsum_close k (g g' b : nat -> R) c : 0 <= c -> (forall i, (i < k)%nat -> Rabs (g i - g' i) * c <= b i) -> Rabs (rsum k g - rsum k g') * c <= rsum k b.
Proof.
  intros Hc H. induction k as [|k IH]; [cbn; unfold Rminus; rewrite Rplus_opp_r, Rabs_R0; lra|]. cbn [rsum].
  pose proof (IH (fun i Hi => H i ltac:(lia))) as A. specialize (H k ltac:(lia)).
  apply Rle_trans with ((Rabs (rsum k g - rsum k g') + Rabs (g k - g' k)) * c); [|lra]. apply Rmult_le_compat_r; [exact Hc|].
  replace (rsum k g + g k - (rsum k g' + g' k)) with ((rsum k g - rsum k g') + (g k - g' k)) by ring. apply Rabs_triang.
Qed.
Lemma rsum_lin k (b : nat -> R) p q : rsum k (fun i => p * b i + q) = p * rsum k b + INR k * q.
Proof. induction k as [|k IH]; [cbn; ring|]. cbn [rsum]. rewrite IH, S_INR. ring. Qed.

(** 8 (1 + 1/3 + ... + 1/999) + 2 (1/2 + ... + 1/998) + 1/1000 <= 40 *)
Fixpoint zsum (k : nat) (g : nat -> Z) : Z := match k with O => 0%Z | S j => (zsum j g + g j)%Z end.
Lemma inv_up k : (0 < k)%Z -> / IZR k <= IZR (1000000 / k + 1) / 1000000.
Proof.
  intros H. assert (P : 0 < IZR k) by now apply IZR_lt. apply Rmult_le_reg_r with (IZR k * 1000000); [lra|].
  replace (/ IZR k * (IZR k * 1000000)) with 1000000 by (field; lra). replace (IZR (1000000 / k + 1) / 1000000 * (IZR k * 1000000)) with (IZR (1000000 / k + 1) * IZR k) by field.
  rewrite <- mult_IZR. change 1000000 with (IZR 1000000). apply IZR_le. pose proof (Z.mul_succ_div_gt 1000000 k H). lia.
Qed.
Lemma rsum_inv k (f : nat -> nat) : (forall i, (0 < f i)%nat) -> rsum k (fun i => / INR (f i)) <= IZR (zsum k (fun i => 1000000 / Z.of_nat (f i) + 1)%Z) / 1000000.
Proof.
  intros H. induction k as [|k IH]; [cbn; lra|]. cbn [rsum zsum]. rewrite plus_IZR. pose proof (inv_up (Z.of_nat (f k)) ltac:(specialize (H k); lia)) as A.
  rewrite <- INR_IZR_INZ in A. lra.
Qed.
Lemma harmonic : 8 * rsum m (fun i => / INR (2 * i + 1)) + 2 * rsum (m - 1) (fun i => / INR (2 * i + 2)) + / 1000 <= 40.
Proof.
  pose proof (rsum_inv m (fun i => (2 * i + 1)%nat) ltac:(intros i; cbv beta; lia)) as A. pose proof (rsum_inv (m - 1) (fun i => (2 * i + 2)%nat) ltac:(intros i; cbv beta; lia)) as C.
  assert (E : m = Z.to_nat 500) by lia. rewrite E in A, C. rewrite E. clear E.
  assert (ZA : (zsum (Z.to_nat 500) (fun i => 1000000 / Z.of_nat (2 * i + 1) + 1) <= 4090000)%Z) by (apply Z.leb_le; vm_compute; reflexivity).
  assert (ZC : (zsum (Z.to_nat 500 - 1) (fun i => 1000000 / Z.of_nat (2 * i + 2) + 1) <= 3396000)%Z) by (apply Z.leb_le; vm_compute; reflexivity).
  apply IZR_le in ZA. apply IZR_le in ZC. lra.
Qed.

(** One rounding of a value up to 2^16. *)
Lemma add16 a b : fin a = true -> fin b = true -> Rabs (val a + val b) <= 65536 -> fin (fadd a b) = true /\ Rabs (val (fadd a b) - (val a + val b)) <= 1 / 128.
Proof.
  intros Fa Fb H. destruct (fadd_bnd a b (pow2 16) Fa Fb) as (F & V & _); [apply repr_bpow; lia|apply Rlt_trans with (2 := big_ge); cbn; lra|replace (pow2 16) with 65536 by (cbn; lra); exact H|].
  split; [exact F|]. rewrite V. pose proof (rnd_err (val a + val b)) as R. replace (pow2 (-24)) with (1 / 16777216) in R by (cbn; lra). pose proof tiny_pow. lra.
Qed.
Lemma mul16 a b : fin a = true -> fin b = true -> Rabs (val a * val b) <= 65536 -> fin (fmul a b) = true /\ Rabs (val (fmul a b) - (val a * val b)) <= 1 / 128.
Proof.
  intros Fa Fb H. destruct (fmul_bnd a b (pow2 16) Fa Fb) as (F & V & _); [apply repr_bpow; lia|apply Rlt_trans with (2 := big_ge); cbn; lra|replace (pow2 16) with 65536 by (cbn; lra); exact H|].
  split; [exact F|]. rewrite V. pose proof (rnd_err (val a * val b)) as R. replace (pow2 (-24)) with (1 / 16777216) in R by (cbn; lra). pose proof tiny_pow. lra.
Qed.

Lemma third_spec : fin (fdiv (h_ m x) (of_int 3)) = true /\ Rabs (val (fdiv (h_ m x) (of_int 3)) - X / 1000 / 3) <= pow2 (-22) * Rabs (X / 1000 / 3).
Proof.
  destruct h_spec as [Fh Eh]. set (d := X / 1000) in *. set (hv := val (h_ m x)) in *. destruct (of_int_exact 3 ltac:(lia)) as [F3 V3].
  assert (D0 : pow2 (-110) <= Rabs d).
  { unfold d, Rdiv. rewrite Rabs_mult, (Rabs_pos_eq (/ 1000)) by lra.
    apply Rle_trans with (pow2 (-100) * pow2 (-10)); [rewrite <- bpow_plus; apply bpow_le; lia|].
    apply Rmult_le_compat; [apply bpow_ge_0|apply bpow_ge_0|tauto|cbn; lra]. }
  assert (D1 : Rabs d <= 1024 / 1000) by (unfold d, Rdiv; rewrite Rabs_mult, (Rabs_pos_eq (/ 1000)) by lra; lra).
  assert (P24 : pow2 (-24) = 1 / 16777216) by (cbn; lra). assert (P22 : pow2 (-22) = 1 / 4194304) by (cbn; lra). rewrite P24 in Eh. rewrite P22.
  assert (Q : Rabs (Rabs hv - Rabs d) <= Rabs (hv - d)) by apply Rabs_triang_inv2. apply Rabs_le_inv in Q.
  assert (Pd : 0 < pow2 (-110)) by apply bpow_gt_0.
  assert (A3 : forall r, Rabs (r / 3) = Rabs r / 3) by (intros r; unfold Rdiv; rewrite Rabs_mult, (Rabs_pos_eq (/ 3)) by lra; reflexivity).
  assert (Bq : Rabs (hv / 3) <= pow2 0) by (rewrite A3; change (pow2 0) with 1; lra).
  destruct (fdiv_spec (h_ m x) (of_int 3) Fh) as [F V].
  { rewrite V3. lra. }
  { rewrite V3. fold hv. apply Rle_lt_trans with (pow2 0); [apply rnd_abs_le; [apply repr_bpow; lia|exact Bq]|]. apply Rlt_trans with (2 := big_ge). cbn; lra. }
  split; [exact F|]. rewrite V, V3. fold hv. pose proof (rnd_err_rel (hv / 3)) as R. rewrite P24 in R.
  assert (L : pow2 (-126) <= Rabs (hv / 3)).
  { rewrite A3. apply Rle_trans with (pow2 (-110) / 8); [|lra].
    replace (pow2 (-110) / 8) with (pow2 (-113)) by (change (-110)%Z with (3 + -113)%Z; rewrite bpow_plus; change (pow2 3) with 8; lra). apply bpow_le. lia. }
  specialize (R L). rewrite A3 in R. rewrite A3. apply Rabs_le_inv in R. assert (Eh2 := Eh). apply Rabs_le_inv in Eh2. apply Rabs_le. lra.
Qed.

Lemma product_spec T : fin T = true -> Rabs (val T) <= 36000 -> let r := fmul (fdiv (h_ m x) (of_int 3)) T in
  fin r = true /\ Rabs (val r - X / 3000 * val T) <= 4 / 1000000 * Rabs X.
Proof.
  intros FT BT r. destruct third_spec as [F3 E3]. set (q := fdiv (h_ m x) (of_int 3)) in *. replace (X / 1000 / 3) with (X / 3000) in E3 by field.
  assert (A3 : Rabs (X / 3000) = Rabs X / 3000) by (unfold Rdiv; rewrite Rabs_mult, (Rabs_pos_eq (/ 3000)) by lra; reflexivity). rewrite A3 in E3.
  replace (pow2 (-22)) with (1 / 4194304) in E3 by (cbn; lra). pose proof (Rabs_pos X) as PX. pose proof (Rabs_pos (val T)) as PT.
  assert (Q : Rabs (val q) <= Rabs X / 2900).
  { assert (S : Rabs (Rabs (val q) - Rabs (X / 3000)) <= Rabs (val q - X / 3000)) by apply Rabs_triang_inv2. rewrite A3 in S. apply Rabs_le_inv in S. lra. }
  assert (P1 : Rabs (val q * val T) <= 13 * Rabs X).
  { rewrite Rabs_mult. apply Rle_trans with (Rabs X / 2900 * 36000); [apply Rmult_le_compat; [apply Rabs_pos|exact PT|exact Q|exact BT]|lra]. }
  destruct (fmul_bnd q T (pow2 14) F3 FT) as (F & V & _); [apply repr_bpow; lia|apply Rlt_trans with (2 := big_ge); cbn; lra|replace (pow2 14) with 16384 by (cbn; lra); lra|].
  fold r in F, V. split; [exact F|]. rewrite V. pose proof (rnd_err (val q * val T)) as R. replace (pow2 (-24)) with (1 / 16777216) in R by (cbn; lra).
  assert (S2 : Rabs (val q * val T - X / 3000 * val T) <= 1 / 4194304 * (Rabs X / 3000) * 36000).
  { replace (val q * val T - X / 3000 * val T) with ((val q - X / 3000) * val T) by ring. rewrite Rabs_mult.
    apply Rmult_le_compat; [apply Rabs_pos|exact PT|exact E3|exact BT]. }
  assert (S3 : pow2 (-150) <= 1 / 10000000 * Rabs X).
  { apply Rle_trans with (pow2 (-50) * pow2 (-100)); [rewrite <- bpow_plus; right; reflexivity|].
    apply Rmult_le_compat; [apply bpow_ge_0|apply bpow_ge_0|cbn; lra|tauto]. }
  apply Rabs_le_inv in R. apply Rabs_le_inv in S2. apply Rabs_le. lra.
Qed.

(** The bracket, given the two sums. *)
Lemma total_spec : let S1 := val (odd_ m x) in let S2 := val (even_ m x) in let yN := val (sinc_v x) in
  fin (odd_ m x) = true -> fin (even_ m x) = true -> Rabs S1 <= 3501 -> Rabs S2 <= 3501 ->
  fin (total_ m x) = true /\ Rabs (val (total_ m x) - (1 + 8 * S1 + 2 * S2 + yN)) <= 6 / 100.
Proof.
  intros S1 S2 yN F1 F2 B1 B2. unfold total_. destruct (of_int_exact 0 ltac:(lia)) as [F0 V0]. destruct (of_int_exact 4 ltac:(lia)) as [F4 V4].
  destruct (of_int_exact 2 ltac:(lia)) as [F2' V2']. destruct (sinc_v_spec x Fx) as (FN & BN & _). fold yN in BN.
  destruct (sinc_v_spec (of_int 0) F0) as (Fo & _ & Vo & _). specialize (Vo V0).
  apply Rabs_le_inv in B1. apply Rabs_le_inv in B2. apply Rabs_le_inv in BN.
  destruct (mul16 (of_int 4) (odd_ m x) F4 F1) as [G1 E1]; [rewrite V4; fold S1; apply Rabs_le; lra|]. rewrite V4 in E1. fold S1 in E1.
  destruct (mul16 (of_int 2) (even_ m x) F2' F2) as [G2 E2]; [rewrite V2'; fold S2; apply Rabs_le; lra|]. rewrite V2' in E2. fold S2 in E2.
  set (p4 := fmul (of_int 4) (odd_ m x)) in *. set (p2 := fmul (of_int 2) (even_ m x)) in *. set (o := sinc_v (of_int 0)) in *.
  apply Rabs_le_inv in E1. apply Rabs_le_inv in E2.
  destruct (add16 o p4 Fo G1) as [G3 E3]; [rewrite Vo; apply Rabs_le; lra|]. rewrite Vo in E3. apply Rabs_le_inv in E3. set (a1 := fadd o p4) in *.
  destruct (add16 a1 p2 G3 G2) as [G4 E4]; [apply Rabs_le; lra|]. apply Rabs_le_inv in E4. set (a2 := fadd a1 p2) in *.
  destruct (add16 a2 p4 G4 G1) as [G5 E5]; [apply Rabs_le; lra|]. apply Rabs_le_inv in E5. set (a3 := fadd a2 p4) in *.
  destruct (add16 a3 (sinc_v x) G5 FN) as [G6 E6]; [fold yN; apply Rabs_le; lra|]. fold yN in E6. apply Rabs_le_inv in E6.
  split; [exact G6|]. apply Rabs_le. lra.
Qed.

Lemma odd_sum : fin (odd_ m x) = true /\ Rabs (val (odd_ m x) - rsum m (fun i => val (sinc_v (node_ m x (2 * i + 1))))) <= 500 / 2048 /\ Rabs (val (odd_ m x)) <= 3501.
Proof.
  assert (H : forall i, (i < m)%nat -> fin (sinc_v (node_ m x (2 * i + 1))) = true /\ Rabs (val (sinc_v (node_ m x (2 * i + 1)))) <= 7).
  { intros i Hi. destruct (value_spec (2 * i + 1)) as (F & V & _); [lia|]. auto. }
  destruct (sum_f32 (fun i => sinc_v (node_ m x (2 * i + 1))) m ltac:(lia) H) as [F A]. fold (odd_ m x) in F, A. split; [exact F|].
  assert (K : INR m = 500) by (rewrite INR_IZR_INZ, Hm; reflexivity). rewrite K in A. replace (pow2 (-11)) with (1 / 2048) in A by (cbn; lra).
  pose proof (rsum_bound m (fun i => val (sinc_v (node_ m x (2 * i + 1)))) 7 (fun i Hi => proj2 (H i Hi))) as R. rewrite K in R. cbv beta in *.
  apply Rabs_le_inv in A. apply Rabs_le_inv in R. split; apply Rabs_le; lra.
Qed.
Lemma even_sum : fin (even_ m x) = true /\ Rabs (val (even_ m x) - rsum (m - 1) (fun i => val (sinc_v (node_ m x (2 * i + 2))))) <= 500 / 2048 /\ Rabs (val (even_ m x)) <= 3501.
Proof.
  assert (H : forall i, (i < m - 1)%nat -> fin (sinc_v (node_ m x (2 * i + 2))) = true /\ Rabs (val (sinc_v (node_ m x (2 * i + 2)))) <= 7).
  { intros i Hi. destruct (value_spec (2 * i + 2)) as (F & V & _); [lia|]. auto. }
  destruct (sum_f32 (fun i => sinc_v (node_ m x (2 * i + 2))) (m - 1) ltac:(lia) H) as [F A]. fold (even_ m x) in F, A. split; [exact F|].
  assert (K : INR (m - 1) = 499) by (rewrite INR_IZR_INZ; replace (Z.of_nat (m - 1)) with 499%Z by lia; reflexivity). rewrite K in A. replace (pow2 (-11)) with (1 / 2048) in A by (cbn; lra).
  pose proof (rsum_bound (m - 1) (fun i => val (sinc_v (node_ m x (2 * i + 2)))) 7 (fun i Hi => proj2 (H i Hi))) as R. rewrite K in R. cbv beta in *.
  apply Rabs_le_inv in A. apply Rabs_le_inv in R. split; apply Rabs_le; lra.
Qed.

Lemma si_accuracy : let r := fmul (fdiv (h_ m x) (of_int 3)) (total_ m x) in
  fin r = true /\ Rabs (val r - 5 / 3 * sine_integral X) <= 23 / 10000 + Rabs X / 1000 + X * X / 900.
Proof.
  intros r. destruct odd_sum as (F1 & A1 & B1). destruct even_sum as (F2 & A2 & B2). destruct (total_spec F1 F2 B1 B2) as [FT ET]. cbv zeta in ET.
  set (S1 := val (odd_ m x)) in *. set (S2 := val (even_ m x)) in *. destruct (sinc_v_spec x Fx) as (_ & BN & _ & AN). specialize (AN X_n0). set (yN := val (sinc_v x)) in *.
  fold X in AN. set (T := total_ m x) in *. apply Rabs_le_inv in ET.
  assert (B1' := B1). assert (B2' := B2). assert (BN' := BN). apply Rabs_le_inv in B1'. apply Rabs_le_inv in B2'. apply Rabs_le_inv in BN'.
  destruct (product_spec T FT) as [Fr Er]; [apply Rabs_le; lra|]. fold r in Fr, Er. split; [exact Fr|].
  set (d := X / 1000) in *. pose proof d_pos as Pd. fold d in Pd.
  assert (DX : Rabs d * 1000 = Rabs X).
  { unfold d, Rdiv. rewrite Rabs_mult, (Rabs_pos_eq (/ 1000)) by lra. lra. }
  set (q := 1 / 2000000 + 1 / 8000000 * Rabs X).
  assert (K : INR m = 500) by (rewrite INR_IZR_INZ, Hm; reflexivity).
  assert (K1 : INR (m - 1) = 499) by (rewrite INR_IZR_INZ; replace (Z.of_nat (m - 1)) with 499%Z by lia; reflexivity).
  set (O := odd_nodes sincr 0 d m). set (E := even_nodes sincr 0 d m).
  assert (EO : Rabs (rsum m (fun i => val (sinc_v (node_ m x (2 * i + 1)))) - O) * Rabs d <= 17 / 100000 * rsum m (fun i => / INR (2 * i + 1)) + 500 * (Rabs d * q)).
  { rewrite <- K, <- rsum_lin. unfold O, odd_nodes. apply rsum_close; [lra|]. intros i Hi. destruct (value_spec (2 * i + 1)) as (_ & _ & V); [lia|].
    cbv zeta in V. fold d q in V. replace (2 * INR i + 1) with (INR (2 * i + 1)) by (rewrite plus_INR, mult_INR; cbn; ring). exact V. }
  assert (EE : Rabs (rsum (m - 1) (fun i => val (sinc_v (node_ m x (2 * i + 2)))) - E) * Rabs d <= 17 / 100000 * rsum (m - 1) (fun i => / INR (2 * i + 2)) + 499 * (Rabs d * q)).
  { rewrite <- K1, <- rsum_lin. unfold E, even_nodes. apply rsum_close; [lra|]. intros i Hi. destruct (value_spec (2 * i + 2)) as (_ & _ & V); [lia|].
    cbv zeta in V. fold d q in V. replace (2 * INR i + 2) with (INR (2 * i + 2)) by (rewrite plus_INR, mult_INR; cbn; ring). exact V. }
  assert (EN : Rabs (yN - sincr X) * Rabs d <= 17 / 100000 * / 1000 + Rabs d * q).
  { rewrite sincr_n0 by apply X_n0. replace (pow2 (-21)) with (1 / 2097152) in AN by (cbn; lra).
    apply Rle_trans with ((16 / 100000 / Rabs X + 1 / 2097152) * Rabs d); [apply Rmult_le_compat_r; lra|]. rewrite <- DX at 1.
    replace ((16 / 100000 / (Rabs d * 1000) + 1 / 2097152) * Rabs d) with (16 / 100000 * / 1000 + 1 / 2097152 * Rabs d) by (field; lra).
    unfold q. pose proof (Rabs_pos X). nra. }
  pose proof harmonic as Hh.
  pose proof (quadrature X m ltac:(lia)) as Q. cbv zeta in Q. rewrite K in Q. replace (2 * 500) with 1000 in Q by ring. fold d in Q. fold O E in Q.
  set (I := sine_integral X) in *.
  set (W := 1 + 8 * O + 2 * E + sincr X) in *.
  assert (EW : Rabs (val T - W) * Rabs d <= 68 / 10000 + (5000 * (Rabs d * q) + 26 / 10 * Rabs d)).
  { set (s1 := rsum m (fun i => val (sinc_v (node_ m x (2 * i + 1))))) in *. set (s2 := rsum (m - 1) (fun i => val (sinc_v (node_ m x (2 * i + 2))))) in *.
    assert (Z : Rabs (val T - W) <= (6 / 100 + 8 * (500 / 2048) + 2 * (500 / 2048)) + (8 * Rabs (s1 - O) + 2 * Rabs (s2 - E) + Rabs (yN - sincr X))).
    { pose proof (Rle_abs (s1 - O)). pose proof (Rle_abs (- (s1 - O))) as Q1. rewrite Rabs_Ropp in Q1.
      pose proof (Rle_abs (s2 - E)). pose proof (Rle_abs (- (s2 - E))) as Q2. rewrite Rabs_Ropp in Q2.
      pose proof (Rle_abs (yN - sincr X)). pose proof (Rle_abs (- (yN - sincr X))) as Q3. rewrite Rabs_Ropp in Q3.
      apply Rabs_le_inv in A1. apply Rabs_le_inv in A2. unfold W. apply Rabs_le. lra. }
    assert (0 <= Rabs d * q) by (apply Rmult_le_pos; [lra|unfold q; pose proof (Rabs_pos X); lra]).
    apply Rmult_le_compat_r with (r := Rabs d) in Z; [|lra]. lra. }
  assert (QD : Rabs d * q <= Rabs X * (1 / 2000000000) + X * X * (1 / 8000000000)).
  { unfold q. assert (Rabs X * Rabs X = X * X) by (rewrite <- Rabs_mult; apply Rabs_pos_eq, Rle_0_sqr). rewrite <- DX at 2. rewrite <- DX in H at 1. nra. }
  assert (E3 : Rabs (X / 3000 * val T - d / 3 * W) * 3 = Rabs (val T - W) * Rabs d).
  { replace (X / 3000 * val T - d / 3 * W) with ((val T - W) * d * / 3) by (unfold d; field). rewrite !Rabs_mult, (Rabs_pos_eq (/ 3)) by lra. lra. }
  assert (XX : 0 <= X * X) by apply Rle_0_sqr. pose proof (Rabs_pos X).
  assert (G : Rabs (X / 3000 * val T - d / 3 * W) <= 68 / 30000 + (5000 * (Rabs d * q) + 26 / 10 * Rabs d) / 3) by lra.
  apply Rabs_le_inv in Er. apply Rabs_le_inv in G. apply Rabs_le_inv in Q. apply Rabs_le. lra.
Qed.
End Errors.

(** C89: what [si] computes is 5/3 of the sine integral: because [simpsons_rule] counts the odd
    nodes twice (C73), the result is off by two thirds of its value. *)
Theorem C89_si_five_thirds_refuted : forall (NP : NanPolicy) (B : Build) (x : f32), fin x = true -> pow2 (-100) <= Rabs (val x) <= 1024 ->
  exists v, si x = Ret v /\ fin v = true /\
    Rabs (val v - 5 / 3 * sine_integral (val x)) <= 23 / 10000 + Rabs (val x) / 1000 + val x * val x / 900.
Proof.
  intros NP B x Fx HX. eexists. split; [apply si_shape|]. apply si_accuracy; [|exact Fx|exact HX]. reflexivity.
Qed.
Print Assumptions C89_si_five_thirds_refuted.

(** ** Tiny arguments *)

Lemma sum_zeros {NP : NanPolicy} (c : nat -> f32) k : (forall i, (i < k)%nat -> fin (c i) = true /\ val (c i) = 0) ->
  fin (sum (map c (seq 0 k))) = true /\ val (sum (map c (seq 0 k))) = 0.
Proof.
  intros H. unfold sum. induction k as [|k IH].
  - cbn [seq map fold_left]. change (@nint f32 num_f32 0) with (of_int 0). apply (of_int_exact 0 ltac:(lia)).
  - destruct IH as [F A]; [intros i Hi; apply H; lia|]. replace (S k) with (k + 1)%nat by lia.
    rewrite seq_app, map_app, fold_left_app. cbn [seq map fold_left]. replace (0 + k)%nat with k by lia.
    set (s := fold_left nadd (map c (seq 0 k)) (nint 0)) in *. destruct (H k ltac:(lia)) as [Fc Vc].
    change (nadd s (c k)) with (fadd s (c k)).
    destruct (fadd_spec s (c k) F Fc) as [F' V]; [rewrite A, Vc, Rplus_0_l, rnd_0, Rabs_R0; apply big_pos|].
    split; [exact F'|]. rewrite V, A, Vc, Rplus_0_l. apply rnd_0.
Qed.

(** C89: the documentation says "the smaller the number, the more accurate the result". For
    arguments up to 2^-15, where the sine integral of x is x to nine digits, the result is
    x/3000 instead. *)
Theorem C89_si_small_arguments_refuted : forall (NP : NanPolicy) (B : Build) (x : f32), fin x = true -> pow2 (-100) <= Rabs (val x) <= pow2 (-15) ->
  exists v, si x = Ret v /\ fin v = true /\ Rabs (val v - val x / 3000) <= pow2 (-20) * Rabs (val x / 3000).
Proof.
  intros NP B x Fx HX. assert (P15 : pow2 (-15) = 1 / 32768) by (cbn; lra). rewrite P15 in HX.
  assert (HX' : pow2 (-100) <= Rabs (val x) <= 1024) by lra. eexists. split; [apply si_shape|].
  assert (Hm : Z.of_nat 500 = 500%Z) by reflexivity. set (m := 500%nat) in *. clearbody m.
  pose proof (X_n0 x HX') as N0.
  assert (Z : forall w, fin w = true -> val w <> 0 -> Rabs (val w) <= 1 / 32768 -> fin (sinc_v w) = true /\ val (sinc_v w) = 0).
  { intros w Fw Nw Lw. destruct (C81_sinc_near_zero_refuted NP B w Fw Nw Lw) as (v & E & F & V). unfold sinc_v. rewrite E. auto. }
  assert (DX : Rabs (val x / 1000) * 1000 = Rabs (val x)) by (unfold Rdiv; rewrite Rabs_mult, (Rabs_pos_eq (/ 1000)) by lra; lra).
  assert (ZN : forall i, (1 <= Z.of_nat i <= 999)%Z -> fin (sinc_v (node_ m x i)) = true /\ val (sinc_v (node_ m x i)) = 0).
  { intros i Hi. destruct (node_spec m Hm x Fx HX' i Hi) as [Fn En]. cbv zeta in En.
    assert (I : 1 <= INR i <= 999) by (rewrite INR_IZR_INZ; split; apply IZR_le; lia).
    set (t := INR i * (val x / 1000)) in *. assert (T : Rabs t = INR i * Rabs (val x / 1000)) by (unfold t; rewrite Rabs_mult, (Rabs_pos_eq (INR i)) by lra; reflexivity).
    pose proof (d_pos x HX') as Pd. replace (pow2 (-22)) with (1 / 4194304) in En by (cbn; lra).
    assert (Q : Rabs (Rabs (val (node_ m x i)) - Rabs t) <= Rabs (val (node_ m x i) - t)) by apply Rabs_triang_inv2. apply Rabs_le_inv in Q.
    assert (T1 : Rabs (val x / 1000) <= Rabs t <= 999 * Rabs (val x / 1000)) by (rewrite T; split; nra).
    apply Z; [exact Fn| |lra]. intros E. rewrite E, Rminus_0_l, Rabs_Ropp in En. lra. }
  destruct (sum_zeros (fun i => sinc_v (node_ m x (2 * i + 1))) m (fun i Hi => ZN (2 * i + 1)%nat ltac:(lia))) as [F1 V1]. fold (odd_ m x) in F1, V1.
  destruct (sum_zeros (fun i => sinc_v (node_ m x (2 * i + 2))) (m - 1) (fun i Hi => ZN (2 * i + 2)%nat ltac:(lia))) as [F2 V2]. fold (even_ m x) in F2, V2.
  destruct (Z x Fx N0 (proj2 HX)) as [FN VN].
  destruct (of_int_exact 0 ltac:(lia)) as [F0 V0]. destruct (sinc_v_spec (of_int 0) F0) as (Fo & _ & Vo & _). specialize (Vo V0).
  assert (R1 : rnd 1 = 1) by (apply rnd_repr; apply (repr_int 1); lia).
  assert (B1 : Rabs 1 < big) by (rewrite Rabs_R1; pose proof big_ge; lra).
  assert (MZ : forall z, (Z.abs z <= 2 ^ 24)%Z -> forall w, fin w = true -> val w = 0 -> fin (fmul (of_int z) w) = true /\ val (fmul (of_int z) w) = 0).
  { intros z Hz w Fw Vw. destruct (of_int_exact z Hz) as [Fz Vz]. destruct (fmul_spec (of_int z) w Fz Fw) as [F V]; [rewrite Vw, Rmult_0_r, rnd_0, Rabs_R0; apply big_pos|].
    split; [exact F|]. rewrite V, Vw, Rmult_0_r. apply rnd_0. }
  assert (A1 : forall a w, fin a = true -> val a = 1 -> fin w = true -> val w = 0 -> fin (fadd a w) = true /\ val (fadd a w) = 1).
  { intros a w Fa Va Fw Vw. destruct (fadd_spec a w Fa Fw) as [F V]; [rewrite Va, Vw, Rplus_0_r, R1; exact B1|]. split; [exact F|]. rewrite V, Va, Vw, Rplus_0_r. exact R1. }
  destruct (MZ 4%Z ltac:(lia) _ F1 V1) as [G1 W1]. destruct (MZ 2%Z ltac:(lia) _ F2 V2) as [G2 W2].
  destruct (A1 _ _ Fo Vo G1 W1) as [G3 W3]. destruct (A1 _ _ G3 W3 G2 W2) as [G4 W4]. destruct (A1 _ _ G4 W4 G1 W1) as [G5 W5]. destruct (A1 _ _ G5 W5 FN VN) as [G6 W6].
  fold (total_ m x) in G6, W6.
  destruct (third_spec m Hm x Fx HX') as [F3 E3]. set (q := fdiv (h_ m x) (of_int 3)) in *.
  replace (val x / 1000 / 3) with (val x / 3000) in E3 by field.
  assert (RQ : rnd (val q * val (total_ m x)) = val q) by (rewrite W6, Rmult_1_r; apply rnd_repr, repr_val).
  replace (pow2 (-22)) with (1 / 4194304) in E3 by (cbn; lra). replace (pow2 (-20)) with (1 / 1048576) by (cbn; lra).
  assert (A3 : Rabs (val x / 3000) = Rabs (val x) / 3000) by (unfold Rdiv; rewrite Rabs_mult, (Rabs_pos_eq (/ 3000)) by lra; reflexivity).
  destruct (fmul_spec q (total_ m x) F3 G6) as [F V].
  { rewrite RQ. assert (S : Rabs (Rabs (val q) - Rabs (val x / 3000)) <= Rabs (val q - val x / 3000)) by apply Rabs_triang_inv2. apply Rabs_le_inv in S. rewrite A3 in *. pose proof big_ge. lra. }
  split; [exact F|]. rewrite V, RQ. pose proof (Rabs_pos (val x / 3000)). lra.
Qed.
Print Assumptions C89_si_small_arguments_refuted.

(** Arguments in range; si(2^-16) = 2^-16/3000. *)
Example C89_met : fin (lit 1 (-16)) = true /\ pow2 (-100) <= Rabs (val (lit 1 (-16))) <= pow2 (-15) /\ fin (of_int 1) = true /\ pow2 (-100) <= Rabs (val (of_int 1)) <= 1024.
Proof.
  destruct (lit_exact 1 (-16) ltac:(lia) ltac:(lia)) as [F V]. destruct (of_int_exact 1 ltac:(lia)) as [F1 V1].
  rewrite V, V1, Rmult_1_l, (Rabs_pos_eq (pow2 _)), Rabs_R1 by apply bpow_ge_0.
  split; [exact F|]. split; [split; apply bpow_le; lia|]. split; [exact F1|]. split; [|lra]. change 1 with (pow2 0). apply bpow_le. lia.
Qed.
