(** * Lemmas: the real function sin(t)/t, extended by 1 at 0, and a quadrature of it. *)

From Coq Require Import Reals Lia Lra Arith.
From Coquelicot Require Import Coquelicot.
From Verif Require Import S_Integral S_SineIntegral.
Local Open Scope R_scope.

Definition sincr (t : R) : R := if Req_EM_T t 0 then 1 else sin t / t.
Lemma sincr_0 : sincr 0 = 1.
Proof. unfold sincr. destruct (Req_EM_T 0 0); [reflexivity|contradiction]. Qed.
Lemma sincr_n0 t : t <> 0 -> sincr t = sin t / t.
Proof. intros H. unfold sincr. destruct (Req_EM_T t 0); [contradiction|reflexivity]. Qed.

Lemma mono_0 (f df : R -> R) x : (forall t, is_derive f t (df t)) -> (forall t, 0 <= t -> 0 <= df t) -> f 0 = 0 -> 0 <= x -> 0 <= f x.
Proof.
  intros D P F0 [Hx| <-]; [|lra]. destruct (MVT_cor2 f df 0 x Hx) as (c & E & Hc); [intros; now apply is_derive_Reals|].
  rewrite F0 in E. specialize (P c ltac:(lra)). nra.
Qed.

Lemma sin_cos_gap t : 0 <= t -> Rabs (t * cos t - sin t) <= t * t / 2.
Proof.
  intros H.
  assert (A : 0 <= t * t / 2 - sin t + t * cos t).
  { apply (mono_0 (fun t => t * t / 2 - sin t + t * cos t) (fun t => t * (1 - sin t))); [| | |exact H].
    - intros u. auto_derive; [trivial|field].
    - intros u Hu. pose proof (SIN_bound u). apply Rmult_le_pos; lra.
    - rewrite sin_0. lra. }
  assert (A2 : 0 <= t * t / 2 + sin t - t * cos t).
  { apply (mono_0 (fun t => t * t / 2 + sin t - t * cos t) (fun t => t * (1 + sin t))); [| | |exact H].
    - intros u. auto_derive; [trivial|field].
    - intros u Hu. pose proof (SIN_bound u). apply Rmult_le_pos; lra.
    - rewrite sin_0. lra. }
  apply Rabs_le. lra.
Qed.
Lemma sin_near t : 0 <= t -> t - t * t / 2 <= sin t <= t.
Proof.
  intros H.
  assert (G : forall u, 0 <= u -> 0 <= cos u - 1 + u).
  { intros u Hu. apply (mono_0 (fun t => cos t - 1 + t) (fun t => 1 - sin t)); [| | |exact Hu].
    - intros v. auto_derive; [trivial|ring].
    - intros v _. pose proof (SIN_bound v). lra.
    - rewrite cos_0. lra. }
  split.
  - enough (0 <= sin t - t + t * t / 2) by lra.
    apply (mono_0 (fun t => sin t - t + t * t / 2) (fun t => cos t - 1 + t)); [| |rewrite sin_0; lra|exact H]; [|exact G].
    intros v. auto_derive; [trivial|field].
  - enough (0 <= t - sin t) by lra.
    apply (mono_0 (fun t => t - sin t) (fun t => 1 - cos t)); [| |rewrite sin_0; lra|exact H].
    + intros v. auto_derive; [trivial|ring].
    + intros v _. pose proof (COS_bound v). lra.
Qed.

Lemma sincr_lip_pos s t : 0 <= s <= t -> Rabs (sincr t - sincr s) <= (t - s) / 2.
Proof.
  intros [Hs Hst]. destruct Hst as [Hst| ->]; [|unfold Rminus; rewrite Rplus_opp_r, Rabs_R0; lra].
  destruct Hs as [Hs| <-].
  - rewrite !sincr_n0 by lra.
    destruct (MVT_cor2 (fun t => sin t / t) (fun t => (t * cos t - sin t) / (t * t)) s t Hst) as (c & E & Hc).
    { intros c Hc. apply is_derive_Reals. auto_derive; [lra|]. field. lra. }
    rewrite E, Rabs_mult, (Rabs_pos_eq (t - s)) by lra. apply Rle_trans with (1 / 2 * (t - s)); [|lra].
    apply Rmult_le_compat_r; [lra|]. unfold Rdiv at 1. rewrite Rabs_mult, (Rabs_pos_eq (/ (c * c))) by (left; apply Rinv_0_lt_compat; nra).
    pose proof (sin_cos_gap c ltac:(lra)) as G. apply Rmult_le_reg_r with (c * c); [nra|]. rewrite Rmult_assoc, Rinv_l by nra. lra.
  - rewrite sincr_0, sincr_n0 by lra. destruct (sin_near t ltac:(lra)) as [L U].
    replace (sin t / t - 1) with ((sin t - t) * / t) by (field; lra). rewrite Rabs_mult, (Rabs_pos_eq (/ t)) by (left; apply Rinv_0_lt_compat; lra).
    apply Rmult_le_reg_r with t; [lra|]. rewrite Rmult_assoc, Rinv_l by lra. rewrite Rmult_1_r. apply Rabs_le. nra.
Qed.
Lemma sincr_abs t : sincr (Rabs t) = sincr t.
Proof.
  unfold Rabs. destruct (Rcase_abs t) as [H|H]; [|reflexivity]. rewrite !sincr_n0 by lra. rewrite sin_neg. field. lra.
Qed.
Lemma sincr_lip s t : Rabs (sincr t - sincr s) <= Rabs (t - s) / 2.
Proof.
  rewrite <- (sincr_abs t), <- (sincr_abs s).
  apply Rle_trans with (Rabs (Rabs t - Rabs s) / 2); [|pose proof (Rabs_triang_inv2 t s); lra].
  destruct (Rle_lt_dec (Rabs s) (Rabs t)) as [H|H].
  - rewrite (Rabs_pos_eq (Rabs t - Rabs s)) by lra. apply sincr_lip_pos. split; [apply Rabs_pos|exact H].
  - rewrite Rabs_minus_sym, (Rabs_minus_sym (Rabs t)). rewrite (Rabs_pos_eq (Rabs s - Rabs t)) by lra. apply sincr_lip_pos. split; [apply Rabs_pos|lra].
Qed.
Lemma sincr_cont t : continuous sincr t.
Proof.
  apply continuity_pt_filterlim. intros eps He. exists eps. split; [exact He|]. intros y [_ Hy]. unfold dist in *. cbn in *. unfold R_dist in *.
  pose proof (sincr_lip t y) as L. pose proof (Rabs_pos (y - t)). lra.
Qed.
Lemma sincr_int a b : ex_RInt sincr a b.
Proof. apply (ex_RInt_continuous (V := R_CompleteNormedModule)). intros z _. apply sincr_cont. Qed.

(** The integral of sin(t)/t itself is the same: the integrands differ at one end point. *)
Lemma sincr_RInt x : RInt (fun t => sin t / t) 0 x = RInt sincr 0 x.
Proof.
  apply RInt_ext. intros t Ht. rewrite sincr_n0; [reflexivity|]. unfold Rmin, Rmax in Ht. destruct (Rle_dec 0 x); lra.
Qed.

(** One panel of the miscounted rule. *)
Lemma panel a h : Rabs (h / 3 * (sincr a + 8 * sincr (a + h) + sincr (a + 2 * h)) - 5 / 3 * RInt sincr a (a + 2 * h)) <= 2 * (h * h).
Proof.
  set (c := sincr (a + h)).
  assert (I : RInt sincr a (a + 2 * h) = 2 * h * c + RInt (fun t => sincr t - c) a (a + 2 * h)).
  { pose proof (RInt_minus (V := R_CompleteNormedModule) sincr (fun _ => c) a (a + 2 * h) (sincr_int _ _) (ex_RInt_const _ _ _)) as E.
    rewrite RInt_const in E. change (RInt (fun t => sincr t - c) a (a + 2 * h) = RInt sincr a (a + 2 * h) - (a + 2 * h - a) * c) in E. lra. }
  assert (Bd : Rabs (RInt (fun t => sincr t - c) a (a + 2 * h)) <= Rabs (2 * h) * (Rabs h / 2)).
  { replace (2 * h) with (a + 2 * h - a) at 2 by ring. apply (norm_RInt_le_const_abs (V := R_NormedModule) (fun t => sincr t - c) a (a + 2 * h)).
    - intros t Ht. change (Rabs (sincr t - c) <= Rabs h / 2). unfold c. apply Rle_trans with (1 := sincr_lip _ _).
      enough (Rabs (t - (a + h)) <= Rabs h) by lra. unfold Rmin, Rmax in Ht. destruct (Rle_dec a (a + 2 * h)); unfold Rabs; destruct (Rcase_abs h), (Rcase_abs (t - (a + h))); lra.
    - apply (RInt_correct (V := R_CompleteNormedModule)). apply (ex_RInt_minus (V := R_NormedModule)); [apply sincr_int|apply ex_RInt_const]. }
  rewrite I. set (J := RInt (fun t => sincr t - c) a (a + 2 * h)) in *.
  pose proof (sincr_lip (a + h) a) as L1. pose proof (sincr_lip (a + h) (a + 2 * h)) as L2. fold c in L1, L2.
  replace (a - (a + h)) with (- h) in L1 by ring. rewrite Rabs_Ropp in L1. replace (a + 2 * h - (a + h)) with h in L2 by ring.
  replace (h / 3 * (sincr a + 8 * c + sincr (a + 2 * h)) - 5 / 3 * (2 * h * c + J))
    with (h / 3 * ((sincr a - c) + (sincr (a + 2 * h) - c)) - 5 / 3 * J) by field.
  apply Rle_trans with (Rabs h / 3 * Rabs h + 5 / 3 * (Rabs (2 * h) * (Rabs h / 2))).
  - apply Rle_trans with (1 := Rabs_triang _ _). rewrite Rabs_Ropp. apply Rplus_le_compat.
    + rewrite Rabs_mult. unfold Rdiv at 1. rewrite Rabs_mult, (Rabs_pos_eq (/ 3)) by lra. apply Rmult_le_compat_l; [pose proof (Rabs_pos h); lra|].
      apply Rle_trans with (1 := Rabs_triang _ _). lra.
    + rewrite Rabs_mult, (Rabs_pos_eq (5 / 3)) by lra. lra.
  - rewrite Rabs_mult, (Rabs_pos_eq 2) by lra. assert (Rabs h * Rabs h = h * h) by (rewrite <- Rabs_mult; apply Rabs_pos_eq, Rle_0_sqr). lra.
Qed.

Lemma panels h n : Rabs (h / 3 * rsum n (fun i => sincr (2 * INR i * h) + 8 * sincr ((2 * INR i + 1) * h) + sincr ((2 * INR i + 2) * h))
  - 5 / 3 * RInt sincr 0 (2 * INR n * h)) <= INR n * (2 * (h * h)).
Proof.
  induction n as [|n IH].
  - cbn [rsum INR]. replace (2 * 0 * h) with 0 by ring. rewrite RInt_point. unfold zero. cbn. rewrite Rmult_0_r, Rmult_0_r, Rminus_0_r, Rabs_R0. lra.
  - cbn [rsum]. rewrite S_INR. rewrite <- (RInt_Chasles sincr 0 (2 * INR n * h) (2 * (INR n + 1) * h)) by apply sincr_int.
    pose proof (panel (2 * INR n * h) h) as P. replace (2 * INR n * h + h) with ((2 * INR n + 1) * h) in P by ring.
    replace (2 * INR n * h + 2 * h) with (2 * (INR n + 1) * h) in P by ring. replace ((2 * INR n + 2) * h) with (2 * (INR n + 1) * h) by ring.
    change (plus (RInt sincr 0 (2 * INR n * h)) (RInt sincr (2 * INR n * h) (2 * (INR n + 1) * h))) with (RInt sincr 0 (2 * INR n * h) + RInt sincr (2 * INR n * h) (2 * (INR n + 1) * h)).
    apply Rabs_le_between in P. apply Rabs_le_between in IH. apply Rabs_le. lra.
Qed.

Lemma panels_nodes h n : (1 <= n)%nat ->
  rsum n (fun i => sincr (2 * INR i * h) + 8 * sincr ((2 * INR i + 1) * h) + sincr ((2 * INR i + 2) * h)) =
  1 + 8 * odd_nodes sincr 0 h n + 2 * even_nodes sincr 0 h n + sincr (2 * INR n * h).
Proof.
  destruct n as [|n]; [lia|]. intros _. unfold odd_nodes, even_nodes. replace (S n - 1)%nat with n by lia. induction n as [|n IH].
  - cbn [rsum INR]. rewrite !Rplus_0_l. replace (2 * 0 * h) with 0 by ring. rewrite sincr_0. replace (2 * 1 * h) with ((2 * 0 + 2) * h) by ring. ring.
  - cbn [rsum] in *. rewrite IH. rewrite !S_INR, !Rplus_0_l.
    replace (2 * (INR n + 1 + 1) * h) with ((2 * (INR n + 1) + 2) * h) by ring. replace ((2 * INR n + 2) * h) with (2 * (INR n + 1) * h) by ring. ring.
Qed.

(** With the odd nodes counted twice the composite rule gives 5/3 of the integral. *)
Lemma quadrature x n : (1 <= n)%nat -> let h := x / (2 * INR n) in
  Rabs (h / 3 * (1 + 8 * odd_nodes sincr 0 h n + 2 * even_nodes sincr 0 h n + sincr x) - 5 / 3 * sine_integral x) <= x * x / (2 * INR n).
Proof.
  intros Hn h. unfold sine_integral. rewrite sincr_RInt. assert (P : 0 < INR n) by (apply lt_0_INR; lia). assert (E : 2 * INR n * h = x) by (unfold h; field; lra).
  pose proof (panels h n) as Q. rewrite panels_nodes in Q by exact Hn. rewrite E in Q.
  replace (x * x / (2 * INR n)) with (INR n * (2 * (h * h))); [exact Q|]. unfold h. field. lra.
Qed.
