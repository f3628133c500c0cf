(** * Lemmas: Simpson's rule for the sine integral. *)

From Coq Require Import Reals Lia Lra Arith.
From Coquelicot Require Import Coquelicot.
From Verif Require Import S_Integral S_SineIntegral P_SincReal.
Local Open Scope R_scope.

Lemma cosint x : is_RInt (fun t => cos (x * t)) 0 1 (sincr x).
Proof.
  destruct (Req_dec x 0) as [->|N].
  - rewrite sincr_0. pose proof (is_RInt_const (V := R_NormedModule) 0 1 (1 : R_NormedModule)) as H.
    change (scal (1 - 0) (1 : R_NormedModule)) with ((1 - 0) * 1) in H. replace ((1 - 0) * 1) with 1 in H by ring.
    apply (is_RInt_ext (fun _ => 1)); [|exact H]. intros t _. now rewrite Rmult_0_l, cos_0.
  - rewrite sincr_n0 by exact N. replace (sin x / x) with (minus (sin (x * 1) / x) (sin (x * 0) / x)).
    2:{ change (sin (x * 1) / x - sin (x * 0) / x = sin x / x). rewrite Rmult_1_r, Rmult_0_r, sin_0. field. exact N. }
    apply (is_RInt_derive (fun t => sin (x * t) / x)).
    + intros t _. auto_derive; [trivial|]. field. exact N.
    + intros t _. apply (ex_derive_continuous (fun t => cos (x * t))). auto_derive. trivial.
Qed.

Definition csec (m : R) : R := RInt (fun t => t * t * cos (m * t)) 0 1.
Lemma csec_int m : is_RInt (fun t => t * t * cos (m * t)) 0 1 (csec m).
Proof.
  apply (RInt_correct (V := R_CompleteNormedModule)). apply (ex_RInt_continuous (V := R_CompleteNormedModule)). intros t _.
  apply (ex_derive_continuous (fun t => t * t * cos (m * t))). auto_derive. trivial.
Qed.

Lemma cos_fourth w : Rabs (2 * cos w - 2 + w * w) <= w * w * w * w / 12.
Proof.
  assert (P : forall w, 0 <= w -> Rabs (2 * cos w - 2 + w * w) <= w * w * w * w / 12).
  { clear w. intros w Hw.
    assert (S1 : forall u, 0 <= u -> 0 <= u - sin u) by (intros u Hu; pose proof (sin_near u Hu); lra).
    assert (C1 : forall u, 0 <= u -> 0 <= 2 * cos u - 2 + u * u).
    { intros u Hu. apply (mono_0 (fun u => 2 * cos u - 2 + u * u) (fun u => 2 * (u - sin u))); [| |rewrite cos_0; lra|exact Hu].
      - intros v. auto_derive; [trivial|ring].
      - intros v Hv. specialize (S1 v Hv). lra. }
    assert (S3 : forall u, 0 <= u -> 0 <= u * u * u / 6 - u + sin u).
    { intros u Hu. apply (mono_0 (fun u => u * u * u / 6 - u + sin u) (fun u => (2 * cos u - 2 + u * u) / 2)); [| |rewrite sin_0; lra|exact Hu].
      - intros v. auto_derive; [trivial|field].
      - intros v Hv. specialize (C1 v Hv). lra. }
    rewrite Rabs_pos_eq by now apply C1.
    enough (0 <= w * w * w * w / 12 - (2 * cos w - 2 + w * w)) by lra.
    apply (mono_0 (fun w => w * w * w * w / 12 - (2 * cos w - 2 + w * w)) (fun u => 2 * (u * u * u / 6 - u + sin u))); [| |rewrite cos_0; lra|exact Hw].
    - intros v. auto_derive; [trivial|field].
    - intros v Hv. specialize (S3 v Hv). lra. }
  destruct (Rle_lt_dec 0 w) as [H|H]; [now apply P|]. specialize (P (- w) ltac:(lra)). rewrite cos_neg in P.
  replace (- w * - w) with (w * w) in P by ring. replace (w * w * - w * - w) with (w * w * w * w) in P by ring. exact P.
Qed.

Lemma second_diff m u : Rabs (sincr (m + u) + sincr (m - u) - 2 * sincr m + u * u * csec m) <= u * u * u * u / 60.
Proof.
  assert (I : is_RInt (fun t => cos (m * t) * (2 * cos (u * t) - 2 + (u * t) * (u * t))) 0 1 (sincr (m + u) + sincr (m - u) - 2 * sincr m + u * u * csec m)).
  { apply (is_RInt_ext (fun t => plus (minus (plus (cos ((m + u) * t)) (cos ((m - u) * t))) (scal 2 (cos (m * t)))) (scal (u * u) (t * t * cos (m * t))))).
    { intros t _. change (cos ((m + u) * t) + cos ((m - u) * t) - 2 * cos (m * t) + u * u * (t * t * cos (m * t)) = cos (m * t) * (2 * cos (u * t) - 2 + (u * t) * (u * t))).
      replace ((m + u) * t) with (m * t + u * t) by ring. replace ((m - u) * t) with (m * t - u * t) by ring. rewrite cos_plus, cos_minus. ring. }
    change (is_RInt (fun t => plus (minus (plus (cos ((m + u) * t)) (cos ((m - u) * t))) (scal 2 (cos (m * t)))) (scal (u * u) (t * t * cos (m * t)))) 0 1
      (plus (minus (plus (sincr (m + u)) (sincr (m - u))) (scal 2 (sincr m))) (scal (u * u) (csec m)))).
    apply (is_RInt_plus (V := R_NormedModule)); [apply (is_RInt_minus (V := R_NormedModule)); [apply (is_RInt_plus (V := R_NormedModule)); apply cosint|apply (is_RInt_scal (V := R_NormedModule)), cosint]|apply (is_RInt_scal (V := R_NormedModule)), csec_int]. }
  assert (G : is_RInt (fun t => u * u * u * u / 12 * (t * t * t * t)) 0 1 (u * u * u * u / 60)).
  { replace (u * u * u * u / 60) with (minus (u * u * u * u / 60 * (1 * 1 * 1 * 1 * 1)) (u * u * u * u / 60 * (0 * 0 * 0 * 0 * 0))).
    2:{ change (u * u * u * u / 60 * (1 * 1 * 1 * 1 * 1) - u * u * u * u / 60 * (0 * 0 * 0 * 0 * 0) = u * u * u * u / 60). ring. }
    apply (is_RInt_derive (fun t => u * u * u * u / 60 * (t * t * t * t * t))).
    - intros t _. auto_derive; [trivial|]. field.
    - intros t _. apply (ex_derive_continuous (fun t => u * u * u * u / 12 * (t * t * t * t))). auto_derive. trivial. }
  apply (norm_RInt_le (V := R_NormedModule) _ _ 0 1 _ _ ltac:(lra)) with (2 := I) (3 := G).
  intros t Ht. change (Rabs (cos (m * t) * (2 * cos (u * t) - 2 + u * t * (u * t))) <= u * u * u * u / 12 * (t * t * t * t)).
  rewrite Rabs_mult. pose proof (cos_fourth (u * t)) as C. pose proof (COS_bound (m * t)) as Cb.
  apply Rle_trans with (1 * (u * t * (u * t) * (u * t) * (u * t) / 12)).
  - apply Rmult_le_compat; [apply Rabs_pos|apply Rabs_pos|apply Rabs_le; lra|exact C].
  - right. field.
Qed.

Lemma si_derive x : is_derive (fun x => RInt sincr 0 x) x (sincr x).
Proof.
  apply (is_derive_RInt sincr (fun x => RInt sincr 0 x) 0 x); [|apply sincr_cont].
  exists (mkposreal 1 ltac:(lra)). intros y _. apply (RInt_correct (V := R_CompleteNormedModule)), sincr_int.
Qed.

(** One panel. *)
Lemma simpson_panel m s : 0 <= s ->
  Rabs (RInt sincr (m - s) (m + s) - s / 3 * (sincr (m - s) + 4 * sincr m + sincr (m + s))) <= 2 / 225 * (s * s * s * s * s).
Proof.
  intros Hs. set (F := fun x => RInt sincr 0 x).
  assert (E : RInt sincr (m - s) (m + s) = F (m + s) - F (m - s)).
  { unfold F. pose proof (RInt_Chasles sincr 0 (m - s) (m + s) (sincr_int _ _) (sincr_int _ _)) as Ch.
    change (RInt sincr 0 (m - s) + RInt sincr (m - s) (m + s) = RInt sincr 0 (m + s)) in Ch. lra. }
  rewrite E. pose proof (second_diff m s) as Sd. assert (HF : forall x, is_derive F x (sincr x)) by (intros x; apply si_derive). clearbody F.
  assert (Der : forall u, is_derive (fun u => F (m + u) - F (m - u) - 2 * u * sincr m + u * u * u * (csec m / 3)) u
    (sincr (m + u) + sincr (m - u) - 2 * sincr m + u * u * csec m)).
  { intros u. auto_derive.
    - split; [exists (sincr (m + u)); apply HF|]. split; [exists (sincr (m - u)); apply HF|trivial].
    - rewrite !(is_derive_unique (fun x => F x) _ _ (HF _)). change (m + - u) with (m - u). field. }
  assert (Bd : Rabs (F (m + s) - F (m - s) - 2 * s * sincr m + s * s * s * (csec m / 3)) <= s * s * s * s * s / 300).
  { apply Rabs_le. split.
    - enough (0 <= s * s * s * s * s / 300 + (F (m + s) - F (m - s) - 2 * s * sincr m + s * s * s * (csec m / 3))) by lra.
      apply (mono_0 (fun u => u * u * u * u * u / 300 + (F (m + u) - F (m - u) - 2 * u * sincr m + u * u * u * (csec m / 3)))
        (fun u => u * u * u * u / 60 + (sincr (m + u) + sincr (m - u) - 2 * sincr m + u * u * csec m))); [| | |exact Hs].
      + intros u. apply (is_derive_plus (V := R_NormedModule) (fun u => u * u * u * u * u / 300)); [|apply Der]. auto_derive; [trivial|field].
      + intros u _. pose proof (second_diff m u) as S. apply Rabs_le_between in S. lra.
      + rewrite Rplus_0_r, Rminus_0_r. lra.
    - enough (0 <= s * s * s * s * s / 300 - (F (m + s) - F (m - s) - 2 * s * sincr m + s * s * s * (csec m / 3))) by lra.
      apply (mono_0 (fun u => u * u * u * u * u / 300 - (F (m + u) - F (m - u) - 2 * u * sincr m + u * u * u * (csec m / 3)))
        (fun u => u * u * u * u / 60 - (sincr (m + u) + sincr (m - u) - 2 * sincr m + u * u * csec m))); [| | |exact Hs].
      + intros u. apply (is_derive_minus (V := R_NormedModule) (fun u => u * u * u * u * u / 300)); [|apply Der]. auto_derive; [trivial|field].
      + intros u _. pose proof (second_diff m u) as S. apply Rabs_le_between in S. lra.
      + rewrite Rplus_0_r, Rminus_0_r. lra. }
  set (A := sincr (m + s) + sincr (m - s) - 2 * sincr m) in *.
  replace (F (m + s) - F (m - s) - s / 3 * (sincr (m - s) + 4 * sincr m + sincr (m + s)))
    with ((F (m + s) - F (m - s) - 2 * s * sincr m + s * s * s * (csec m / 3)) - s / 3 * (A + s * s * csec m)) by (unfold A; field).
  apply Rle_trans with (1 := Rabs_triang _ _). rewrite Rabs_Ropp, Rabs_mult, (Rabs_pos_eq (s / 3)) by lra.
  assert (s / 3 * Rabs (A + s * s * csec m) <= s / 3 * (s * s * s * s / 60)) by (apply Rmult_le_compat_l; [lra|exact Sd]). lra.
Qed.

(** The composite rule up to 2 n s. *)
Lemma simpson_si s n : 0 <= s ->
  Rabs (sine_integral (2 * INR n * s) - rsum n (fun i => s / 3 * (sincr (2 * INR i * s) + 4 * sincr ((2 * INR i + 1) * s) + sincr ((2 * INR i + 2) * s))))
  <= INR n * (2 / 225 * (s * s * s * s * s)).
Proof.
  intros Hs. unfold sine_integral. rewrite sincr_RInt. induction n as [|n IH].
  - cbn [rsum INR]. replace (2 * 0 * s) with 0 by ring. rewrite RInt_point. change (zero : R) with 0. rewrite Rminus_0_r, Rabs_R0. lra.
  - cbn [rsum]. rewrite S_INR. rewrite <- (RInt_Chasles sincr 0 (2 * INR n * s) (2 * (INR n + 1) * s)) by apply sincr_int.
    pose proof (simpson_panel ((2 * INR n + 1) * s) s Hs) as P. replace ((2 * INR n + 1) * s - s) with (2 * INR n * s) in P by ring.
    replace ((2 * INR n + 1) * s + s) with (2 * (INR n + 1) * s) in P by ring. replace ((2 * INR n + 2) * s) with (2 * (INR n + 1) * s) by ring.
    change (plus (RInt sincr 0 (2 * INR n * s)) (RInt sincr (2 * INR n * s) (2 * (INR n + 1) * s))) with (RInt sincr 0 (2 * INR n * s) + RInt sincr (2 * INR n * s) (2 * (INR n + 1) * s)).
    apply Rabs_le_between in P. apply Rabs_le_between in IH. apply Rabs_le. lra.
Qed.

(** First-order behaviour between the nodes. *)
Lemma sincr_le_1 t : Rabs (sincr t) <= 1.
Proof.
  rewrite <- sincr_abs. pose proof (Rabs_pos t) as P. destruct P as [P|P]; [|rewrite <- P, sincr_0, Rabs_R1; lra].
  rewrite sincr_n0 by lra. destruct (sin_near (Rabs t) ltac:(lra)) as [L U]. pose proof (SIN_bound (Rabs t)) as S. set (u := Rabs t) in *.
  unfold Rdiv. rewrite Rabs_mult, (Rabs_pos_eq (/ u)) by (left; apply Rinv_0_lt_compat; lra).
  apply Rmult_le_reg_r with u; [lra|]. rewrite Rmult_assoc, Rinv_l by lra. rewrite Rmult_1_r, Rmult_1_l. apply Rabs_le. split; [|lra].
  destruct (Rle_lt_dec u 2); [nra|lra].
Qed.
Lemma si_lip x y : Rabs (sine_integral y - sine_integral x) <= Rabs (y - x).
Proof.
  unfold sine_integral. rewrite !sincr_RInt.
  assert (E : RInt sincr 0 y - RInt sincr 0 x = RInt sincr x y).
  { pose proof (RInt_Chasles sincr 0 x y (sincr_int _ _) (sincr_int _ _)) as Ch. change (RInt sincr 0 x + RInt sincr x y = RInt sincr 0 y) in Ch. lra. }
  rewrite E.
  rewrite <- (Rmult_1_r (Rabs (y - x))). apply (norm_RInt_le_const_abs (V := R_NormedModule) sincr x y).
  - intros t _. apply sincr_le_1.
  - apply (RInt_correct (V := R_CompleteNormedModule)), sincr_int.
Qed.
Lemma si_step x u : Rabs (sine_integral (x + u) - sine_integral x - u * sincr x) <= u * u / 4.
Proof.
  unfold sine_integral. rewrite !sincr_RInt. set (F := fun x => RInt sincr 0 x). change (Rabs (F (x + u) - F x - u * sincr x) <= u * u / 4).
  assert (HF : forall x, is_derive F x (sincr x)) by (intros y; apply si_derive). clearbody F.
  assert (K : forall e g : R, (e = 1 \/ e = -1) -> (g = 1 \/ g = -1) -> forall w, 0 <= w -> 0 <= w * w / 4 + g * (F (x + e * w) - F x - e * w * sincr x)).
  { intros e g He Hg w Hw.
    apply (mono_0 (fun w => w * w / 4 + g * (F (x + e * w) - F x - e * w * sincr x)) (fun w => w / 2 + g * (e * (sincr (x + e * w) - sincr x)))); [| | |exact Hw].
    - intros v. auto_derive; [exists (sincr (x + e * v)); apply HF|]. rewrite (is_derive_unique (fun x => F x) _ _ (HF _)). field.
    - intros v Hv. pose proof (sincr_lip x (x + e * v)) as L. replace (x + e * v - x) with (e * v) in L by ring.
      assert (A : Rabs (e * v) = v) by (destruct He as [-> | ->]; [rewrite Rmult_1_l; apply Rabs_pos_eq, Hv|replace (-1 * v) with (- v) by ring; rewrite Rabs_Ropp; apply Rabs_pos_eq, Hv]).
      rewrite A in L. apply Rabs_le_between in L. destruct He as [-> | ->], Hg as [-> | ->]; lra.
    - cbv beta. replace (x + e * 0) with x by ring. lra. }
  destruct (Rle_lt_dec 0 u) as [H|H].
  - pose proof (K 1 1 ltac:(lra) ltac:(lra) u H) as K1. pose proof (K 1 (-1) ltac:(lra) ltac:(lra) u H) as K2. replace (1 * u) with u in K1, K2 by ring. apply Rabs_le. lra.
  - pose proof (K (-1) 1 ltac:(lra) ltac:(lra) (- u) ltac:(lra)) as K1. pose proof (K (-1) (-1) ltac:(lra) ltac:(lra) (- u) ltac:(lra)) as K2.
    replace (-1 * - u) with u in K1, K2 by ring. apply Rabs_le. lra.
Qed.

(** Linear interpolation between a and a + h. *)
Lemma si_chord a h t : 0 <= t <= 1 ->
  Rabs ((1 - t) * sine_integral a + t * sine_integral (a + h) - sine_integral (a + t * h)) <= h * h / 16.
Proof.
  intros Ht. set (m := a + t * h). pose proof (si_step m (- (t * h))) as A. pose proof (si_step m ((1 - t) * h)) as B.
  replace (m + - (t * h)) with a in A by (unfold m; ring). replace (m + (1 - t) * h) with (a + h) in B by (unfold m; ring).
  set (p := sine_integral a) in *. set (r := sine_integral (a + h)) in *. set (q := sine_integral m) in *. set (c := sincr m) in *. clearbody p q r c. clear m.
  replace ((1 - t) * p + t * r - q) with ((1 - t) * (p - q - - (t * h) * c) + t * (r - q - (1 - t) * h * c)) by ring.
  apply Rle_trans with (1 := Rabs_triang _ _). rewrite !Rabs_mult, (Rabs_pos_eq (1 - t)), (Rabs_pos_eq t) by lra.
  assert (A' : (1 - t) * Rabs (p - q - - (t * h) * c) <= (1 - t) * (- (t * h) * - (t * h) / 4)) by (apply Rmult_le_compat_l; [lra|exact A]).
  assert (B' : t * Rabs (r - q - (1 - t) * h * c) <= t * ((1 - t) * h * ((1 - t) * h) / 4)) by (apply Rmult_le_compat_l; [lra|exact B]).
  apply Rle_trans with (t * (1 - t) * (h * h / 4)); [lra|]. pose proof (Rle_0_sqr h) as H2. unfold Rsqr in H2.
  pose proof (Rle_0_sqr (t - 1 / 2)) as T2. unfold Rsqr in T2.
  apply Rle_trans with (1 / 4 * (h * h / 4)); [|lra]. apply Rmult_le_compat_r; lra.
Qed.
