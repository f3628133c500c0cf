(** * C110: changing the coefficients of a running filter. *)

From Coq Require Import ZArith Reals Lra Lia Psatz Arith Bool List.
From Flocq Require Import Core.
From Verif Require Import Base F32 F32Lemmas F32Exact Num M_FloatMath M_Biquad S_Biquad S_BiquadF32 S_Sweep P_DelayNum P_Biquad P_Butterworth P_Sweep T_Biquad.
Local Open Scope R_scope.

(** Every sample acts through the coefficients that were in force when it was processed, also on the two
    outputs after it: no setting is applied to samples before it. *)
Theorem C110_coefficients_in_force : forall (c : nat -> coeffs R) (x : nat -> R),
  let y := response_var (bq_new (c 0%nat)) c x in
  forall n, y n = b0 (c n) * x n + ago 1 (fun i => b1 (c i) * x i - a1 (c i) * y i) n + ago 2 (fun i => b2 (c i) * x i - a2 (c i) * y i) n.
Proof.
  intros c x y n. unfold y at 1. rewrite var_out. destruct n as [|n].
  - unfold ago. cbn [Nat.ltb Nat.leb after_var bq_new z1]. rewrite nint_R. ring.
  - rewrite var_z1. fold y. unfold ago at 1. replace (Nat.ltb (S n) 1) with false by reflexivity. replace (S n - 1)%nat with n by lia.
    destruct n as [|n].
    + unfold ago. cbn [Nat.ltb Nat.leb after_var bq_new z2]. rewrite nint_R. ring.
    + rewrite var_z2. fold y. unfold ago. replace (Nat.ltb (S (S n)) 2) with false by reflexivity. replace (S (S n) - 2)%nat with n by lia. ring.
Qed.
Print Assumptions C110_coefficients_in_force.

(** Any schedule of coefficients with |a1| + |a2| <= s^2 < 1 keeps the output bounded. *)
Theorem C110_small_feedback_bounded : forall (c : nat -> coeffs R) (x : nat -> R) s B M,
  0 < s < 1 -> (forall n, Rabs (a1 (c n)) + Rabs (a2 (c n)) <= s * s) -> (forall n, forward_weight (c n) <= B) -> (forall n, Rabs (x n) <= M) ->
  forall n, Rabs (response_var (bq_new (c 0%nat)) c x n) <= B * M * (1 + / (s * (1 - s))).
Proof.
  intros c x s B M Hs Ha Hb Hx n. rewrite var_out. set (b := bq_new (c 0%nat)).
  assert (F0 : forall e : coeffs R, 0 <= forward_weight e).
  { intros e. unfold forward_weight. pose proof (Rabs_pos (b0 e)). pose proof (Rabs_pos (b1 e)). pose proof (Rabs_pos (b2 e)). lra. }
  assert (B0 : 0 <= B) by (pose proof (F0 (c O)); pose proof (Hb O); lra).
  assert (M0 : 0 <= M) by (pose proof (Rabs_pos (x O)); pose proof (Hx O); lra).
  assert (BM : 0 <= B * M) by nra. assert (I0 : 0 < / (s * (1 - s))) by (apply Rinv_0_lt_compat; nra).
  pose proof (var_shrinks b c x s B M Hs Ha Hb Hx) as V. unfold Rdiv at 2 in V. lapply V.
  2:{ unfold b. cbn [bq_new z1 z2]. rewrite nint_R, Rabs_R0. unfold Rdiv. rewrite Rmult_0_l, Rplus_0_l. nra. }
  clear V. intros V. specialize (V n). unfold Rdiv in V.
  assert (0 <= Rabs (z2 (after_var b c x n)) * / s) by (apply Rmult_le_pos; [apply Rabs_pos|left; apply Rinv_0_lt_compat; lra]).
  assert (Rabs (b0 (c n) * x n) <= B * M).
  { rewrite Rabs_mult. apply Rmult_le_compat; auto using Rabs_pos. specialize (Hb n). unfold forward_weight in Hb.
    pose proof (Rabs_pos (b1 (c n))). pose proof (Rabs_pos (b2 (c n))). lra. }
  eapply Rle_trans; [apply Rabs_triang|]. lra.
Qed.
Print Assumptions C110_small_feedback_bounded.

(** ** The designs *)
Section Shape.
Variable MO : MathOps R.
Hypothesis Hpow : exact_powi MO.
Variables (fc q sr : R) (c : coeffs R).
Hypothesis Hfc : 0 < fc.
Hypothesis Hq : 0 < q.
Hypothesis Hsr : 0 < sr.
Hypothesis Hc : plain_design fc q sr c.
Let k := design_k fc sr.
Let s := k / q.
Let G := k * k.
Let D := 1 + s + G.

Lemma plain_pos : 0 < k /\ 0 < s /\ 0 < G /\ 0 < D.
Proof.
  assert (K : 0 < k) by (apply design_k_pos; assumption). assert (S : 0 < s) by (apply Rdiv_lt_0_compat; assumption).
  assert (0 < G) by (unfold G; nra). unfold D. repeat split; lra.
Qed.
Lemma plain_feedback : a1 c = 2 * (G - 1) / D /\ a2 c = (1 - s + G) / D.
Proof.
  destruct Hc as [->|[->|[->| ->]]].
  - rewrite (lowpass_form MO Hpow fc q sr) by assumption. split; reflexivity.
  - rewrite (highpass_form MO Hpow fc q sr) by assumption. split; reflexivity.
  - rewrite (allpass_form MO Hpow fc q sr) by assumption. split; reflexivity.
  - rewrite (notch_form MO Hpow fc q sr) by assumption. split; reflexivity.
Qed.
Lemma div_D u : u / D * D = u.
Proof. destruct plain_pos as (_ & _ & _ & HD). field. lra. Qed.
Lemma div_D_le u v : Rabs u <= v * D -> Rabs (u / D) <= v.
Proof.
  intros H. destruct plain_pos as (_ & _ & _ & HD). apply Rmult_le_reg_r with D; [exact HD|].
  rewrite <- (Rabs_pos_eq D) at 2 by lra. rewrite <- Rabs_mult, div_D. exact H.
Qed.
Lemma plain_forward : forward_weight c <= 4.
Proof.
  destruct plain_pos as (K & S & GG & HD).
  assert (A1 : Rabs (2 * (G - 1) / D) <= 2) by (apply div_D_le; unfold D; apply Rabs_le; lra).
  assert (A2 : Rabs ((1 - s + G) / D) <= 1) by (apply div_D_le; unfold D; apply Rabs_le; lra).
  assert (A3 : Rabs (G / D) <= 1) by (apply div_D_le; unfold D; apply Rabs_le; lra).
  assert (A4 : Rabs (2 * G / D) <= 2) by (apply div_D_le; unfold D; apply Rabs_le; lra).
  assert (A5 : Rabs (1 / D) <= 1) by (apply div_D_le; unfold D; apply Rabs_le; lra).
  assert (A6 : Rabs (- 2 / D) <= 2) by (apply div_D_le; unfold D; apply Rabs_le; lra).
  assert (A7 : Rabs ((1 + G) / D) <= 1) by (apply div_D_le; unfold D; apply Rabs_le; lra).
  unfold forward_weight. destruct Hc as [->|[->|[->| ->]]].
  - rewrite (lowpass_form MO Hpow fc q sr) by assumption. cbn [b0 b1 b2]. fold k; fold s; fold G; fold D. lra.
  - rewrite (highpass_form MO Hpow fc q sr) by assumption. cbn [b0 b1 b2]. fold k; fold s; fold G; fold D. lra.
  - rewrite (allpass_form MO Hpow fc q sr) by assumption. cbn [b0 b1 b2]. fold k; fold s; fold G; fold D. rewrite Rabs_R1. lra.
  - rewrite (notch_form MO Hpow fc q sr) by assumption. cbn [b0 b1 b2]. fold k; fold s; fold G; fold D. lra.
Qed.
Lemma plain_detune : G - 1 = s * detune k q.
Proof. destruct plain_pos as (K & _). unfold detune, s, G. field. split; lra. Qed.
Lemma plain_jury : jury c.
Proof.
  destruct plain_pos as (K & S & GG & HD). destruct plain_feedback as [E1 E2].
  pose proof (jury_shape s G (b0 c) (b1 c) (b2 c) S GG) as J. unfold jury in *. cbn [a1 a2] in J. rewrite E1, E2. exact J.
Qed.

(** The state an impulse leaves behind is seen by every functional z1 + l z2 with |l| (1 - a2) < |a1| of the sign of a1. *)
Lemma plain_start l : a1 c <> 0 -> 0 <= l * a1 c -> Rabs l * (1 - a2 c) < Rabs (a1 c) -> l <> 0 ->
  (b1 c - a1 c * b0 c) + l * (b2 c - a2 c * b0 c) <> 0.
Proof.
  intros N1 Sg Lt Nl. destruct plain_pos as (K & S & GG & HD). destruct plain_feedback as [E1 E2]. destruct plain_jury as [[J1 J2] [J3 J4]].
  assert (P0 : 0 < 1 - a2 c) by lra.
  assert (X : forall u v, 0 < u -> 0 <= v -> u * a1 c + v * l <> 0).
  { intros u v Hu Hv E. destruct (Rle_or_lt 0 (a1 c)) as [Z|Z].
    - assert (0 < a1 c) by lra. assert (0 <= l) by nra. nra.
    - assert (l <= 0) by nra. nra. }
  assert (Bl : - Rabs (a1 c) < l * (1 - a2 c) < Rabs (a1 c)).
  { apply Rabs_lt_inv. rewrite Rabs_mult, (Rabs_pos_eq (1 - a2 c)) by lra. exact Lt. }
  destruct Hc as [E|[E|[E|E]]].
  - assert (W : b1 c = 2 * b0 c /\ b2 c = b0 c /\ 0 < b0 c).
    { rewrite E, (lowpass_form MO Hpow fc q sr) by assumption. cbn [b0 b1 b2]. fold k; fold s; fold G; fold D.
      split; [field; lra|]. split; [reflexivity|]. apply Rdiv_lt_0_compat; lra. }
    destruct W as (-> & -> & W). intros Z. assert (Z' : b0 c * ((2 - a1 c) + l * (1 - a2 c)) = 0) by lra. apply Rmult_integral in Z'. destruct Z' as [Z'|Z']; [lra|].
    destruct (Rle_or_lt 0 (a1 c)) as [Y|Y]; [rewrite (Rabs_pos_eq (a1 c) Y) in Bl; assert (0 <= l) by nra; nra|rewrite (Rabs_left (a1 c) Y) in Bl; lra].
  - assert (W : b1 c = - 2 * b0 c /\ b2 c = b0 c /\ 0 < b0 c).
    { rewrite E, (highpass_form MO Hpow fc q sr) by assumption. cbn [b0 b1 b2]. fold k; fold s; fold G; fold D.
      split; [field; lra|]. split; [reflexivity|]. apply Rdiv_lt_0_compat; lra. }
    destruct W as (-> & -> & W). intros Z. assert (Z' : b0 c * ((- 2 - a1 c) + l * (1 - a2 c)) = 0) by lra. apply Rmult_integral in Z'. destruct Z' as [Z'|Z']; [lra|].
    destruct (Rle_or_lt 0 (a1 c)) as [Y|Y]; [rewrite (Rabs_pos_eq (a1 c) Y) in Bl; lra|rewrite (Rabs_left (a1 c) Y) in Bl; assert (l <= 0) by nra; nra].
  - assert (W : b1 c = a1 c /\ b2 c = 1 /\ b0 c = a2 c).
    { rewrite E, (allpass_form MO Hpow fc q sr) by assumption. cbn [b0 b1 b2 a1 a2]. auto. }
    destruct W as (-> & -> & ->). replace (a1 c - a1 c * a2 c + l * (1 - a2 c * a2 c)) with ((1 - a2 c) * (1 * a1 c + (1 + a2 c) * l)) by ring.
    intros Z. apply Rmult_integral in Z. destruct Z as [Z|Z]; [lra|]. apply (X 1 (1 + a2 c)); [lra|lra|exact Z].
  - assert (W : b1 c = a1 c /\ b2 c = b0 c /\ 0 < b0 c < 1).
    { rewrite E, (notch_form MO Hpow fc q sr) by assumption. cbn [b0 b1 b2 a1 a2]. fold k; fold s; fold G; fold D.
      split; [reflexivity|]. split; [reflexivity|]. split; [apply Rdiv_lt_0_compat; lra|].
      apply Rmult_lt_reg_r with D; [exact HD|]. rewrite div_D. unfold D. lra. }
    destruct W as (-> & -> & W). replace (a1 c - a1 c * b0 c + l * (b0 c - a2 c * b0 c)) with ((1 - b0 c) * a1 c + (b0 c * (1 - a2 c)) * l) by ring.
    apply X; [lra|]. nra.
Qed.
End Shape.

(** Two designs in turn, a new one before every sample: if one lies below and the other above a quarter of the
    sample rate, far enough or sharp enough that the product of their detunings is below -1, a single unit impulse makes the output
    exceed every bound, although each design by itself is stable (C30). *)
Theorem C110_alternating_unbounded_refuted : forall (MO : MathOps R) fc q fc' q' sr c c',
  exact_powi MO -> 0 < fc -> 0 < q -> 0 < fc' -> 0 < q' -> 0 < sr -> plain_design fc q sr c -> plain_design fc' q' sr c' ->
  detune (design_k fc sr) q * detune (design_k fc' sr) q' < -1 ->
  forall M, exists n, M < Rabs (response_var (bq_new c) (alternate c c') unit_impulse n).
Proof.
  intros MO fc q fc' q' sr c c' Hp Hf Hq Hf' Hq' Hs Pc Pc' Hd.
  destruct (plain_pos fc q sr Hf Hq Hs) as (K & S & GG & HD). destruct (plain_pos fc' q' sr Hf' Hq' Hs) as (K' & S' & GG' & HD').
  destruct (plain_feedback MO Hp fc q sr c Hf Hq Hs Pc) as [E1 E2]. destruct (plain_feedback MO Hp fc' q' sr c' Hf' Hq' Hs Pc') as [E1' E2'].
  destruct (plain_jury MO Hp fc q sr c Hf Hq Hs Pc) as [[J1 J2] _]. destruct (plain_jury MO Hp fc' q' sr c' Hf' Hq' Hs Pc') as [[J1' J2'] _].
  pose proof (plain_detune fc q sr Hf Hq Hs) as T. pose proof (plain_detune fc' q' sr Hf' Hq' Hs) as T'.
  set (k := design_k fc sr) in *. set (k' := design_k fc' sr) in *. set (s := k / q) in *. set (s' := k' / q') in *. set (G := k * k) in *. set (G' := k' * k') in *.
  set (t := detune k q) in *. set (t' := detune k' q') in *.
  set (D := 1 + s + G) in *. set (D' := 1 + s' + G') in *.
  assert (U : 1 - a2 c = 2 * s / D) by (rewrite E2; unfold D; field; unfold D in HD; lra).
  assert (U' : 1 - a2 c' = 2 * s' / D') by (rewrite E2'; unfold D'; field; unfold D' in HD'; lra).
  assert (V : a1 c * a1 c' = 2 * s / D * (2 * s' / D') * (t * t')) by (rewrite E1, E1', T, T'; field; split; lra).
  assert (W : 0 < 2 * s / D * (2 * s' / D')) by (apply Rmult_lt_0_compat; apply Rdiv_lt_0_compat; lra).
  assert (Big : a1 c * a1 c' < - ((1 - a2 c) * (1 - a2 c'))) by (rewrite V, U, U'; nra).
  assert (P1 : -1 < a2 c * a2 c') by nra.
  destruct (alt_root (a2 c + a2 c' - a1 c * a1 c') (a2 c * a2 c') P1 ltac:(nra)) as (lam & Hl & Hr).
  apply (alt_unbounded c c' lam Hl J2 Hr). cbv zeta.
  set (l := a1 c / (lam - a2 c)).
  assert (N1 : a1 c <> 0) by (intros Z; rewrite Z, Rmult_0_l in Big; nra).
  assert (Il : 0 < / (lam - a2 c)) by (apply Rinv_0_lt_compat; lra).
  assert (El : l = a1 c * / (lam - a2 c)) by reflexivity.
  assert (St : z1 (after_var (bq_new c) (alternate c c') unit_impulse 1) = b1 c - a1 c * b0 c /\ z2 (after_var (bq_new c) (alternate c c') unit_impulse 1) = b2 c - a2 c * b0 c).
  { rewrite var_z1, var_z2, var_out. cbn [after_var bq_new z1 z2 alternate Nat.even unit_impulse]. rewrite !nint_R. split; ring. }
  destruct St as [-> ->]. apply (plain_start MO Hp fc q sr c Hf Hq Hs Pc).
  - exact N1.
  - rewrite El. replace (a1 c * / (lam - a2 c) * a1 c) with (a1 c * a1 c * / (lam - a2 c)) by ring. apply Rmult_le_pos; [nra|lra].
  - rewrite El, Rabs_mult, (Rabs_pos_eq (/ (lam - a2 c))) by lra. pose proof (Rabs_pos_lt _ N1).
    rewrite Rmult_assoc. rewrite <- Rmult_1_r. apply Rmult_lt_compat_l; [assumption|].
    apply Rmult_lt_reg_l with (lam - a2 c); [lra|]. rewrite <- Rmult_assoc, Rinv_r by lra. lra.
  - rewrite El. apply Rmult_integral_contrapositive_currified; lra.
Qed.
Print Assumptions C110_alternating_unbounded_refuted.

(** Settings that all keep to |q (k - 1/k)| <= th < 1 can be mixed and swept in any way: one constant bounds the
    output of every schedule and every input. *)
Theorem C110_near_quarter_bounded : forall (MO : MathOps R) sr kmin kmax qmin qmax th,
  exact_powi MO -> 0 < sr -> 0 < kmin -> 0 < qmin -> 0 <= th < 1 ->
  exists K, forall (fc q : nat -> R) (c : nat -> coeffs R),
    (forall n, 0 < fc n /\ kmin <= design_k (fc n) sr <= kmax /\ qmin <= q n <= qmax /\ Rabs (detune (design_k (fc n) sr) (q n)) <= th /\
       plain_design (fc n) (q n) sr (c n)) ->
    forall M x, (forall n, Rabs (x n) <= M) -> forall n, Rabs (response_var (bq_new (c 0%nat)) c x n) <= K * M.
Proof.
  intros MO sr kmin kmax qmin qmax th Hp Hs Hk Hq Ht.
  destruct (Rle_or_lt kmin kmax) as [Lk|Lk].
  2:{ exists 0. intros fc q c H. destruct (H O) as (_ & H1 & _). lra. }
  destruct (Rle_or_lt qmin qmax) as [Lq|Lq].
  2:{ exists 0. intros fc q c H. destruct (H O) as (_ & _ & H1 & _). lra. }
  set (Dm := 1 + kmax / qmin + kmax * kmax). assert (I1 : 0 < kmax / qmin) by (apply Rdiv_lt_0_compat; lra). assert (Dp : 1 < Dm) by (unfold Dm; nra).
  set (sm := kmin / qmax). assert (I2 : 0 < sm) by (apply Rdiv_lt_0_compat; lra).
  set (g := Rmin (2 * sm * (1 - th)) (Rmin 4 (4 * (kmin * kmin)))). assert (G0 : 0 < g).
  { unfold g. repeat apply Rmin_pos; [|lra|nra]. assert (0 < sm * (1 - th)) by (apply Rmult_lt_0_compat; lra). lra. }
  set (rho := Rmax (/ 4) (1 - g / Dm)).
  assert (GD : 0 < g / Dm) by (apply Rdiv_lt_0_compat; lra).
  assert (R0 : / 4 <= rho < 1) by (unfold rho; split; [apply Rmax_l|apply Rmax_lub_lt; lra]).
  assert (Hs2 : 0 < sqrt rho < 1). { split; [apply sqrt_lt_R0; lra|]. rewrite <- sqrt_1. apply sqrt_lt_1; lra. }
  exists (4 * (1 + / (sqrt rho * (1 - sqrt rho)))). intros fc q c H M x Hx n.
  replace (4 * (1 + / (sqrt rho * (1 - sqrt rho))) * M) with (4 * M * (1 + / (sqrt rho * (1 - sqrt rho)))) by ring.
  apply C110_small_feedback_bounded; [exact Hs2| | |exact Hx].
  2:{ intros i. destruct (H i) as (F0 & _ & Q0 & _ & P0). apply (plain_forward MO Hp (fc i) (q i) sr); auto. lra. }
  clear x M Hx n. intros i. rewrite sqrt_sqrt by lra. destruct (H i) as (F0 & K0 & Q0 & T0 & P0).
  assert (Q1 : 0 < q i) by lra.
  destruct (plain_pos (fc i) (q i) sr F0 Q1 Hs) as (K & S & GG & HD).
  destruct (plain_feedback MO Hp (fc i) (q i) sr (c i) F0 Q1 Hs P0) as [E1 E2].
  pose proof (plain_detune (fc i) (q i) sr F0 Q1 Hs) as T.
  set (k := design_k (fc i) sr) in *. set (s := k / q i) in *. set (G := k * k) in *. set (D := 1 + s + G) in *.
  apply Rle_trans with (1 - g / Dm); [|unfold rho; apply Rmax_r].
  assert (Sl : sm <= s).
  { unfold sm, s, Rdiv. apply Rmult_le_compat; [lra|left; apply Rinv_0_lt_compat; lra|lra|]. apply Rinv_le_contravar; lra. }
  assert (Dl : D <= Dm).
  { unfold D, Dm. assert (s <= kmax / qmin); [|unfold G; nra]. unfold s, Rdiv. apply Rmult_le_compat; [lra|left; apply Rinv_0_lt_compat; lra|lra|]. apply Rinv_le_contravar; lra. }
  assert (Gl : kmin * kmin <= G) by (unfold G; nra).
  assert (Ab : Rabs (G - 1) <= s * th) by (rewrite T, Rabs_mult, (Rabs_pos_eq s) by lra; apply Rmult_le_compat_l; [lra|exact T0]).
  assert (g1 : g <= 2 * sm * (1 - th)) by apply Rmin_l.
  assert (g2 : g <= 4) by (eapply Rle_trans; [apply Rmin_r|apply Rmin_l]).
  assert (g3 : g <= 4 * (kmin * kmin)) by (eapply Rle_trans; [apply Rmin_r|apply Rmin_r]).
  apply Rle_trans with (1 - g / D).
  2:{ assert (g / Dm <= g / D); [|lra]. unfold Rdiv. apply Rmult_le_compat_l; [lra|]. apply Rinv_le_contravar; lra. }
  rewrite E1, E2. apply Rmult_le_reg_r with D; [exact HD|]. rewrite Rmult_plus_distr_r, Rmult_minus_distr_r.
  rewrite <- (Rabs_pos_eq D) at 2 4 by lra. rewrite <- !Rabs_mult.
  replace (2 * (G - 1) / D * D) with (2 * (G - 1)) by (field; lra). replace ((1 - s + G) / D * D) with (1 - s + G) by (field; lra).
  replace (g / D * D) with g by (field; lra). rewrite Rabs_mult, (Rabs_pos_eq 2) by lra. unfold D.
  assert (M1 : sm * (1 - th) <= s * (1 - th)) by (apply Rmult_le_compat_r; lra).
  destruct (Rle_or_lt 0 (1 - s + G)) as [Z|Z].
  - rewrite (Rabs_pos_eq _ Z). lra.
  - rewrite (Rabs_left _ Z). destruct (Rle_or_lt 0 (G - 1)) as [Y|Y]; [rewrite (Rabs_pos_eq _ Y)|rewrite (Rabs_left _ Y)]; lra.
Qed.
Print Assumptions C110_near_quarter_bounded.

Section Turns.
Variables (c d : coeffs R) (x : nat -> R) (M : R).
Hypothesis Fc : forward_weight c <= 4.
Hypothesis Fd : forward_weight d <= 4.
Hypothesis Hx : forall n, Rabs (x n) <= M.
Let e := alternate c d.
Let y := response_var (bq_new c) e x.
Let f n := b0 (e n) * x n + ago 1 (fun i => b1 (e i) * x i) n + ago 2 (fun i => b2 (e i) * x i) n.

Lemma turn_input n : Rabs (f n) <= 12 * M.
Proof.
  assert (M0 : 0 <= M) by (pose proof (Rabs_pos (x O)); pose proof (Hx O); lra).
  assert (W : forall i, Rabs (b0 (e i) * x i) <= 4 * M /\ Rabs (b1 (e i) * x i) <= 4 * M /\ Rabs (b2 (e i) * x i) <= 4 * M).
  { intros i. rewrite !Rabs_mult. assert (V : forward_weight (e i) <= 4) by (unfold e, alternate; now destruct (Nat.even i)). unfold forward_weight in V.
    pose proof (Rabs_pos (b0 (e i))). pose proof (Rabs_pos (b1 (e i))). pose proof (Rabs_pos (b2 (e i))).
    repeat split; apply Rmult_le_compat; auto using Rabs_pos; lra. }
  unfold f, ago. eapply Rle_trans; [apply Rabs_triang|]. eapply Rle_trans; [apply Rplus_le_compat_r; apply Rabs_triang|].
  destruct (W n) as (W0 & _ & _). destruct (W (n - 1)%nat) as (_ & W1 & _). destruct (W (n - 2)%nat) as (_ & _ & W2).
  destruct (Nat.ltb n 1), (Nat.ltb n 2); rewrite ?Rabs_R0; lra.
Qed.
Lemma turn_0 : y 0%nat = f 0%nat.
Proof. pose proof (C110_coefficients_in_force e x 0%nat) as H. unfold f, ago in *. cbn [Nat.ltb Nat.leb] in *. exact H. Qed.
Lemma turn_1 : y 1%nat = f 1%nat - a1 c * y 0%nat.
Proof.
  pose proof (C110_coefficients_in_force e x 1%nat) as H. cbv zeta in H. change (e 0%nat) with c in H. fold y in H. unfold f, ago in *. cbn [Nat.ltb Nat.leb Nat.sub] in *.
  rewrite H. change (e 0%nat) with c. ring.
Qed.
Lemma turn_SS n : y (S (S n)) = f (S (S n)) - a1 (e (S n)) * y (S n) - a2 (e n) * y n.
Proof.
  pose proof (C110_coefficients_in_force e x (S (S n))) as H. cbv zeta in H. change (e 0%nat) with c in H. fold y in H. unfold f, ago in *.
  replace (Nat.ltb (S (S n)) 1) with false in * by reflexivity. replace (Nat.ltb (S (S n)) 2) with false in * by reflexivity.
  replace (S (S n) - 1)%nat with (S n) in * by lia. replace (S (S n) - 2)%nat with n in * by lia. rewrite H. ring.
Qed.

Let T := a2 c + a2 d - a1 c * a1 d.
Let P := a2 c * a2 d.
Let u (k : nat) : R := match k with O => f 0%nat | S j => f (2 * S j)%nat - a1 d * f (S (2 * j)) + a2 d * f (2 * j)%nat end.
Let Y (k : nat) : R := y (2 * k)%nat.

Lemma turn_even k : Y k = u k - T * ago 1 Y k - P * ago 2 Y k.
Proof.
  unfold Y. destruct k as [|[|k]].
  - unfold ago. cbn [Nat.ltb Nat.leb u Nat.mul Nat.add]. rewrite turn_0. ring.
  - unfold ago. cbn [Nat.ltb Nat.leb u Nat.mul Nat.add Nat.sub]. rewrite (turn_SS 0), turn_1, turn_0.
    change (e 1%nat) with d. change (e 0%nat) with c. unfold T. ring.
  - unfold ago. replace (Nat.ltb (S (S k)) 1) with false by reflexivity. replace (Nat.ltb (S (S k)) 2) with false by reflexivity.
    replace (S (S k) - 1)%nat with (S k) by lia. replace (S (S k) - 2)%nat with k by lia.
    cbn [u]. pose proof (alt_even c d k) as A0. pose proof (alt_odd c d k) as A1. pose proof (alt_even c d (S k)) as A2. pose proof (alt_odd c d (S k)) as A3. fold e in A0, A1, A2, A3.
    replace (2 * S (S k))%nat with (S (S (S (S (2 * k))))) by lia. replace (2 * S k)%nat with (S (S (2 * k))) in * by lia. set (n := (2 * k)%nat) in *.
    pose proof (turn_SS (S (S n))) as H4. pose proof (turn_SS (S n)) as H3. pose proof (turn_SS n) as H2. rewrite A3, A2 in H4. rewrite A2, A1 in H3. rewrite A1, A0 in H2.
    rewrite H4, H3. assert (Z : a1 d * y (S n) = f (S (S n)) - a2 c * y n - y (S (S n))) by lra.
    unfold T, P. replace (f (S (S (S (S n)))) - a1 d * (f (S (S (S n))) - a1 c * y (S (S n)) - a2 d * y (S n)) - a2 c * y (S (S n)))
      with (f (S (S (S (S n)))) - a1 d * f (S (S (S n))) + a1 c * a1 d * y (S (S n)) + a2 d * (a1 d * y (S n)) - a2 c * y (S (S n))) by ring.
    rewrite Z. ring.
Qed.

Lemma turn_response k : Y k = response (bq_new (BC 1 0 0 T P)) u k.
Proof.
  induction k as [k IH] using lt_wf_ind. rewrite turn_even. rewrite (C27_biquad_recurrence (BC 1 0 0 T P) u). cbn [b0 b1 b2 a1 a2].
  assert (A : forall j, (1 <= j)%nat -> ago j Y k = ago j (response (bq_new (BC 1 0 0 T P)) u) k).
  { intros j Hj. unfold ago. destruct (Nat.ltb_spec k j) as [L|L]; [reflexivity|]. apply IH. lia. }
  rewrite (A 1%nat), (A 2%nat) by lia. ring.
Qed.
End Turns.

(** The limit is sharp: when the product is above -1, which is always so when both lie on the same side of a quarter of
    the sample rate, the two designs in turn keep the output bounded. *)
Theorem C110_alternating_bounded : forall (MO : MathOps R) fc q fc' q' sr c c',
  exact_powi MO -> 0 < fc -> 0 < q -> 0 < fc' -> 0 < q' -> 0 < sr -> plain_design fc q sr c -> plain_design fc' q' sr c' ->
  -1 < detune (design_k fc sr) q * detune (design_k fc' sr) q' ->
  exists K, forall M x, (forall n, Rabs (x n) <= M) -> forall n, Rabs (response_var (bq_new c) (alternate c c') x n) <= K * M.
Proof.
  intros MO fc q fc' q' sr c c' Hp Hf Hq Hf' Hq' Hs Pc Pc' Hd.
  destruct (plain_pos fc q sr Hf Hq Hs) as (K & S & GG & HD). destruct (plain_pos fc' q' sr Hf' Hq' Hs) as (K' & S' & GG' & HD').
  destruct (plain_feedback MO Hp fc q sr c Hf Hq Hs Pc) as [E1 E2]. destruct (plain_feedback MO Hp fc' q' sr c' Hf' Hq' Hs Pc') as [E1' E2'].
  destruct (plain_jury MO Hp fc q sr c Hf Hq Hs Pc) as [[J1 J2] [J3 J4]]. destruct (plain_jury MO Hp fc' q' sr c' Hf' Hq' Hs Pc') as [[J1' J2'] [J3' J4']].
  pose proof (plain_detune fc q sr Hf Hq Hs) as T. pose proof (plain_detune fc' q' sr Hf' Hq' Hs) as T'.
  pose proof (plain_forward MO Hp fc q sr c Hf Hq Hs Pc) as Fc. pose proof (plain_forward MO Hp fc' q' sr c' Hf' Hq' Hs Pc') as Fc'.
  set (k := design_k fc sr) in *. set (k' := design_k fc' sr) in *. set (s := k / q) in *. set (s' := k' / q') in *. set (G := k * k) in *. set (G' := k' * k') in *.
  set (t := detune k q) in *. set (t' := detune k' q') in *.
  set (D := 1 + s + G) in *. set (D' := 1 + s' + G') in *.
  assert (U : 1 - a2 c = 2 * s / D) by (rewrite E2; unfold D; field; unfold D in HD; lra).
  assert (U' : 1 - a2 c' = 2 * s' / D') by (rewrite E2'; unfold D'; field; unfold D' in HD'; lra).
  assert (V : a1 c * a1 c' = 2 * s / D * (2 * s' / D') * (t * t')) by (rewrite E1, E1', T, T'; field; split; lra).
  assert (W : 0 < 2 * s / D * (2 * s' / D')) by (apply Rmult_lt_0_compat; apply Rdiv_lt_0_compat; lra).
  assert (Big : - ((1 - a2 c) * (1 - a2 c')) < a1 c * a1 c') by (rewrite V, U, U'; nra).
  clear U U' V W E1 E2 E1' E2' T T' Pc Pc' Hd. clearbody k k' s s' G G' t t' D D'.
  set (TT := a2 c + a2 c' - a1 c * a1 c'). set (PP := a2 c * a2 c').
  assert (Lw : a1 c * a1 c' < (1 + a2 c) * (1 + a2 c')).
  { apply Rle_lt_trans with (Rabs (a1 c * a1 c')); [apply Rle_abs|]. rewrite Rabs_mult.
    apply Rmult_le_0_lt_compat; auto using Rabs_pos; apply Rabs_def1; lra. }
  assert (J : jury (BC 1 0 0 TT PP)).
  { unfold jury. cbn [a1 a2]. unfold TT, PP. split; [split; nra|]. split; nra. }
  destruct (jury_bibo _ J) as (Kb & Kb0 & HB).
  set (A1 := 1 + Rabs (a1 c') + Rabs (a2 c')).
  set (Ke := Kb * (12 * A1)).
  assert (AA : Rabs (a2 c') < 1) by (apply Rabs_def1; lra).
  set (Ko := (12 + Rabs (a1 c) * Ke) / (1 - Rabs (a2 c'))).
  exists (Rmax Ke Ko). intros M x Hx.
  assert (M0 : 0 <= M) by (pose proof (Rabs_pos (x O)); pose proof (Hx O); lra).
  pose proof (Rabs_pos (a1 c')) as Pa. pose proof (Rabs_pos (a2 c')) as Pb. pose proof (Rabs_pos (a1 c)) as Pd.
  assert (A1p : 1 <= A1) by (unfold A1; lra).
  assert (Ev : forall j, Rabs (response_var (bq_new c) (alternate c c') x (2 * j)%nat) <= Ke * M).
  { intros j. pose proof (turn_response c c' x j) as R. cbv zeta in R. rewrite R. unfold Ke. rewrite Rmult_assoc.
    apply HB. intros i. pose proof (turn_input c c' x M Fc Fc' Hx) as I.
    set (f := fun n : nat => b0 (alternate c c' n) * x n + ago 1 (fun i : nat => b1 (alternate c c' i) * x i) n + ago 2 (fun i : nat => b2 (alternate c c' i) * x i) n) in *.
    destruct i as [|i]; cbn beta iota.
    - fold (f 0%nat). pose proof (I 0%nat) as I0. unfold A1. nra.
    - fold (f (2 * Datatypes.S i)%nat) (f (Datatypes.S (2 * i))) (f (2 * i)%nat).
      pose proof (I (2 * Datatypes.S i)%nat) as I2. pose proof (I (Datatypes.S (2 * i))) as I1. pose proof (I (2 * i)%nat) as I0.
      eapply Rle_trans; [apply Rabs_triang|]. unfold Rminus. eapply Rle_trans; [apply Rplus_le_compat_r; apply Rabs_triang|].
      rewrite Rabs_Ropp, !Rabs_mult. unfold A1.
      assert (Rabs (a1 c') * Rabs (f (Datatypes.S (2 * i))) <= Rabs (a1 c') * (12 * M)) by (apply Rmult_le_compat_l; assumption).
      assert (Rabs (a2 c') * Rabs (f (2 * i)%nat) <= Rabs (a2 c') * (12 * M)) by (apply Rmult_le_compat_l; assumption). lra. }
  assert (Ke0 : 0 <= Ke) by (unfold Ke; apply Rmult_le_pos; lra).
  assert (Ko0 : 0 <= Ko). { unfold Ko. apply Rmult_le_pos; [assert (0 <= Rabs (a1 c) * Ke) by (apply Rmult_le_pos; lra); lra|left; apply Rinv_0_lt_compat; lra]. }
  assert (Ek : 12 + Rabs (a1 c) * Ke + Rabs (a2 c') * Ko = Ko) by (unfold Ko; field; lra).
  assert (Od : forall j, Rabs (response_var (bq_new c) (alternate c c') x (Datatypes.S (2 * j))) <= Ko * M).
  { induction j as [|j IH].
    - change (Datatypes.S (2 * 0)) with 1%nat. rewrite (turn_1 c c' x). unfold Rminus. eapply Rle_trans; [apply Rabs_triang|]. rewrite Rabs_Ropp, Rabs_mult.
      pose proof (turn_input c c' x M Fc Fc' Hx 1%nat) as I. pose proof (Ev 0%nat) as E0. change (2 * 0)%nat with 0%nat in E0.
      assert (Rabs (a1 c) * Rabs (response_var (bq_new c) (alternate c c') x 0%nat) <= Rabs (a1 c) * (Ke * M)) by (apply Rmult_le_compat_l; assumption).
      apply Rle_trans with ((12 + Rabs (a1 c) * Ke) * M); [lra|]. apply Rmult_le_compat_r; [exact M0|]. assert (0 <= Rabs (a2 c') * Ko) by (apply Rmult_le_pos; lra). lra.
    - pose proof (turn_SS c c' x (Datatypes.S (2 * j))) as E. cbv zeta in E. rewrite alt_odd in E.
      pose proof (Ev (Datatypes.S j)) as E0. pose proof (turn_input c c' x M Fc Fc' Hx (Datatypes.S (Datatypes.S (Datatypes.S (2 * j))))) as I.
      replace (Datatypes.S (Datatypes.S (2 * j))) with (2 * Datatypes.S j)%nat in * by lia. rewrite alt_even in E. rewrite E.
      unfold Rminus. eapply Rle_trans; [apply Rabs_triang|]. eapply Rle_trans; [apply Rplus_le_compat_r; apply Rabs_triang|]. rewrite !Rabs_Ropp, !Rabs_mult.
      assert (Rabs (a1 c) * Rabs (response_var (bq_new c) (alternate c c') x (2 * Datatypes.S j)%nat) <= Rabs (a1 c) * (Ke * M)) by (apply Rmult_le_compat_l; assumption).
      assert (Rabs (a2 c') * Rabs (response_var (bq_new c) (alternate c c') x (Datatypes.S (2 * j))) <= Rabs (a2 c') * (Ko * M)) by (apply Rmult_le_compat_l; assumption).
      rewrite <- Ek. lra. }
  intros n. destruct (Nat.Even_or_Odd n) as [[j ->]|[j ->]].
  - eapply Rle_trans; [apply Ev|]. apply Rmult_le_compat_r; [exact M0|apply Rmax_l].
  - replace (2 * j + 1)%nat with (Datatypes.S (2 * j)) by lia. eapply Rle_trans; [apply Od|]. apply Rmult_le_compat_r; [exact M0|apply Rmax_r].
Qed.
Print Assumptions C110_alternating_bounded.

(** The two low-pass settings of 1 kHz and 20 kHz at 48 kHz with q = 1 have a product of about -50. *)
Lemma k_1000 : / 20 < design_k 1000 48000 < / 10.
Proof. unfold design_k, tan_poly, pi32. change (2 ^ 22)%Z with 4194304%Z. split; lra. Qed.
Lemma k_20000 : 3 < design_k 20000 48000 < 4.
Proof. unfold design_k, tan_poly, pi32. change (2 ^ 22)%Z with 4194304%Z. split; lra. Qed.
Lemma detune_sign k q lo : 0 < k -> 0 < q -> k < lo -> 0 < lo -> q * (lo - / lo) > detune k q.
Proof.
  intros Hk Hq L Hl. unfold detune. apply Rmult_lt_compat_l; [exact Hq|]. pose proof (Rinv_lt_contravar k lo ltac:(apply Rmult_lt_0_compat; lra) L). lra.
Qed.
Example C110_met : forall M, exists n,
  M < Rabs (response_var (bq_new (lowpass (MO := powi_math) 1000 1 48000)) (alternate (lowpass (MO := powi_math) 1000 1 48000) (lowpass (MO := powi_math) 20000 1 48000)) unit_impulse n).
Proof.
  apply (C110_alternating_unbounded_refuted powi_math 1000 1 20000 1 48000); try lra; try (left; reflexivity); [exact powi_math_exact|].
  pose proof k_1000 as A. pose proof k_20000 as B.
  pose proof (detune_sign (design_k 1000 48000) 1 (/ 10) ltac:(lra) ltac:(lra) ltac:(lra) ltac:(lra)) as D.
  pose proof (detune_sign 3 1 (design_k 20000 48000) ltac:(lra) ltac:(lra) ltac:(lra) ltac:(lra)) as E.
  fold (detune (design_k 20000 48000) 1) in E. rewrite Rinv_inv in D. unfold detune at 2 in E.
  set (p := detune (design_k 1000 48000) 1) in *. set (r := detune (design_k 20000 48000) 1) in *. clearbody p r.
  assert (p < -9) by lra. assert (2 < r) by lra. nra.
Qed.
(** On the same side of a quarter of the sample rate any two settings may be used in turn. *)
Example C110_same_side_met : exists K, forall M x, (forall n, Rabs (x n) <= M) -> forall n,
  Rabs (response_var (bq_new (lowpass (MO := powi_math) 1000 1 48000)) (alternate (lowpass (MO := powi_math) 1000 1 48000) (notch (MO := powi_math) 1000 50 48000)) x n) <= K * M.
Proof.
  apply (C110_alternating_bounded powi_math 1000 1 1000 50 48000); try lra; [exact powi_math_exact|left; reflexivity|right; right; right; reflexivity|].
  unfold detune. set (k := design_k 1000 48000). replace (1 * (k - / k) * (50 * (k - / k))) with (50 * Rsqr (k - / k)) by (unfold Rsqr; ring).
  pose proof (Rle_0_sqr (k - / k)). lra.
Qed.
(** Close to 12 kHz at 48 kHz the settings are free; 11.9 kHz is one of them. *)
Lemma k_11900 : 95 / 100 < design_k 11900 48000 < 1.
Proof. unfold design_k, tan_poly, pi32. change (2 ^ 22)%Z with 4194304%Z. split; lra. Qed.
Example C110_near_met : let k := design_k 11900 48000 in 9 / 10 <= k <= 11 / 10 /\ Rabs (detune k 1) <= 1 / 2.
Proof.
  intros k. pose proof k_11900 as A. fold k in A. split; [lra|]. unfold detune.
  assert (1 < / k < 11 / 10). { split; [rewrite <- Rinv_1 at 1; apply Rinv_lt_contravar; lra|]. apply Rmult_lt_reg_r with k; [lra|]. rewrite Rinv_l; lra. }
  apply Rabs_le. lra.
Qed.
(** Feedback of a quarter and a half. *)
Example C110_small_met : forall x, (forall n, Rabs (x n) <= 1) -> forall n,
  Rabs (response_var (bq_new (BC 1 0 0 (1 / 4) (1 / 2))) (alternate (BC 1 0 0 (1 / 4) (1 / 2)) (BC 1 0 0 (- (1 / 4)) (- (1 / 2)))) x n) <= 13.
Proof.
  intros x Hx n. pose proof (C110_small_feedback_bounded (alternate (BC 1 0 0 (1 / 4) (1 / 2)) (BC 1 0 0 (- (1 / 4)) (- (1 / 2)))) x (9 / 10) 1 1) as H.
  eapply Rle_trans; [apply H; [lra| | |exact Hx]|lra].
  - intros m. unfold alternate. destruct (Nat.even m); cbn [a1 a2]; rewrite ?Rabs_Ropp, !Rabs_pos_eq by lra; lra.
  - intros m. unfold alternate, forward_weight. destruct (Nat.even m); cbn [b0 b1 b2]; rewrite Rabs_R0, Rabs_R1; lra.
Qed.
