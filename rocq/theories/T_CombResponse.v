(** * Theorems: the frequency response of the comb filter and of the all-pass unit (C98). *)

From Coq Require Import ZArith List Bool Reals Lia Lra Psatz Nsatz.
From Flocq Require Import Core.
From Verif Require Import Base F32 Num M_Memory M_Delay S_Memory S_Delay S_Biquad S_CombResponse P_Delay P_Comb T_Response T_Comb Examples.
Import ListNotations.
Local Open Scope R_scope.

Lemma polar a b g : 0 <= g -> a * a + b * b = g * g -> exists th, g * cos th = a /\ g * sin th = b.
Proof.
  intros [Hg| <-] Eg.
  - destruct (angle_of (a / g) (b / g)) as (th & C1 & S1).
    { replace (a / g * (a / g) + b / g * (b / g)) with ((a * a + b * b) / (g * g)) by (field; lra). rewrite Eg. field. lra. }
    exists th. rewrite C1, S1. split; field; lra.
  - exists 0. assert (a = 0 /\ b = 0) by (split; nra). rewrite cos_0, sin_0. lra.
Qed.

Lemma sq2 (x : R) : x ^ 2 = x * x.
Proof. ring. Qed.

Lemma sc1 x : cos x * cos x + sin x * sin x = 1.
Proof. pose proof (sin2_cos2 x). unfold Rsqr in *. lra. Qed.

(** The vector p - e z with |z| = 1 and |e| <= f |p|. *)
Lemma vector_bounds p q e cn sn f : cn * cn + sn * sn = 1 -> 0 <= f -> e * e <= f * f * (p * p + q * q) -> 
  f <= 1 -> (1 - f) * (1 - f) * (p * p + q * q) <= (p - e * cn) * (p - e * cn) + (q + e * sn) * (q + e * sn) <= (1 + f) * (1 + f) * (p * p + q * q).
Proof.
  intros Hz Hf He Hf1. set (r := sqrt (p * p + q * q)). assert (Pr : 0 <= r) by apply sqrt_pos.
  assert (Er : r * r = p * p + q * q) by (apply sqrt_sqrt; nra). rewrite <- Er in *. clearbody r.
  set (m := p * cn - q * sn). assert (Hm : m * m <= r * r).
  { assert (m * m + (p * sn + q * cn) * (p * sn + q * cn) = r * r) by (rewrite Er; unfold m; transitivity ((p * p + q * q) * (cn * cn + sn * sn)); [ring|rewrite Hz; ring]). pose proof (Rle_0_sqr (p * sn + q * cn)) as Q. unfold Rsqr in Q. lra. }
  assert (Ha : Rabs e <= f * r) by (apply Rsqr_incr_0; [unfold Rsqr; rewrite <- Rabs_mult, Rabs_pos_eq by nra; lra|apply Rabs_pos|now apply Rmult_le_pos]).
  assert (Hb : Rabs m <= r) by (apply Rsqr_incr_0; [unfold Rsqr; rewrite <- Rabs_mult, Rabs_pos_eq by nra; lra|apply Rabs_pos|assumption]).
  replace ((p - e * cn) * (p - e * cn) + (q + e * sn) * (q + e * sn)) with (r * r - 2 * (e * m) + e * e).
  2:{ transitivity (p * p + q * q - 2 * (e * m) + e * e * (cn * cn + sn * sn)); [rewrite Er, Hz; ring|unfold m; ring]. }
  set (E := Rabs e) in *. assert (PE : 0 <= E) by apply Rabs_pos.
  assert (Q1 : Rabs (e * m) <= E * r) by (rewrite Rabs_mult; apply Rmult_le_compat; [apply Rabs_pos|apply Rabs_pos|right; reflexivity|assumption]).
  apply Rabs_le_inv in Q1. replace (e * e) with (E * E) by (unfold E; rewrite <- Rabs_mult; apply Rabs_pos_eq; nra).
  clearbody E m. clear He Hm Er Hz Hb. split.
  - apply Rle_trans with ((r - E) * (r - E)); [|lra]. assert ((1 - f) * r <= r - E) by lra. assert (0 <= (1 - f) * r) by (apply Rmult_le_pos; lra).
    replace ((1 - f) * (1 - f) * (r * r)) with ((1 - f) * r * ((1 - f) * r)) by ring. apply Rmult_le_compat; assumption.
  - apply Rle_trans with ((r + E) * (r + E)); [lra|]. assert (r + E <= (1 + f) * r) by lra. assert (0 <= r + E) by lra.
    replace ((1 + f) * (1 + f) * (r * r)) with ((1 + f) * r * ((1 + f) * r)) by ring. apply Rmult_le_compat; assumption.
Qed.

(** |1 - d z|^2 and |1 - d z - g (1 - d) z^n|^2 on the unit circle. *)
Definition comb_num (d w : R) : R := 1 - 2 * d * cos w + d * d.
Definition comb_den (n : nat) (d g w : R) : R :=
  (1 - d * cos w - g * (1 - d) * cos (INR n * w)) ^ 2 + (d * sin w + g * (1 - d) * sin (INR n * w)) ^ 2.

Lemma comb_num_low d w : 0 <= d < 1 -> (1 - d) * (1 - d) <= comb_num d w.
Proof. intros H. unfold comb_num. pose proof (COS_bound w). nra. Qed.

Lemma comb_bounds n d g w : 0 <= d < 1 -> Rabs g < 1 ->
  (1 - Rabs g) * (1 - Rabs g) * comb_num d w <= comb_den n d g w <= (1 + Rabs g) * (1 + Rabs g) * comb_num d w.
Proof.
  intros Hd Hg. pose proof (Rabs_pos g). pose proof (comb_num_low d w Hd) as L.
  assert (E : comb_num d w = (1 - d * cos w) * (1 - d * cos w) + d * sin w * (d * sin w)).
  { unfold comb_num. transitivity (1 - 2 * d * cos w + d * d * (cos w * cos w + sin w * sin w)); [rewrite sc1; ring|ring]. }
  unfold comb_den. rewrite !sq2. rewrite E in *. apply vector_bounds; [apply sc1|assumption| |lra].
  replace (g * (1 - d) * (g * (1 - d))) with (g * g * ((1 - d) * (1 - d))) by ring.
  replace (Rabs g * Rabs g) with (g * g) by (rewrite <- Rabs_mult; symmetry; apply Rabs_pos_eq; nra).
  apply Rmult_le_compat_l; [nra|exact L].
Qed.

Lemma comb_num_pos d w : 0 <= d < 1 -> 0 < comb_num d w.
Proof. intros H. pose proof (comb_num_low d w H). nra. Qed.

Lemma comb_den_pos n d g w : 0 <= d < 1 -> Rabs g < 1 -> 0 < comb_den n d g w.
Proof.
  intros Hd Hg. destruct (comb_bounds n d g w Hd Hg) as [L _]. pose proof (comb_num_pos d w Hd). eapply Rlt_le_trans; [|exact L].
  apply Rmult_lt_0_compat; [nra|assumption].
Qed.

(** The steady state H = (W - d) / (Z (W - d) - e W), with W = e^iw and Z = e^inw. *)
Lemma steady d e w z M : let cw := cos w in let sw := sin w in let cn := cos z in let sn := sin z in
  let dx := cn * (cw - d) - sn * sw - e * cw in let dy := cn * sw + sn * (cw - d) - e * sw in
  M = dx * dx + dy * dy -> 
  M = (1 - d * cw - e * cn) ^ 2 + (d * sw + e * sn) ^ 2.
Proof.
  intros cw sw cn sn dx dy ->. pose proof (sc1 w) as E1. pose proof (sc1 z) as E2. fold cw sw in E1. fold cn sn in E2. unfold dx, dy.
  clearbody cw sw cn sn. rewrite !sq2. nsatz.
Qed.

Theorem C98_comb_response : forall (B : Build) (h : heap R) s l damp g w,
  covers h s l -> l <> [] -> 0 <= damp < 1 -> Rabs g < 1 ->
  let n := INR (length l) in
  comb_gain h s damp g w
    (sqrt ((1 - 2 * damp * cos w + damp * damp) /
           ((1 - damp * cos w - g * (1 - damp) * cos (n * w)) ^ 2 + (damp * sin w + g * (1 - damp) * sin (n * w)) ^ 2))).
Proof.
  intros B h s l d g w C Hl Hd Hg n. fold (comb_num d w). fold (comb_den (length l) d g w).
  pose proof (comb_num_pos d w Hd) as PN. pose proof (comb_den_pos (length l) d g w Hd Hg) as PD.
  set (cw := cos w). set (sw := sin w). set (cn := cos (n * w)). set (sn := sin (n * w)). set (e := g * (1 - d)).
  set (dx := cn * (cw - d) - sn * sw - e * cw). set (dy := cn * sw + sn * (cw - d) - e * sw). set (M := dx * dx + dy * dy).
  assert (EM : M = comb_den (length l) d g w) by (apply (steady d e w (n * w) M); reflexivity).
  set (hx := ((cw - d) * dx + sw * dy) / M). set (hy := (sw * dx - (cw - d) * dy) / M).
  set (tx := (1 - d) * dx / M). set (ty := - (1 - d) * dy / M). assert (PM : 0 < M) by (rewrite EM; exact PD).
  set (gain := sqrt (comb_num d w / comb_den (length l) d g w)). change (comb_gain h s d g w gain).
  destruct (polar hx hy gain) as (th & Ec & Es); [apply sqrt_pos| |].
  { unfold gain. rewrite sqrt_sqrt by (apply Rmult_le_pos; [lra|]; left; now apply Rinv_0_lt_compat). rewrite <- EM.
    replace (comb_num d w) with ((cw - d) * (cw - d) + sw * sw).
    - unfold hx, hy. transitivity (((cw - d) * (cw - d) + sw * sw) * (dx * dx + dy * dy) / (M * M)); [field; lra|fold M; field; lra].
    - unfold comb_num. fold cw. transitivity (cw * cw + sw * sw - 2 * d * cw + d * d); [ring|]. unfold cw, sw. rewrite sc1. ring. }
  assert (R1 : tx * cw - ty * sw = (1 - d) * hx + d * tx) by (unfold tx, ty, hx; field; lra).
  assert (R2 : tx * sw + ty * cw = (1 - d) * hy + d * ty) by (unfold tx, ty, hy; field; lra).
  assert (R3 : hx * cn - hy * sn = 1 + g * (tx * cw - ty * sw)).
  { apply Rmult_eq_reg_r with M; [|lra].
    transitivity (((cw - d) * dx + sw * dy) * cn - (sw * dx - (cw - d) * dy) * sn); [unfold hx, hy; field; lra|].
    transitivity (dx * dx + dy * dy + g * ((1 - d) * dx * cw + (1 - d) * dy * sw)); [unfold dx, dy, e; ring|].
    fold M. unfold tx, ty. field. lra. }
  assert (R4 : hx * sn + hy * cn = g * (tx * sw + ty * cw)).
  { apply Rmult_eq_reg_r with M; [|lra].
    transitivity (((cw - d) * dx + sw * dy) * sn + (sw * dx - (cw - d) * dy) * cn); [unfold hx, hy; field; lra|].
    transitivity (g * ((1 - d) * dx * sw - (1 - d) * dy * cw)); [unfold dx, dy, e; ring|].
    unfold tx, ty. field. lra. }
  clearbody hx hy tx ty gain. clear EM PM.
  exists th. intros ops amp phi eps He.
  assert (Hn : (0 < length l)%nat) by (destruct l; [congruence|cbn; lia]).
  assert (Hn' : (0 < ms_len s)%Z) by (destruct C as (E1 & _); lia). pose proof (fresh_R h s l C Hn') as FR.
  destruct (comb_spec_app ops l 0 0 (1 / 2) (1 / 2)) as (d' & m & s0 & p1 & g1 & L & App).
  set (x := sinusoid amp w phi). set (y := cy d' m s0 d g x). set (z := cs d' m s0 d g x).
  set (t := fun k => w * INR k + phi). set (Y := fun k => amp * (hx * sin (t k) + hy * cos (t k))). set (Z0 := fun k => amp * (tx * sin (t k) + ty * cos (t k))).
  assert (T1 : forall k, t (S k) = t k + w) by (intros k; unfold t; rewrite S_INR; ring).
  assert (Tn : forall k, t (k + length l)%nat = t k + n * w) by (intros k; unfold t; rewrite plus_INR; fold n; ring).
  destruct (settles (fun k => y k - Y k) (fun k => z k - Z0 k) (length l) d g Hn Hd Hg) with (eps := eps) as [N HN]; try assumption.
  { intros k. unfold z. rewrite cs_S. fold (y k). fold (z k). unfold Z0, Y. rewrite T1, sin_plus, cos_plus. fold cw sw.
    set (A := sin (t k)). set (D := cos (t k)). clearbody A D y z.
    replace (amp * (tx * (A * cw + D * sw) + ty * (D * cw - A * sw))) with (amp * (A * (tx * cw - ty * sw) + D * (tx * sw + ty * cw))) by ring.
    rewrite R1, R2. ring. }
  { intros k. unfold y. rewrite cy_next with (n := length l) by lia. fold (z (S k)). unfold Z0, Y. rewrite T1, Tn, !sin_plus, !cos_plus. fold cw sw cn sn.
    replace (x k) with (amp * sin (t k)) by reflexivity.
    set (A := sin (t k)). set (D := cos (t k)). clearbody A D y z.
    replace (amp * (hx * (A * cn + D * sn) + hy * (D * cn - A * sn))) with (amp * (A * (hx * cn - hy * sn) + D * (hx * sn + hy * cn))) by ring.
    rewrite R3, R4. ring. }
  exists N. intros k Hk. destruct (comb_run_ok (ops ++ CDamp d :: CFeedback g :: map CTick (upto x k)) h (cb_new s) l 0 0 (1 / 2) (1 / 2) FR) as (h' & c' & E & _).
  exists h', c'. eexists. split; [exact E|]. rewrite App. cbn [comb_spec]. rewrite last_app_ne.
  - replace (comb_spec _ _ _ _ _ _) with (map y (seq 0 (S k))).
    + rewrite last_map_seq. cbn [Nat.add]. specialize (HN k Hk). cbv beta in HN. unfold Y in HN.
      replace (sinusoid (gain * amp) w (phi + th) k) with (amp * (hx * sin (t k) + hy * cos (t k))); [exact HN|].
      unfold sinusoid. rewrite <- Rplus_assoc. fold (t k). rewrite sin_plus, <- Ec, <- Es. ring.
    + symmetry. pose proof (comb_spec_seq d' m s0 d g x (S k) 0) as Q. rewrite Nat.add_0_r in Q. exact Q.
  - unfold upto. cbn [seq map comb_spec]. discriminate.
Qed.
Print Assumptions C98_comb_response.

(** ** The gain is well defined *)
Lemma two_sinusoids g1 g2 t1 t2 w : 0 < w < PI -> 0 <= g1 -> 0 <= g2 ->
  (forall eps, 0 < eps -> exists N, forall k, (N <= k)%nat -> exists v, Rabs (v - sinusoid (g1 * 1) w (0 + t1) k) < eps /\ Rabs (v - sinusoid (g2 * 1) w (0 + t2) k) < eps) ->
  g1 = g2.
Proof.
  intros Hw H1 H2 H.
  assert (V : g1 * cos t1 - g2 * cos t2 = 0 /\ g1 * sin t1 - g2 * sin t2 = 0).
  { apply (vanish_sinusoid _ _ w); [apply sin_gt_0; tauto|]. intros e He. destruct (H (e / 2) ltac:(lra)) as [N HN]. exists N. intros k Hk.
    destruct (HN k Hk) as (v & A1 & A2). unfold R_dist. rewrite Rminus_0_r. unfold sinusoid in *. rewrite !Rplus_0_l, !Rmult_1_r, !sin_plus in *.
    replace ((g1 * cos t1 - g2 * cos t2) * sin (w * INR k) + (g1 * sin t1 - g2 * sin t2) * cos (w * INR k)) with
      ((v - g2 * (sin (w * INR k) * cos t2 + cos (w * INR k) * sin t2)) - (v - g1 * (sin (w * INR k) * cos t1 + cos (w * INR k) * sin t1))) by ring.
    eapply Rle_lt_trans; [apply Rabs_triang|]. rewrite Rabs_Ropp. lra. }
  destruct V as [V1 V2]. pose proof (sc1 t1) as S1. pose proof (sc1 t2) as S2.
  assert (E1 : g1 * cos t1 = g2 * cos t2) by lra. assert (E2 : g1 * sin t1 = g2 * sin t2) by lra.
  assert (E : g1 * g1 = g2 * g2).
  { transitivity (g1 * g1 * (cos t1 * cos t1 + sin t1 * sin t1)); [rewrite S1; ring|].
    transitivity ((g1 * cos t1) * (g1 * cos t1) + (g1 * sin t1) * (g1 * sin t1)); [ring|]. rewrite E1, E2.
    transitivity (g2 * g2 * (cos t2 * cos t2 + sin t2 * sin t2)); [ring|rewrite S2; ring]. }
  nra.
Qed.

Theorem C98_comb_gain_is_unique : forall (B : Build) (h : heap R) s damp g w gain gain', 0 < w < PI -> 0 <= gain -> 0 <= gain' ->
  comb_gain h s damp g w gain -> comb_gain h s damp g w gain' -> gain = gain'.
Proof.
  intros B h s damp g w g1 g2 Hw H1 H2 (t1 & T1) (t2 & T2). apply (two_sinusoids g1 g2 t1 t2 w Hw H1 H2).
  intros eps He. destruct (T1 [] 1 0 eps He) as [N1 A1]. destruct (T2 [] 1 0 eps He) as [N2 A2]. exists (N1 + N2)%nat. intros k Hk.
  destruct (A1 k ltac:(lia)) as (h1 & c1 & ys & E & D1). destruct (A2 k ltac:(lia)) as (h2 & c2 & ys' & E' & D2).
  rewrite E in E'. injection E' as <- <- <-. exists (last ys 0). now split.
Qed.
Print Assumptions C98_comb_gain_is_unique.

Theorem C98_all_pass_gain_is_unique : forall (B : Build) (h : heap R) s w gain gain', 0 < w < PI -> 0 <= gain -> 0 <= gain' ->
  ap_gain h s w gain -> ap_gain h s w gain' -> gain = gain'.
Proof.
  intros B h s w g1 g2 Hw H1 H2 (t1 & T1) (t2 & T2). apply (two_sinusoids g1 g2 t1 t2 w Hw H1 H2).
  intros eps He. destruct (T1 [] 1 0 eps He) as [N1 A1]. destruct (T2 [] 1 0 eps He) as [N2 A2]. exists (N1 + N2)%nat. intros k Hk.
  destruct (A1 k ltac:(lia)) as (h1 & c1 & ys & E & D1). destruct (A2 k ltac:(lia)) as (h2 & c2 & ys' & E' & D2).
  rewrite E in E'. injection E' as <- <- <-. exists (last ys 0). now split.
Qed.
Print Assumptions C98_all_pass_gain_is_unique.

(** ** What the response of the comb looks like *)
Lemma sqrt_ratio_in a b f : 0 < a -> 0 < b -> 0 <= f < 1 -> (1 - f) * (1 - f) * a <= b <= (1 + f) * (1 + f) * a ->
  1 / (1 + f) <= sqrt (a / b) <= 1 / (1 - f).
Proof.
  intros Ha Hb Hf [L U]. pose proof (sqrt_pos (a / b)) as P. assert (E : sqrt (a / b) * sqrt (a / b) = a / b) by (apply sqrt_sqrt; left; now apply Rdiv_lt_0_compat).
  assert (Q : a / b * b = a) by (field; lra). set (r := a / b) in *. assert (Pr : 0 < r) by (now apply Rdiv_lt_0_compat). clearbody r.
  set (v := sqrt r) in *. clearbody v.
  assert (L' : (1 - f) * (1 - f) * r <= 1) by (apply Rmult_le_reg_r with b; [exact Hb|]; rewrite <- Q in L; nra).
  assert (U' : 1 <= (1 + f) * (1 + f) * r) by (apply Rmult_le_reg_r with b; [exact Hb|]; rewrite <- Q in U; nra).
  split.
  - apply Rmult_le_reg_l with (1 + f); [lra|]. replace ((1 + f) * (1 / (1 + f))) with 1 by (field; lra).
    apply Rsqr_incr_0; [unfold Rsqr|lra|nra]. replace ((1 + f) * v * ((1 + f) * v)) with ((1 + f) * (1 + f) * (v * v)) by ring. rewrite E. lra.
  - apply Rmult_le_reg_l with (1 - f); [lra|]. replace ((1 - f) * (1 / (1 - f))) with 1 by (field; lra).
    apply Rsqr_incr_0; [unfold Rsqr|nra|lra]. replace ((1 - f) * v * ((1 - f) * v)) with ((1 - f) * (1 - f) * (v * v)) by ring. rewrite E. lra.
Qed.

(** No frequency is amplified by more than 1 / (1 - |g|) or attenuated by more than 1 + |g|. *)
Theorem C98_comb_gain_range : forall (B : Build) (h : heap R) s l damp g w gain,
  covers h s l -> l <> [] -> 0 <= damp < 1 -> Rabs g < 1 -> 0 < w < PI -> 0 <= gain ->
  comb_gain h s damp g w gain -> 1 / (1 + Rabs g) <= gain <= 1 / (1 - Rabs g).
Proof.
  intros B h s l d g w gain C Hl Hd Hg Hw Hgain H.
  rewrite (C98_comb_gain_is_unique B h s d g w gain _ Hw Hgain (sqrt_pos _) H (C98_comb_response B h s l d g w C Hl Hd Hg)).
  fold (comb_num d w). fold (comb_den (length l) d g w). pose proof (Rabs_pos g).
  apply sqrt_ratio_in; [now apply comb_num_pos|now apply comb_den_pos|lra|now apply comb_bounds].
Qed.
Print Assumptions C98_comb_gain_range.

Lemma cos_turns k x : cos (x + 2 * IZR k * PI) = cos x /\ sin (x + 2 * IZR k * PI) = sin x.
Proof.
  destruct (Z_le_dec 0 k) as [P|P].
  - rewrite <- (Z2Nat.id k P), <- INR_IZR_INZ. split; [apply cos_period|apply sin_period].
  - replace k with (- Z.of_nat (Z.to_nat (- k)))%Z by lia. rewrite opp_IZR, <- INR_IZR_INZ. set (m := Z.to_nat (- k)).
    rewrite <- (cos_period (x + 2 * - INR m * PI) m), <- (sin_period (x + 2 * - INR m * PI) m). split; f_equal; ring.
Qed.

(** Without dampening the peaks lie at the multiples of the sample rate over the buffer length,
    with gain 1 / (1 - g), and the notches half way between, with gain 1 / (1 + g). *)
Theorem C98_comb_peaks : forall (B : Build) (h : heap R) s l g k,
  covers h s l -> l <> [] -> 0 <= g < 1 ->
  comb_gain h s 0 g (2 * IZR k * PI / INR (length l)) (1 / (1 - g)) /\
  comb_gain h s 0 g ((2 * IZR k + 1) * PI / INR (length l)) (1 / (1 + g)).
Proof.
  intros B h s l g k C Hl Hg. assert (Hn : 0 < INR (length l)) by (apply lt_0_INR; destruct l; [congruence|cbn; lia]).
  assert (Hg1 : Rabs g < 1) by (rewrite Rabs_pos_eq; lra).
  assert (V : forall v r, 0 < v -> r = v * v -> sqrt (1 / r) = 1 / v).
  { intros v r Hv ->. replace (1 / (v * v)) with ((1 / v) * (1 / v)) by (field; lra). apply sqrt_square. left. apply Rdiv_lt_0_compat; lra. }
  split.
  - pose proof (C98_comb_response B h s l 0 g (2 * IZR k * PI / INR (length l)) C Hl ltac:(lra) Hg1) as H. cbv zeta in H.
    set (w := 2 * IZR k * PI / INR (length l)) in *. replace (INR (length l) * w) with (0 + 2 * IZR k * PI) in H by (unfold w; field; lra).
    destruct (cos_turns k 0) as [E1 E2]. rewrite E1, E2, cos_0, sin_0 in H.
    replace (1 - 2 * 0 * cos w + 0 * 0) with 1 in H by ring. rewrite (V (1 - g)) in H; [exact H|lra|ring].
  - pose proof (C98_comb_response B h s l 0 g ((2 * IZR k + 1) * PI / INR (length l)) C Hl ltac:(lra) Hg1) as H. cbv zeta in H.
    set (w := (2 * IZR k + 1) * PI / INR (length l)) in *. replace (INR (length l) * w) with (PI + 2 * IZR k * PI) in H by (unfold w; field; lra).
    destruct (cos_turns k PI) as [E1 E2]. rewrite E1, E2, cos_PI, sin_PI in H.
    replace (1 - 2 * 0 * cos w + 0 * 0) with 1 in H by ring. rewrite (V (1 + g)) in H; [exact H|lra|ring].
Qed.
Print Assumptions C98_comb_peaks.

(** With dampening the peaks get lower the higher their frequency. *)
Theorem C98_comb_peaks_fall : forall (B : Build) (h : heap R) s l damp g i j gain gain',
  covers h s l -> l <> [] -> 0 < damp < 1 -> 0 < g < 1 ->
  let n := INR (length l) in
  (0 < i)%Z -> (i < j)%Z -> 2 * IZR j < n -> 0 <= gain -> 0 <= gain' ->
  comb_gain h s damp g (2 * IZR i * PI / n) gain -> comb_gain h s damp g (2 * IZR j * PI / n) gain' -> gain' < gain.
Proof.
  intros B h s l d g i j gain gain' C Hl Hd Hg n Hi Hij Hj P1 P2 H1 H2. assert (Hn : 0 < n) by (apply lt_0_INR; destruct l; [congruence|cbn; lia]).
  assert (Hg1 : Rabs g < 1) by (rewrite Rabs_pos_eq; lra). pose proof PI_RGT_0 as PP.
  apply IZR_lt in Hi, Hij. set (w := 2 * IZR i * PI / n) in *. set (w' := 2 * IZR j * PI / n) in *.
  assert (Wn : n * w = 0 + 2 * IZR i * PI) by (unfold w; field; lra). assert (Wn' : n * w' = 0 + 2 * IZR j * PI) by (unfold w'; field; lra).
  assert (Hw : 0 < w) by (unfold w; apply Rdiv_lt_0_compat; [|exact Hn]; apply Rmult_lt_0_compat; lra).
  assert (Hww : w < w') by (apply Rmult_lt_reg_l with n; [exact Hn|]; rewrite Wn, Wn'; apply Rplus_lt_compat_l, Rmult_lt_compat_r; lra).
  assert (Hw' : w' < PI) by (apply Rmult_lt_reg_l with n; [exact Hn|]; rewrite Wn', Rplus_0_l; apply Rmult_lt_compat_r; lra).
  rewrite (C98_comb_gain_is_unique B h s d g w gain _ ltac:(lra) P1 (sqrt_pos _) H1 (C98_comb_response B h s l d g w C Hl ltac:(lra) Hg1)).
  rewrite (C98_comb_gain_is_unique B h s d g w' gain' _ ltac:(lra) P2 (sqrt_pos _) H2 (C98_comb_response B h s l d g w' C Hl ltac:(lra) Hg1)).
  pose proof (comb_num_pos d w ltac:(lra)) as N1. pose proof (comb_num_pos d w' ltac:(lra)) as N2.
  pose proof (comb_den_pos (length l) d g w ltac:(lra) Hg1) as D1. pose proof (comb_den_pos (length l) d g w' ltac:(lra) Hg1) as D2.
  fold (comb_num d w) (comb_num d w'). fold (comb_den (length l) d g w) (comb_den (length l) d g w').
  assert (Hc : cos w' < cos w) by (apply cos_decreasing_1; lra).
  assert (Ed : forall v k, n * v = 0 + 2 * IZR k * PI -> comb_den (length l) d g v = (1 - g * (1 - d)) * (1 - g * (1 - d)) - 2 * d * (1 - g * (1 - d)) * cos v + d * d).
  { intros v k Ev. unfold comb_den. fold n. rewrite Ev. destruct (cos_turns k 0) as [-> ->]. rewrite cos_0, sin_0, !sq2.
    pose proof (sc1 v) as S. set (A := cos v) in *. set (D := sin v) in *. clearbody A D. set (e := g * (1 - d)). clearbody e. nsatz. }
  apply sqrt_lt_1; [left; now apply Rdiv_lt_0_compat|left; now apply Rdiv_lt_0_compat|].
  apply Rmult_lt_reg_r with (comb_den (length l) d g w' * comb_den (length l) d g w); [now apply Rmult_lt_0_compat|].
  replace (comb_num d w' / comb_den (length l) d g w' * (comb_den (length l) d g w' * comb_den (length l) d g w)) with (comb_num d w' * comb_den (length l) d g w) by (field; lra).
  replace (comb_num d w / comb_den (length l) d g w * (comb_den (length l) d g w' * comb_den (length l) d g w)) with (comb_num d w * comb_den (length l) d g w') by (field; lra).
  rewrite (Ed w i Wn), (Ed w' j Wn'). unfold comb_num. clear - Hc Hd Hg. set (a := cos w) in *. set (b := cos w') in *. clearbody a b.
  set (A := 1 - g * (1 - d)). assert (HA : d < A < 1) by (unfold A; split; nra). clearbody A.
  assert (K : 0 < 2 * d * (a - b) * ((1 - A) * (A - d * d))).
  { apply Rmult_lt_0_compat; [nra|]. apply Rmult_lt_0_compat; [lra|nra]. }
  nra.
Qed.
Print Assumptions C98_comb_peaks_fall.

(** ** The all-pass unit *)
Theorem C98_all_pass_response : forall (B : Build) (h : heap R) s l w,
  covers h s l -> l <> [] ->
  let c := cos (INR (length l) * w) in ap_gain h s w (sqrt ((13 - 12 * c) / (5 - 4 * c))).
Proof.
  intros B h s l w C Hl c. set (n := INR (length l)) in *. set (sn := sin (n * w)).
  assert (S1 : c * c + sn * sn = 1) by apply sc1. assert (Bc : -1 <= c <= 1) by apply COS_bound.
  set (vx := 4 * (c - / 2) / (5 - 4 * c)). set (vy := - (4 * sn) / (5 - 4 * c)).
  assert (R3 : vx * c - vy * sn = 1 + vx / 2).
  { unfold vx, vy. apply Rmult_eq_reg_r with (5 - 4 * c); [|lra]. transitivity (4 * (c * c + sn * sn) - 2 * c); [field; lra|]. rewrite S1. field. lra. }
  assert (R4 : vx * sn + vy * c = vy / 2) by (unfold vx, vy; field; lra).
  set (gain := sqrt ((13 - 12 * c) / (5 - 4 * c))).
  destruct (polar (vx - 1) vy gain) as (th & Ec & Es); [apply sqrt_pos| |].
  { unfold gain. rewrite sqrt_sqrt by (apply Rmult_le_pos; [lra|]; left; apply Rinv_0_lt_compat; lra). unfold vx, vy.
    transitivity ((8 * c - 7) * (8 * c - 7) / ((5 - 4 * c) * (5 - 4 * c)) + 16 * (c * c + sn * sn - c * c) / ((5 - 4 * c) * (5 - 4 * c))); [field; lra|].
    rewrite S1. field. lra. }
  clearbody vx vy gain. exists th. intros xs amp phi eps He.
  assert (Hn : (0 < length l)%nat) by (destruct l; [congruence|cbn; lia]). assert (Hn' : (0 < ms_len s)%Z) by (destruct C as (E1 & _); lia).
  destruct (ap_spec_app xs l 0) as (d & m & L & App).
  set (x := sinusoid amp w phi). set (v := av d m x). set (t := fun k => w * INR k + phi). set (Y := fun k => amp * (vx * sin (t k) + vy * cos (t k))).
  assert (Tn : forall k, t (k + length l)%nat = t k + n * w) by (intros k; unfold t; rewrite plus_INR; fold n; ring).
  destruct (settles (fun k => v k - Y k) (fun k => match k with O => v 0%nat - Y 0%nat | S j => v j - Y j end) (length l) 0 (/ 2) Hn) with (eps := eps) as [N HN]; try lra.
  { rewrite Rabs_pos_eq; lra. }
  { intros k. ring. }
  { intros k. unfold v. rewrite av_next with (n := length l) by lia. fold (v k). unfold Y. rewrite Tn, sin_plus, cos_plus. fold c sn.
    replace (x k) with (amp * sin (t k)) by reflexivity. set (A := sin (t k)). set (D := cos (t k)). clearbody A D v.
    replace (amp * (vx * (A * c + D * sn) + vy * (D * c - A * sn))) with (amp * (A * (vx * c - vy * sn) + D * (vx * sn + vy * c))) by ring.
    rewrite R3, R4. field. }
  exists N. intros k Hk. destruct (ap_run_ok (xs ++ upto x k) h (ap_new s) l 0) as (h' & a' & E & _); [exact (dl_new_rel h s l C Hn')|].
  exists h', a'. eexists. split; [exact E|]. rewrite App. unfold upto.
  pose proof (ap_spec_seq d m x (S k) 0) as Q. rewrite Nat.add_0_r in Q. cbn [ast] in Q. rewrite Q. rewrite last_app_ne by discriminate.
  rewrite last_map_seq. fold v. cbn [Nat.add]. specialize (HN k Hk). cbv beta in HN. unfold Y in HN.
  replace (- x k + v k - sinusoid (gain * amp) w (phi + th) k) with (v k - amp * (vx * sin (t k) + vy * cos (t k))); [exact HN|].
  unfold sinusoid. rewrite <- Rplus_assoc. fold (t k). rewrite sin_plus. replace (x k) with (amp * sin (t k)) by reflexivity.
  replace vx with (gain * cos th + 1) by lra. rewrite <- Es. ring.
Qed.
Print Assumptions C98_all_pass_response.

(** The unit never attenuates, and amplifies by at most 5 / 3. *)
Theorem C98_all_pass_range : forall (B : Build) (h : heap R) s l w gain,
  covers h s l -> l <> [] -> 0 < w < PI -> 0 <= gain -> ap_gain h s w gain -> 1 <= gain <= 5 / 3.
Proof.
  intros B h s l w gain C Hl Hw Hg H. rewrite (C98_all_pass_gain_is_unique B h s w gain _ Hw Hg (sqrt_pos _) H (C98_all_pass_response B h s l w C Hl)).
  set (c := cos (INR (length l) * w)). assert (Bc : -1 <= c <= 1) by apply COS_bound. clearbody c.
  assert (E : (13 - 12 * c) / (5 - 4 * c) * (5 - 4 * c) = 13 - 12 * c) by (field; lra). set (r := (13 - 12 * c) / (5 - 4 * c)) in *. clearbody r.
  rewrite <- sqrt_1 at 1. replace (5 / 3) with (sqrt (25 / 9)) by (replace (25 / 9) with (5 / 3 * (5 / 3)) by field; apply sqrt_square; lra).
  split; apply sqrt_le_1_alt; nra.
Qed.
Print Assumptions C98_all_pass_range.

(** It is not an all-pass filter: with two samples or more it amplifies the frequency
    sample rate / (2 n) by 5 / 3. *)
Theorem C98_all_pass_flat_refuted : forall (B : Build) (h : heap R) s l gain,
  covers h s l -> (2 <= length l)%nat -> 0 <= gain -> ap_gain h s (PI / INR (length l)) gain -> gain = 5 / 3.
Proof.
  intros B h s l gain C Hl Hg H. assert (Hn : 2 <= INR (length l)) by (change 2 with (INR 2); now apply le_INR). pose proof PI_RGT_0 as PP.
  assert (Hw : 0 < PI / INR (length l) < PI).
  { split; [apply Rdiv_lt_0_compat; lra|]. apply Rmult_lt_reg_r with (INR (length l)); [lra|]. replace (PI / INR (length l) * INR (length l)) with PI by (field; lra). nra. }
  assert (Hl' : l <> []) by (intros ->; cbn in Hl; lia).
  rewrite (C98_all_pass_gain_is_unique B h s _ gain _ Hw Hg (sqrt_pos _) H (C98_all_pass_response B h s l _ C Hl')).
  replace (INR (length l) * (PI / INR (length l))) with PI by (field; lra). rewrite cos_PI.
  replace ((13 - 12 * -1) / (5 - 4 * -1)) with (5 / 3 * (5 / 3)) by field. apply sqrt_square. lra.
Qed.
Print Assumptions C98_all_pass_flat_refuted.

Example C98_met : covers (B := dbg32) (repeat 0 5 :: nil) (MS (PAt 0 0) 5) (repeat 0 5) /\ repeat 0 5 <> [] /\ (2 <= length (repeat 0 5))%nat /\
  0 < 1 / 4 < 1 /\ 0 < 1 / 2 < 1 /\ 2 * IZR 2 < INR (length (repeat 0 5)).
Proof.
  split; [|split; [discriminate|split; [cbn; lia|split; [lra|split; [lra|cbn; lra]]]]].
  split; [reflexivity|]. split; [vm_compute; discriminate|]. exists [], []. split; reflexivity.
Qed.
