(** * Theorems: the bell and low-shelf designs in f32 against exact arithmetic (C101). *)

From Coq Require Import ZArith Bool Reals Lia Lra Psatz.
From Flocq Require Import Core IEEE754.Binary.
From Verif Require Import Base F32 F32Lemmas F32Range Num M_FloatMath M_Biquad S_Biquad S_BiquadF32 S_DesignF32 S_TanF32 S_GainF32 P_Biquad P_Butterworth
  P_DesignF32 P_Tan P_TanF32 P_GainF32 T_Biquad T_DesignF32 T_TanF32 T_DecibelsF32.
Local Open Scope R_scope.

Ltac conjs := lazymatch goal with |- _ /\ _ => split; [conjs|conjs] | _ => idtac end.

Lemma num_ok {NP : NanPolicy} D x y X Y e1 e2 c1 c : 1 <= D <= 1048576 -> near D x X e1 -> near D y Y e2 -> 0 <= e1 <= 400000 -> 0 <= e2 <= 400000 ->
  0 <= c1 <= 60000 -> 0 <= c <= 60000 -> 0 <= X -> 1 + X <= c1 * D -> 0 <= Y -> 1 + X + Y <= c * D ->
  let m := 1003 / 1000 * (e1 + e2) + 1002 / 1000 * c1 + c + 3 / 1000 in
  near D (fadd (fadd (of_int 1) x) y) (1 + X + Y) m /\ near D (fadd (fsub (of_int 1) x) y) (1 - X + Y) m /\ Rabs (1 + X + Y) <= c * D /\ Rabs (1 - X + Y) <= c * D.
Proof.
  intros HD Nx Ny E1 E2 C1 C X0 H1 Y0 H2 m. destruct one_spec as [F1 V1].
  assert (N1 : near D (of_int 1) 1 0) by (rewrite <- V1; apply near_const; [lra|exact F1]).
  assert (A1 : Rabs (1 + X) <= c1 * D) by (rewrite Rabs_pos_eq; lra).
  assert (A2 : Rabs (1 - X) <= c1 * D) by (apply Rabs_le; lra).
  assert (A3 : Rabs (1 + X + Y) <= c * D) by (rewrite Rabs_pos_eq; lra).
  assert (A4 : Rabs (1 - X + Y) <= c * D) by (apply Rabs_le; lra).
  pose proof (near_add D HD _ _ _ _ 0 e1 c1 N1 Nx ltac:(lra) ltac:(lra) ltac:(lra) A1) as B1.
  pose proof (near_sub D HD _ _ _ _ 0 e1 c1 N1 Nx ltac:(lra) ltac:(lra) ltac:(lra) A2) as B2.
  pose proof (near_add D HD _ _ _ _ _ e2 c B1 Ny ltac:(lra) ltac:(lra) ltac:(lra) A3) as B3.
  pose proof (near_add D HD _ _ _ _ _ e2 c B2 Ny ltac:(lra) ltac:(lra) ltac:(lra) A4) as B4.
  conjs; try (eapply near_weaken; [|idtac|eassumption]; [lra|unfold m; lra]); assumption.
Qed.

Lemma diff_ok {NP : NanPolicy} D y Y e c : 1 <= D <= 1048576 -> near D y Y e -> 0 <= e <= 400000 -> 1 <= c <= 60000 -> 0 <= Y <= c * D ->
  near D (fmul (of_int 2) (fsub y (of_int 1))) (2 * (Y - 1)) (2 * (1001 / 1000 * e + c + / 1000)) /\ Rabs (2 * (Y - 1)) <= 2 * c * D.
Proof.
  intros HD Ny E C HY. destruct one_spec as [F1 V1].
  assert (N1 : near D (of_int 1) 1 0) by (rewrite <- V1; apply near_const; [lra|exact F1]).
  assert (CD : 1 <= c * D) by (rewrite <- (Rmult_1_r 1); apply Rmult_le_compat; lra).
  assert (A : Rabs (Y - 1) <= c * D) by (apply Rabs_le; lra).
  pose proof (near_sub D HD _ _ _ _ e 0 c Ny N1 ltac:(lra) ltac:(lra) ltac:(lra) A) as B. split.
  - replace (1001 / 1000 * e + c + / 1000) with (1001 / 1000 * (e + 0) + c + / 1000) by ring. apply near_dbl; [exact B|].
    eapply near_size; [exact HD|exact B| |exact A|]; lra.
  - rewrite Rabs_mult, (Rabs_pos_eq 2) by lra. lra.
Qed.

Lemma quot_le {NP : NanPolicy} s k S K v w m c b : rel s S 125 -> rel k K 125 -> 0 < S -> 0 < K -> 1 + S + K <= 1048576 ->
  near (1 + S + K) v w m -> 0 <= m <= 1048576 -> Rabs w <= c * (1 + S + K) -> 0 <= c <= 65536 -> (1001 / 1000 * m + 132 * c + / 1000) * u <= b ->
  fin (fmul (nrm s k) v) = true /\ Rabs (val (fmul (nrm s k) v) - w / (1 + S + K)) <= b.
Proof.
  intros Rs Rk PS PK HD Nv Hm Hw Hc Hb. destruct (quot s k S K Rs Rk PS PK HD v w m c Nv Hm Hw Hc) as [F E]. split; [exact F|]. lra.
Qed.

Section Gain.
Context {NP : NanPolicy} {MO : MathOps f32}.
Variables (fc q sr : f32) (S K G : R).
Let s := snd (setup_coeffs fc q sr).
Let k2 := fst (setup_coeffs fc q sr).
Hypothesis Rs : rel s S 63.
Hypothesis Rk : rel k2 K 122.
Hypothesis HS : pow2 (-40) <= S <= 120.
Hypothesis HK : pow2 (-60) <= K <= 225.
Hypothesis SK : S <= 4 * (1 + K).
Hypothesis HG : 1 <= G <= 1024.
Variable h : f32.
Hypothesis Fh : fin h = true.
Hypothesis Hh : / G <= val h <= G.

Let PS : 0 < S. Proof. assert (0 < pow2 (-40)) by apply bpow_gt_0. lra. Qed.
Let PK : 0 < K. Proof. assert (0 < pow2 (-60)) by apply bpow_gt_0. lra. Qed.
Let Pi : / 1024 <= / G <= 1. Proof. split; [apply Rinv_le_contravar; lra|rewrite <- Rinv_1; apply Rinv_le_contravar; lra]. Qed.
Let Ph : / 1024 <= val h <= 1024. Proof. lra. Qed.
(** A product with the gain. *)
Let hx x : 0 <= x -> val h * x <= G * x /\ x <= G * (val h * x) /\ / 1024 * x <= val h * x <= 1024 * x.
Proof.
  intros H. split; [apply Rmult_le_compat_r; lra|]. split; [|split; apply Rmult_le_compat_r; lra].
  rewrite <- Rmult_assoc. rewrite <- (Rmult_1_l x) at 1. apply Rmult_le_compat_r; [exact H|].
  apply Rle_trans with (G * / G); [rewrite Rinv_r; lra|apply Rmult_le_compat_l; lra].
Qed.
Let Gx x : 0 <= x -> x <= G * x. Proof. intros H. rewrite <- (Rmult_1_l x) at 1. apply Rmult_le_compat_r; lra. Qed.
Let GD a b : 0 <= a -> 0 <= b -> G * (1 + a + b) = G + G * a + G * b. Proof. intros; ring. Qed.

Let low x : pow2 (-60) <= x -> pow2 (-90) <= x /\ pow2 (-90) <= val h * x.
Proof.
  intros H. assert (P : 0 < pow2 (-60)) by apply bpow_gt_0. assert (pow2 (-90) <= pow2 (-60)) by (apply bpow_le; lia). split; [lra|].
  apply Rle_trans with (pow2 (-10) * pow2 (-60)); [rewrite <- bpow_plus; apply bpow_le; lia|]. replace (pow2 (-10)) with (/ 1024) by (cbn; lra).
  apply Rmult_le_compat; lra.
Qed.
Let S60 : pow2 (-60) <= S. Proof. assert (pow2 (-60) <= pow2 (-40)) by (apply bpow_le; lia). lra. Qed.

Lemma gs_rel : rel (fmul h s) (val h * S) 65.
Proof.
  destruct (low S S60) as [L1 L2]. destruct (rel_mul h s S 63 Fh ltac:(lra) Rs ltac:(lra) ltac:(lra) L2) as [F E].
  split; [exact F|]. eapply Rle_trans; [exact E|]. apply Rmult_le_compat_r; [|lra]. pose proof u_pos. apply Rmult_le_pos; [lra|]. apply Rmult_le_pos; lra.
Qed.
Lemma gk_rel : rel (fmul h k2) (val h * K) 124.
Proof.
  destruct (low K (proj1 HK)) as [L1 L2]. destruct (rel_mul h k2 K 122 Fh ltac:(lra) Rk ltac:(lra) ltac:(lra) L2) as [F E].
  split; [exact F|]. eapply Rle_trans; [exact E|]. apply Rmult_le_compat_r; [|lra]. pose proof u_pos. apply Rmult_le_pos; [lra|]. apply Rmult_le_pos; lra.
Qed.
Lemma rel_weaken x r e e' : 0 <= r -> e <= e' -> rel x r e -> rel x r e'.
Proof. intros Hr He [F E]. split; [exact F|]. eapply Rle_trans; [exact E|]. apply Rmult_le_compat_r; [|exact He]. pose proof u_pos. apply Rmult_le_pos; lra. Qed.

Lemma rt_rel : close_sqrt MO -> rel (m_sqrt (fmul (fmul h (of_int 2)) k2)) (sqrt (2 * (val h * K))) 82.
Proof.
  intros HQ. destruct (low K (proj1 HK)) as [L1 L2]. pose proof PS as PS'; pose proof PK as PK'; destruct (hx K ltac:(lra)) as (_ & _ & B).
  destruct (dbl_exact h Fh) as [_ [F2 V2]]; [rewrite Rabs_pos_eq; lra|].
  assert (P90 : 0 < pow2 (-90)) by apply bpow_gt_0.
  assert (L3 : pow2 (-90) <= val (fmul h (of_int 2)) * K) by (rewrite V2; lra).
  assert (Rp : rel (fmul (fmul h (of_int 2)) k2) (val (fmul h (of_int 2)) * K) (122 + 1001 / 1000)).
  { apply rel_mul; auto; rewrite ?V2; lra. }
  rewrite V2 in Rp. replace (2 * val h * K) with (2 * (val h * K)) in Rp by ring.
  set (p := fmul (fmul h (of_int 2)) k2) in *. clearbody p. set (P := 2 * (val h * K)) in *.
  assert (P0 : 0 < P) by (unfold P; lra). destruct Rp as [Fp Ep].
  destruct (sqrt_err (val p) P (122 + 1001 / 1000) P0 ltac:(lra) Ep) as [Vp Es].
  assert (SP : 0 < sqrt P) by (apply sqrt_lt_R0; exact P0). pose proof u_pos as U.
  assert (X : u * P <= / 16777216 * P) by (unfold u; lra). apply Rabs_le_inv in Ep.
  assert (Pl : pow2 (-79) <= P).
  { unfold P. apply Rle_trans with (2 * (/ 1024 * pow2 (-60))); [|lra]. change (/ 1024) with (pow2 (-10)). change 2 with (pow2 1). rewrite <- !bpow_plus. apply bpow_le. lia. }
  assert (P79 : pow2 (-79) = 2 * pow2 (-80)) by (change 2 with (pow2 1); rewrite <- bpow_plus; reflexivity).
  assert (0 < pow2 (-80)) by apply bpow_gt_0.
  destruct (HQ p Fp) as [Fq Eq].
  { split; [lra|]. change (pow2 40) with 1099511627776. unfold P in *. lra. }
  split; [exact Fq|]. replace (pow2 (-20)) with (16 * u) in Eq by (unfold u; cbn; lra).
  apply Rabs_le_inv in Es. assert (Y : u * sqrt P <= / 16777216 * sqrt P) by (unfold u; lra).
  assert (Q : 16 * u * sqrt (val p) <= 17 * (u * sqrt P)).
  { replace (16 * u * sqrt (val p)) with (u * (16 * sqrt (val p))) by ring. replace (17 * (u * sqrt P)) with (u * (17 * sqrt P)) by ring. apply Rmult_le_compat_l; lra. }
  assert (Z : 0 <= u * sqrt P) by (apply Rmult_le_pos; lra).
  apply Rabs_le_inv in Eq. apply Rabs_le. lra.
Qed.

Lemma within5 e (c : coeffs f32) (d : coeffs R) :
  (fin (b0 c) = true /\ Rabs (val (b0 c) - b0 d) <= e) -> (fin (b1 c) = true /\ Rabs (val (b1 c) - b1 d) <= e) ->
  (fin (b2 c) = true /\ Rabs (val (b2 c) - b2 d) <= e) -> (fin (a1 c) = true /\ Rabs (val (a1 c) - a1 d) <= e) ->
  (fin (a2 c) = true /\ Rabs (val (a2 c) - a2 d) <= e) -> coeffs_within e c d.
Proof. intros [? ?] [? ?] [? ?] [? ?] [? ?]. repeat split; assumption. Qed.

Ltac shape' := rewrite (surjective_pairing (setup_coeffs fc q sr)); unfold nrm, a0_; fold s k2; reflexivity.
Lemma bell_boost_all : bell_boost_only fc q h sr = let n := nrm s k2 in let d := fmul n (fmul (of_int 2) (fsub k2 (of_int 1))) in
  BC (fmul n (fadd (fadd (of_int 1) (fmul h s)) k2)) d (fmul n (fadd (fsub (of_int 1) (fmul h s)) k2)) d (fmul n (fadd (fsub (of_int 1) s) k2)).
Proof. unfold bell_boost_only. shape'. Qed.
Lemma bell_cut_all g : fneg g = h -> bell_cut_only fc q g sr = let n := nrm (fmul h s) k2 in let d := fmul n (fmul (of_int 2) (fsub k2 (of_int 1))) in
  BC (fmul n (fadd (fadd (of_int 1) s) k2)) d (fmul n (fadd (fsub (of_int 1) s) k2)) d (fmul n (fadd (fsub (of_int 1) (fmul h s)) k2)).
Proof. intros <-. unfold bell_cut_only. shape'. Qed.
Let rt := m_sqrt (fmul (fmul h (of_int 2)) k2).
Lemma shelf_boost_all : low_shelf_boost_only fc q h sr = let n := nrm s k2 in
  BC (fmul n (fadd (fadd (of_int 1) rt) (fmul h k2))) (fmul n (fmul (of_int 2) (fsub (fmul h k2) (of_int 1)))) (fmul n (fadd (fsub (of_int 1) rt) (fmul h k2)))
     (fmul n (fmul (of_int 2) (fsub k2 (of_int 1)))) (fmul n (fadd (fsub (of_int 1) s) k2)).
Proof. unfold low_shelf_boost_only, rt. shape'. Qed.
Lemma shelf_cut_all g : fneg g = h -> low_shelf_cut_only fc q g sr = let n := nrm rt (fmul h k2) in
  BC (fmul n (fadd (fadd (of_int 1) s) k2)) (fmul n (fmul (of_int 2) (fsub k2 (of_int 1)))) (fmul n (fadd (fsub (of_int 1) s) k2))
     (fmul n (fmul (of_int 2) (fsub (fmul h k2) (of_int 1)))) (fmul n (fadd (fsub (of_int 1) rt) (fmul h k2))).
Proof. intros E. unfold low_shelf_cut_only, rt. rewrite <- E. shape'. Qed.

(** The pieces of the bell over a denominator [D] that bounds them. *)
Lemma bell_pieces D : 1 <= D <= 1048576 -> S <= G * D -> val h * S <= G * D -> K <= D -> 1 + S + K <= G * D -> 1 + val h * S + K <= G * D ->
  let ok v w := near D v w (250 * G) /\ Rabs w <= 2 * G * D in
  near D (fadd (fadd (of_int 1) s) k2) (1 + S + K) (200 * G) /\ near D (fadd (fsub (of_int 1) s) k2) (1 - S + K) (200 * G) /\
  near D (fadd (fadd (of_int 1) (fmul h s)) k2) (1 + val h * S + K) (200 * G) /\ near D (fadd (fsub (of_int 1) (fmul h s)) k2) (1 - val h * S + K) (200 * G) /\
  near D (fmul (of_int 2) (fsub k2 (of_int 1))) (2 * (K - 1)) (250 * G) /\
  Rabs (1 + S + K) <= G * D /\ Rabs (1 - S + K) <= G * D /\ Rabs (1 + val h * S + K) <= G * D /\ Rabs (1 - val h * S + K) <= G * D /\ Rabs (2 * (K - 1)) <= 2 * G * D.
Proof.
  intros HD H1 H2 H3 H4 H5 ok. pose proof PS as PS'; pose proof PK as PK'; destruct (hx S ltac:(lra)) as (_ & _ & B).
  pose proof (near_of_rel D s S 63 G ltac:(lra) ltac:(lra) Rs) as N1.
  pose proof (near_of_rel D (fmul h s) (val h * S) 65 G ltac:(lra) ltac:(lra) gs_rel) as N2.
  pose proof (near_of_rel D k2 K 122 1 ltac:(lra) ltac:(lra) Rk) as N3.
  destruct (num_ok D s k2 S K (63 * G) (122 * 1) G G HD N1 N3) as (A1 & A2 & A3 & A4); try lra.
  destruct (num_ok D _ k2 _ K (65 * G) (122 * 1) G G HD N2 N3) as (B1 & B2 & B3 & B4); try lra.
  destruct (diff_ok D k2 K (122 * 1) 1 HD N3) as [C1 C2]; try lra.
  assert (GD' : 2 * 1 * D <= 2 * G * D) by (apply Rmult_le_compat_r; lra).
  conjs; try assumption; try (eapply near_weaken; [|idtac|eassumption]; lra). lra.
Qed.

Lemma shelf_pieces D : close_sqrt MO -> 1 <= D <= 1048576 -> S <= 4 * G * D -> K <= G * D -> sqrt (2 * (val h * K)) <= G * D -> val h * K <= G * D ->
  1 + S + K <= 5 * G * D -> 1 + sqrt (2 * (val h * K)) + val h * K <= 2 * G * D ->
  let R := sqrt (2 * (val h * K)) in
  near D (fadd (fadd (of_int 1) s) k2) (1 + S + K) (390 * G) /\ near D (fadd (fsub (of_int 1) s) k2) (1 - S + K) (390 * G) /\
  near D (fadd (fadd (of_int 1) rt) (fmul h k2)) (1 + R + val h * K) (390 * G) /\ near D (fadd (fsub (of_int 1) rt) (fmul h k2)) (1 - R + val h * K) (390 * G) /\
  near D (fmul (of_int 2) (fsub k2 (of_int 1))) (2 * (K - 1)) (260 * G) /\ near D (fmul (of_int 2) (fsub (fmul h k2) (of_int 1))) (2 * (val h * K - 1)) (260 * G) /\
  Rabs (1 + S + K) <= 5 * G * D /\ Rabs (1 - S + K) <= 5 * G * D /\ Rabs (1 + R + val h * K) <= 5 * G * D /\ Rabs (1 - R + val h * K) <= 5 * G * D /\
  Rabs (2 * (K - 1)) <= 2 * G * D /\ Rabs (2 * (val h * K - 1)) <= 2 * G * D.
Proof.
  intros HQ HD H1 H2 H3 H4 H5 H6 R. pose proof PS as PS'; pose proof PK as PK'; destruct (hx K ltac:(lra)) as (_ & _ & B).
  assert (R0 : 0 <= R) by apply sqrt_pos. pose proof (rt_rel HQ) as Rr. fold rt R in Rr. fold R in H3, H6. clearbody R.
  pose proof (near_of_rel D s S 63 (4 * G) ltac:(lra) ltac:(lra) Rs) as N1.
  pose proof (near_of_rel D (fmul h k2) (val h * K) 124 G ltac:(lra) ltac:(lra) gk_rel) as N2.
  pose proof (near_of_rel D k2 K 122 G ltac:(lra) ltac:(lra) Rk) as N3.
  pose proof (near_of_rel D rt R 82 G ltac:(lra) ltac:(lra) Rr) as N4.
  destruct (num_ok D s k2 S K (63 * (4 * G)) (122 * G) (5 * G) (5 * G) HD N1 N3) as (A1 & A2 & A3 & A4); try lra.
  destruct (num_ok D rt (fmul h k2) R (val h * K) (82 * G) (124 * G) (2 * G) (2 * G) HD N4 N2) as (B1 & B2 & B3 & B4); try lra.
  destruct (diff_ok D k2 K (122 * G) G HD N3) as [C1 C2]; try lra.
  destruct (diff_ok D _ (val h * K) (124 * G) G HD N2) as [E1 E2]; try lra.
  assert (GD' : 2 * G * D <= 5 * G * D) by (apply Rmult_le_compat_r; lra).
  conjs; try assumption; try (eapply near_weaken; [|idtac|eassumption]; lra); lra.
Qed.

Let tol1 : (1001 / 1000 * (200 * G) + 132 * G + / 1000) * u <= G * pow2 (-14).
Proof. replace (pow2 (-14)) with (1024 * u) by (unfold u; cbn; lra). unfold u. lra. Qed.
Let tol2 : (1001 / 1000 * (250 * G) + 132 * (2 * G) + / 1000) * u <= G * pow2 (-14).
Proof. replace (pow2 (-14)) with (1024 * u) by (unfold u; cbn; lra). unfold u. lra. Qed.
Let tol3 : (1001 / 1000 * (390 * G) + 132 * (5 * G) + / 1000) * u <= G * pow2 (-13).
Proof. replace (pow2 (-13)) with (2048 * u) by (unfold u; cbn; lra). unfold u. lra. Qed.
Let tol4 : (1001 / 1000 * (260 * G) + 132 * (2 * G) + / 1000) * u <= G * pow2 (-13).
Proof. replace (pow2 (-13)) with (2048 * u) by (unfold u; cbn; lra). unfold u. lra. Qed.

Lemma bell_boost_near : coeffs_within (G * pow2 (-14)) (bell_boost_only fc q h sr)
  (BC ((1 + val h * S + K) / (1 + S + K)) (2 * (K - 1) / (1 + S + K)) ((1 - val h * S + K) / (1 + S + K)) (2 * (K - 1) / (1 + S + K)) ((1 - S + K) / (1 + S + K))).
Proof.
  rewrite bell_boost_all. pose proof PS as PS'; pose proof PK as PK'; destruct (hx S ltac:(lra)) as (B1 & B2 & B3). pose proof (Gx S ltac:(lra)). pose proof (Gx K ltac:(lra)).
  pose proof (rel_weaken s S 63 125 ltac:(lra) ltac:(lra) Rs) as Q1. pose proof (rel_weaken k2 K 122 125 ltac:(lra) ltac:(lra) Rk) as Q2.
  assert (GG : G * (1 + S + K) = G + G * S + G * K) by ring.
  destruct (bell_pieces (1 + S + K)) as (A1 & A2 & A3 & A4 & A5 & C1 & C2 & C3 & C4 & C5); try lra.
  cbv zeta. apply within5; cbn [b0 b1 b2 a1 a2].
  all: first [eapply (quot_le _ _ _ _ _ _ (200 * G) G); eauto; lra | eapply (quot_le _ _ _ _ _ _ (250 * G) (2 * G)); eauto; lra].
Qed.
Lemma bell_cut_near g : fneg g = h -> coeffs_within (G * pow2 (-14)) (bell_cut_only fc q g sr)
  (BC ((1 + S + K) / (1 + val h * S + K)) (2 * (K - 1) / (1 + val h * S + K)) ((1 - S + K) / (1 + val h * S + K)) (2 * (K - 1) / (1 + val h * S + K))
     ((1 - val h * S + K) / (1 + val h * S + K))).
Proof.
  intros E. rewrite (bell_cut_all g E). pose proof PS as PS'; pose proof PK as PK'; destruct (hx S ltac:(lra)) as (B1 & B2 & B3). pose proof (Gx S ltac:(lra)). pose proof (Gx K ltac:(lra)). pose proof (Gx (val h * S) ltac:(lra)).
  pose proof (rel_weaken (fmul h s) (val h * S) 65 125 ltac:(lra) ltac:(lra) gs_rel) as Q1. pose proof (rel_weaken k2 K 122 125 ltac:(lra) ltac:(lra) Rk) as Q2.
  assert (GG : G * (1 + val h * S + K) = G + G * (val h * S) + G * K) by ring.
  destruct (bell_pieces (1 + val h * S + K)) as (A1 & A2 & A3 & A4 & A5 & C1 & C2 & C3 & C4 & C5); try lra.
  cbv zeta. apply within5; cbn [b0 b1 b2 a1 a2].
  all: first [eapply (quot_le _ _ _ _ _ _ (200 * G) G); eauto; lra | eapply (quot_le _ _ _ _ _ _ (250 * G) (2 * G)); eauto; lra].
Qed.
Let R := sqrt (2 * (val h * K)).
Lemma R_le : 0 < R /\ R <= 1 / 2 + val h * K.
Proof.
  pose proof PS as PS'; pose proof PK as PK'; destruct (hx K ltac:(lra)) as (B1 & B2 & B3). assert (P : 0 < 2 * (val h * K)) by lra. split; [apply sqrt_lt_R0; exact P|].
  unfold R. assert (Q : sqrt (2 * (val h * K)) * sqrt (2 * (val h * K)) = 2 * (val h * K)) by (apply sqrt_sqrt; lra).
  set (x := sqrt (2 * (val h * K))) in *. pose proof (Rle_0_sqr (x - 1)) as H. unfold Rsqr in H. lra.
Qed.
Lemma shelf_boost_near : close_sqrt MO -> coeffs_within (G * pow2 (-13)) (low_shelf_boost_only fc q h sr)
  (BC ((1 + R + val h * K) / (1 + S + K)) (2 * (val h * K - 1) / (1 + S + K)) ((1 - R + val h * K) / (1 + S + K)) (2 * (K - 1) / (1 + S + K)) ((1 - S + K) / (1 + S + K))).
Proof.
  intros HQ. rewrite shelf_boost_all. pose proof PS as PS'; pose proof PK as PK'; destruct (hx K ltac:(lra)) as (B1 & B2 & B3). pose proof (Gx S ltac:(lra)). pose proof (Gx K ltac:(lra)). pose proof R_le as HR.
  pose proof (rel_weaken s S 63 125 ltac:(lra) ltac:(lra) Rs) as Q1. pose proof (rel_weaken k2 K 122 125 ltac:(lra) ltac:(lra) Rk) as Q2.
  assert (GG : G * (1 + S + K) = G + G * S + G * K) by ring.
  destruct (shelf_pieces (1 + S + K) HQ) as (A1 & A2 & A3 & A4 & A5 & A6 & C1 & C2 & C3 & C4 & C5 & C6); fold R; try lra.
  cbv zeta. apply within5; cbn [b0 b1 b2 a1 a2].
  all: first [eapply (quot_le _ _ _ _ _ _ (390 * G) (5 * G)); eauto; lra | eapply (quot_le _ _ _ _ _ _ (260 * G) (2 * G)); eauto; lra].
Qed.
Lemma shelf_cut_near g : close_sqrt MO -> fneg g = h -> coeffs_within (G * pow2 (-13)) (low_shelf_cut_only fc q g sr)
  (BC ((1 + S + K) / (1 + R + val h * K)) (2 * (K - 1) / (1 + R + val h * K)) ((1 - S + K) / (1 + R + val h * K)) (2 * (val h * K - 1) / (1 + R + val h * K))
     ((1 - R + val h * K) / (1 + R + val h * K))).
Proof.
  intros HQ E. rewrite (shelf_cut_all g E). pose proof PS as PS'; pose proof PK as PK'; destruct (hx K ltac:(lra)) as (B1 & B2 & B3). pose proof (Gx (val h * K) ltac:(lra)). pose proof R_le as HR. pose proof (Gx R ltac:(lra)).
  pose proof (rel_weaken rt R 82 125 ltac:(lra) ltac:(lra) (rt_rel HQ)) as Q1. fold rt R in Q1. pose proof (rel_weaken (fmul h k2) (val h * K) 124 125 ltac:(lra) ltac:(lra) gk_rel) as Q2.
  assert (GG : G * (1 + R + val h * K) = G + G * R + G * (val h * K)) by ring.
  destruct (shelf_pieces (1 + R + val h * K) HQ) as (A1 & A2 & A3 & A4 & A5 & A6 & C1 & C2 & C3 & C4 & C5 & C6); fold R; try lra.
  cbv zeta. apply within5; cbn [b0 b1 b2 a1 a2].
  all: first [eapply (quot_le _ _ _ _ _ _ (390 * G) (5 * G)); eauto; lra | eapply (quot_le _ _ _ _ _ _ (260 * G) (2 * G)); eauto; lra].
Qed.
End Gain.

(** ** Gains by sign *)
Lemma gain_sign G g : 1 <= G -> gain_within G g ->
  (is_sign_positive g = true /\ / G <= val g <= G) \/ (is_sign_positive g = false /\ / G <= - val g <= G).
Proof.
  intros HG [F H]. assert (P : 0 < / G) by (apply Rinv_0_lt_compat; lra).
  destruct g as [b|b|b pl e0|b m e B]; try discriminate.
  - change (val (B754_zero 24 128 b)) with 0 in H. rewrite Rabs_R0 in H. lra.
  - unfold is_sign_positive. change (sgn (B754_finite 24 128 b m e B)) with b. change (val (B754_finite 24 128 b m e B)) with (F2R (Float radix2 (cond_Zopp b (Zpos m)) e)) in *.
    destruct b; cbn [cond_Zopp negb] in *.
    + right. split; [reflexivity|]. assert (N : F2R (Float radix2 (Zneg m) e) < 0) by (apply F2R_lt_0; reflexivity). change (- Z.pos m)%Z with (Zneg m) in H |- *. rewrite Rabs_left in H; lra.
    + left. split; [reflexivity|]. assert (N : 0 < F2R (Float radix2 (Zpos m) e)) by (apply F2R_gt_0; reflexivity). rewrite Rabs_pos_eq in H; lra.
Qed.

Lemma design_facts {NP : NanPolicy} (MO : MathOps f32) (fc q sr : f32) : close_powi MO -> design_args (pow2 (-30)) (3 / 2) fc q sr ->
  let S := design_k (val fc) (val sr) / val q in let K := design_k (val fc) (val sr) * design_k (val fc) (val sr) in
  rel (snd (setup_coeffs fc q sr)) S 63 /\ rel (fst (setup_coeffs fc q sr)) K 122 /\ pow2 (-40) <= S <= 120 /\ pow2 (-60) <= K <= 225 /\ S <= 4 * (1 + K) /\
  0 < val fc /\ 0 < val q /\ 0 < val sr.
Proof.
  intros HM (Ff & Hs & Hx & Hq) S K. destruct (setup_ok MO fc q sr HM Ff Hs Hx Hq) as (HK & F1 & F2 & E1 & E2).
  unfold S, K. set (k := design_k (val fc) (val sr)) in *. clearbody k. pose proof u_pos as U.
  assert (X0 : 0 < pow2 (-30)) by apply bpow_gt_0.
  assert (Qb : / 1024 <= / val q <= 8).
  { split; [apply Rinv_le_contravar; lra|]. apply Rle_trans with (/ (/ 8)); [apply Rinv_le_contravar; lra|lra]. }
  unfold Rdiv in *. set (i := / val q) in *. clearbody i.
  assert (A1 : pow2 (-30) * / 1024 <= k * i) by (apply Rmult_le_compat; lra).
  assert (A2 : k * i <= 15 * 8) by (apply Rmult_le_compat; lra).
  assert (A2' : k * i <= k * 8) by (apply Rmult_le_compat_l; lra).
  assert (A3 : pow2 (-30) * pow2 (-30) <= k * k) by (apply Rmult_le_compat; lra).
  assert (A4 : k * k <= 15 * 15) by (apply Rmult_le_compat; lra).
  assert (A5 : pow2 (-30) * / 1024 = pow2 (-40)) by (change (/ 1024) with (pow2 (-10)); rewrite <- bpow_plus; reflexivity).
  assert (A6 : pow2 (-30) * pow2 (-30) = pow2 (-60)) by (rewrite <- bpow_plus; reflexivity).
  assert (0 < pow2 (-40)) by apply bpow_gt_0.
  split; [split; [exact F1|]|split; [split; [exact F2|]|]].
  - replace (63 * (u * (k * i))) with (63 * u * (k * i)) by ring. eapply Rle_trans; [exact E1|]. apply Rmult_le_compat_r; [lra|unfold u; lra].
  - replace (122 * (u * (k * k))) with (122 * u * (k * k)) by ring. exact E2.
  - pose proof (Rle_0_sqr (k - 1)) as Sq. unfold Rsqr in Sq. repeat split; try lra.
    assert (Y : 0 < pi32 * val fc / val sr * val sr) by (apply Rmult_lt_0_compat; unfold Rdiv in *; lra).
    replace (pi32 * val fc / val sr * val sr) with (pi32 * val fc) in Y by (field; lra). pose proof pi32_range. nra.
Qed.

(** C101: for gains between 1/G and G in magnitude, boosting or cutting, the coefficients of [bell] computed in f32 are
    within G 2^-14 of those of the same design in exact arithmetic, from 10^-9 to 0.47 of the sample rate. *)
Theorem C101_bell_accuracy : forall (NP : NanPolicy) (MO : MathOps f32) (MR : MathOps R) (G : R) (fc q gain sr : f32),
  close_powi MO -> exact_powi MR -> design_args (pow2 (-30)) (3 / 2) fc q sr -> 1 <= G <= 1024 -> gain_within G gain ->
  coeffs_within (G * pow2 (-14)) (bell fc q gain sr) (bell (val fc) (val q) (val gain) (val sr)).
Proof.
  intros NP MO MR G fc q g sr HM HR HA HG Hg. destruct (design_facts MO fc q sr HM HA) as (Rs & Rk & HS & HK & SK & Pf & Pq & Ps).
  assert (P : 0 < / G) by (apply Rinv_0_lt_compat; lra). pose proof Hg as [Fg _].
  destruct (gain_sign G g ltac:(lra) Hg) as [[E B]|[E B]].
  - assert (E1 : bell fc q g sr = bell_boost_only fc q g sr) by (unfold bell; change (@npos f32 num_f32) with is_sign_positive; now rewrite E). rewrite E1.
    rewrite bell_pos by lra. rewrite (bell_boost_form MR HR _ _ _ Pf Pq Ps). eapply bell_boost_near; eauto.
  - assert (E1 : bell fc q g sr = bell_cut_only fc q g sr) by (unfold bell; change (@npos f32 num_f32) with is_sign_positive; now rewrite E). rewrite E1.
    replace (val g) with (- val (fneg g)) by (rewrite val_fneg; ring). rewrite <- val_fneg in B. rewrite bell_neg by lra.
    rewrite (bell_cut_form MR HR _ _ _ Pf Pq Ps) by lra. eapply bell_cut_near; eauto. now rewrite fin_fneg.
Qed.
Print Assumptions C101_bell_accuracy.

(** C101: those of [low_shelf] are within G 2^-13, with an external square root good to a relative 2^-20. *)
Theorem C101_low_shelf_accuracy : forall (NP : NanPolicy) (MO : MathOps f32) (MR : MathOps R) (G : R) (fc q gain sr : f32),
  close_powi MO -> close_sqrt MO -> exact_powi MR -> exact_sqrt MR -> design_args (pow2 (-30)) (3 / 2) fc q sr -> 1 <= G <= 1024 -> gain_within G gain ->
  coeffs_within (G * pow2 (-13)) (low_shelf fc q gain sr) (low_shelf (val fc) (val q) (val gain) (val sr)).
Proof.
  intros NP MO MR G fc q g sr HM HQ HR HQR HA HG Hg. destruct (design_facts MO fc q sr HM HA) as (Rs & Rk & HS & HK & SK & Pf & Pq & Ps).
  assert (P : 0 < / G) by (apply Rinv_0_lt_compat; lra). pose proof Hg as [Fg _].
  destruct (gain_sign G g ltac:(lra) Hg) as [[E B]|[E B]].
  - assert (E1 : low_shelf fc q g sr = low_shelf_boost_only fc q g sr) by (unfold low_shelf; change (@npos f32 num_f32) with is_sign_positive; now rewrite E). rewrite E1.
    rewrite low_shelf_pos by lra. rewrite (low_shelf_boost_form MR HR HQR _ _ _ Pf Pq Ps) by lra. eapply shelf_boost_near; eauto.
  - assert (E1 : low_shelf fc q g sr = low_shelf_cut_only fc q g sr) by (unfold low_shelf; change (@npos f32 num_f32) with is_sign_positive; now rewrite E). rewrite E1.
    replace (val g) with (- val (fneg g)) by (rewrite val_fneg; ring). rewrite <- val_fneg in B. rewrite low_shelf_neg by lra.
    rewrite (low_shelf_cut_form MR HR HQR _ _ _ Pf Pq Ps) by lra. eapply shelf_cut_near; eauto. now rewrite fin_fneg.
Qed.
Print Assumptions C101_low_shelf_accuracy.

(** Met by functions that round the mathematical result: bell and shelf at 1 kHz, gain 4 and -4. *)
Example C101_met (NP : NanPolicy) : exact_powi powi_math /\ exact_sqrt powi_math /\ close_powi nearest_math /\ close_sqrt nearest_math /\ design_args (pow2 (-30)) (3 / 2) (of_int 1000) (of_int 1) (of_int 48000) /\
  gain_within 4 (of_int 4) /\ gain_within 4 (of_int (-4)).
Proof.
  split; [exact powi_math_exact|split; [exact powi_math_sqrt|split; [|split; [|split; [|split]]]]].
  - intros x n Hn Fx Hx. cbn [m_powi nearest_math].
    assert (E : powerRZ (val x) n = val x ^ Z.to_nat n) by (rewrite pow_powerRZ, Z2Nat.id; [reflexivity|lia]). rewrite E.
    assert (N : (Z.to_nat n <= 15)%nat) by lia. generalize dependent (Z.to_nat n). intros k _ Hk.
    assert (B : Rabs (val x ^ k) <= pow2 15).
    { rewrite <- RPow_abs. apply Rle_trans with (2 ^ k); [apply pow_incr; split; [apply Rabs_pos|lra]|].
      change (pow2 15) with 32768. replace 32768 with (2 ^ 15) by (cbn [pow]; lra). apply Rle_pow; [lra|lia]. }
    destruct (nearest_spec (val x ^ k)) as [F V].
    { eapply Rle_trans; [exact B|]. apply bpow_le. lia. }
    split; [exact F|]. rewrite V. eapply Rle_trans; [apply rnd_err|]. rewrite <- RPow_abs.
    apply Rplus_le_compat; [|apply bpow_le; lia]. apply Rmult_le_compat_r; [apply pow_le, Rabs_pos|]. apply bpow_le. lia.
  - intros x Fx Hx. cbn [m_sqrt nearest_math]. assert (P : 0 < pow2 (-80)) by apply bpow_gt_0.
    assert (S0 : pow2 (-40) <= sqrt (val x)).
    { replace (pow2 (-40)) with (sqrt (pow2 (-80))); [apply sqrt_le_1; lra|]. change (-80)%Z with (-40 + -40)%Z. rewrite bpow_plus. apply sqrt_square, bpow_ge_0. }
    assert (S1 : sqrt (val x) <= pow2 20).
    { replace (pow2 20) with (sqrt (pow2 40)); [apply sqrt_le_1; try lra; apply bpow_ge_0|]. change 40%Z with (20 + 20)%Z. rewrite bpow_plus. apply sqrt_square, bpow_ge_0. }
    assert (P4 : 0 < pow2 (-40)) by apply bpow_gt_0.
    destruct (nearest_spec (sqrt (val x))) as [F V].
    { rewrite Rabs_pos_eq by lra. eapply Rle_trans; [exact S1|]. apply bpow_le. lia. }
    split; [exact F|]. rewrite V. eapply Rle_trans; [apply P_Interp.rnd_err_rel|].
    { rewrite Rabs_pos_eq by lra. eapply Rle_trans; [|exact S0]. apply bpow_le. lia. }
    rewrite Rabs_pos_eq by lra. apply Rmult_le_compat_r; [lra|]. apply bpow_le. lia.
  - destruct (of_int_exact 1000 ltac:(lia)) as [F1 V1]. destruct (of_int_exact 1 ltac:(lia)) as [F2 V2]. destruct (of_int_exact 48000 ltac:(lia)) as [F3 V3].
    unfold design_args. rewrite V1, V2, V3. pose proof pi32_range. change (pow2 (-30)) with (/ 1073741824). repeat split; auto; try lra; unfold Rdiv; nra.
  - destruct (of_int_exact 4 ltac:(lia)) as [F1 V1]. split; [exact F1|]. rewrite V1, Rabs_pos_eq; lra.
  - destruct (of_int_exact (-4) ltac:(lia)) as [F1 V1]. split; [exact F1|]. rewrite V1, Rabs_left; lra.
Qed.
