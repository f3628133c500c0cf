(** * Proofs for C114: an input that dies away. *)

From Coq Require Import ZArith List Bool Reals Lia Lra Psatz.
From Flocq Require Import Core.
From Verif Require Import Base F32 F32Lemmas F32Range Num M_Memory M_Delay M_Biquad S_Memory S_Delay S_Biquad S_BiquadF32 S_Comb S_Network S_NetworkF32 S_Tail S_NetworkTail
  P_Delay P_DelayNum P_Comb P_Biquad P_BiquadF32 P_BiquadMore P_EndToEnd P_Tail P_TailBiquad P_TailComb P_NetworkAcc T_Network.
Import ListNotations.
Local Open Scope R_scope.

(** ** The all-pass as a sequence, in any arithmetic *)
Section Pass.
Context {F : Type} {NF : Num F}.
Variables (d0 : list F) (x : nat -> F).
Local Open Scope num_scope.
Fixpoint pst (k : nat) : list F :=
  match k with O => d0 | S j => let d := pst j in d ++ [x j + nth j d (nint 0) * ndy 1 (-1)] end.
Definition pv (k : nat) : F := nth k (pst k) (nint 0).
Lemma pst_len k : length (pst k) = (length d0 + k)%nat.
Proof. induction k as [|k IH]; [cbn; lia|]. cbn [pst]. rewrite app_length, IH. cbn. lia. Qed.
Lemma pst_stable k j i : (i < length d0 + k)%nat -> nth i (pst (k + j)) (nint 0) = nth i (pst k) (nint 0).
Proof.
  intros Hi. induction j as [|j IH]; [now rewrite Nat.add_0_r|]. rewrite Nat.add_succ_r. cbn [pst]. rewrite app_nth1, IH; [reflexivity|].
  rewrite pst_len. lia.
Qed.
Lemma pv_next k : (0 < length d0)%nat -> pv (k + length d0) = x k + pv k * ndy 1 (-1).
Proof.
  intros Hn. unfold pv at 1. replace (k + length d0)%nat with (S k + (length d0 - 1))%nat at 2 by lia. rewrite pst_stable by lia.
  cbn [pst]. rewrite app_nth2 by (rewrite pst_len; lia). rewrite pst_len. replace (k + length d0 - (length d0 + k))%nat with 0%nat by lia. reflexivity.
Qed.
Lemma pass_seq N : forall k, ap_spec (pst k) k (map x (seq k N)) = map (fun i => (- x i) + pv i) (seq k N).
Proof. induction N as [|N IH]; intros k; [reflexivity|]. cbn [seq map ap_spec]. f_equal. exact (IH (S k)). Qed.
End Pass.

(** ** A plan as a function on endless signals *)
Section Stream.
Context {F : Type} {NF : Num F}.
Fixpoint stream (p : plan F) (x : nat -> F) : nat -> F :=
  match p with
  | PDelay l => fun k => if (k <? length l)%nat then nth k l (nint 0) else x (k - length l)%nat
  | PComb l damp fb => fy l 0 (nint 0) damp fb x
  | PPass l => fun k => nadd (nneg (x k)) (pv l x k)
  | PFilter c => response (bq_new c) x
  | PScale g => fun k => nmul (x k) g
  | PSeries p q => stream q (stream p x)
  | PMix p q => fun k => nadd (stream p x k) (stream q x k)
  end.

Lemma filtered_stream (b : biquad F) x N : filtered b (map x (seq 0 N)) = map (response b x) (seq 0 N).
Proof.
  change b with (after b x 0) at 1. generalize 0%nat. induction N as [|N IH]; intros k; [reflexivity|]. cbn [seq map filtered]. f_equal.
  change (fst (bq_process (after b x k) (x k))) with (after b x (S k)). apply IH.
Qed.
Lemma added_map (u v : nat -> F) : forall l, added (map u l) (map v l) = map (fun k => nadd (u k) (v k)) l.
Proof. induction l as [|k l IH]; [reflexivity|]. cbn [map added]. now rewrite IH. Qed.
Lemma delay_stream (l : list F) x N : firstn N (l ++ map x (seq 0 N)) = map (stream (PDelay l) x) (seq 0 N).
Proof.
  apply nth_ext with (nint 0) (stream (PDelay l) x 0%nat); [rewrite firstn_length, app_length, !map_length, seq_length; lia|].
  intros i Hi. rewrite firstn_length, app_length, map_length, seq_length in Hi. assert (Hi' : (i < N)%nat) by lia.
  rewrite map_nth, seq_nth by exact Hi'. cbn [Nat.add stream].
  transitivity (nth i (l ++ map x (seq 0 N)) (nint 0)).
  { rewrite <- (firstn_skipn N (l ++ map x (seq 0 N))) at 2. rewrite app_nth1; [reflexivity|]. rewrite firstn_length, app_length, map_length, seq_length. lia. }
  destruct (Nat.ltb_spec i (length l)) as [L|L]; [now rewrite app_nth1|].
  rewrite app_nth2 by exact L. rewrite (nth_indep _ _ (x 0%nat)) by (rewrite map_length, seq_length; lia).
  rewrite map_nth, seq_nth by lia. reflexivity.
Qed.
Lemma signal_stream (p : plan F) : forall x N, signal p (map x (seq 0 N)) = map (stream p x) (seq 0 N).
Proof.
  induction p as [l|l damp fb|l|c|g|p IHp q IHq|p IHp q IHq]; intros x N; cbn [signal].
  - rewrite map_length, seq_length. apply delay_stream.
  - exact (spec_seq l 0 (nint 0) damp fb x N 0).
  - exact (pass_seq l x N 0).
  - apply filtered_stream.
  - now rewrite map_map.
  - now rewrite IHp, IHq.
  - rewrite IHp, IHq. apply added_map.
Qed.
End Stream.

(** ** The parts *)
Section Parts.
Context {NP : NanPolicy}.
Notation ev' y T := (ev (fun k => val (y k)) T).

Lemma sd : 0 < pow2 (-24) <= 1 / 1000000.
Proof. replace (pow2 (-24)) with (1 / 16777216) by (cbn; lra). lra. Qed.

Lemma pass_fades l x delta : l <> [] -> 0 <= delta -> ev' x delta -> (forall k, fin (fadd (fneg (x k)) (pv l x k)) = true) ->
  ev' (fun k => fadd (fneg (x k)) (pv l x k)) (31 / 10 * delta + 6 * tiny).
Proof.
  intros Hl Hd Hx Fy. pose proof tiny_pos as PT. pose proof sd as SD. set (n := length l). assert (Hn : (0 < n)%nat) by (unfold n; destruct l; [congruence|cbn; lia]).
  set (v := pv l x). assert (Fv : forall k, fin (v k) = true) by (intros k; specialize (Fy k); apply fadd_fin_inv in Fy; tauto).
  assert (Ev : forall k, v (k + n)%nat = fadd (x k) (fmul (v k) (lit 1 (-1)))) by (intros k; exact (pv_next l x k Hn)).
  destruct (lit_exact 1 (-1) ltac:(lia) ltac:(lia)) as [FH VH]. change (pow2 (-1)) with (/ 2) in VH.
  assert (Vv : forall k, val (v (k + n)%nat) = rnd (val (x k) + rnd (val (v k) * / 2))).
  { intros k. pose proof (Fv (k + n)%nat) as F. rewrite Ev in F |- *. rewrite (fadd_fin_val _ _ F). apply fadd_fin_inv in F as [_ F]. rewrite (fmul_fin_val _ _ F), VH. do 3 f_equal. lra. }
  assert (ST : forall T, 0 <= T -> ev' v T -> ev' v (501 / 1000 * T + (101 / 100 * delta + 3 / 2 * tiny))).
  { intros T P [N1 H1]. destruct Hx as [N2 H2]. exists (N1 + N2 + n)%nat. intros k Hk. replace k with ((k - n) + n)%nat by lia. rewrite Vv.
    specialize (H1 (k - n)%nat ltac:(lia)). specialize (H2 (k - n)%nat ltac:(lia)). cbn beta in H1, H2.
    pose proof (rnd_size (val (v (k - n)%nat) * / 2)) as R1. rewrite Rabs_mult, (Rabs_pos_eq (/ 2)) in R1 by lra.
    set (w := rnd (val (v (k - n)%nat) * / 2)) in *. set (xv := val (x (k - n)%nat)) in *.
    pose proof (rnd_size (xv + w)) as R2. pose proof (Rabs_triang xv w) as TR. set (va := Rabs (val (v (k - n)%nat))) in *.
    rewrite de_val in *. clearbody w xv va. lra. }
  assert (IV : ev' v ((101 / 100 * delta + 3 / 2 * tiny) / (1 - 501 / 1000) + tiny)).
  { apply (improve (ev (fun k => val (v k))) (501 / 1000) (101 / 100 * delta + 3 / 2 * tiny) big); try lra.
    - intros ? ? A B; exact (ev_up _ _ _ A B).
    - exact ST.
    - exists 0%nat. intros k _. left. apply val_lt_big. }
  destruct IV as [N1 H1]. destruct Hx as [N2 H2]. exists (N1 + N2)%nat. intros k Hk. specialize (H1 k ltac:(lia)). specialize (H2 k ltac:(lia)). cbn beta in *.
  rewrite (fadd_fin_val (fneg (x k)) (v k) (Fy k)).
  rewrite val_fneg.
  pose proof (rnd_size (- val (x k) + val (v k))) as R1. pose proof (Rabs_triang (- val (x k)) (val (v k))) as TR. rewrite Rabs_Ropp in TR. rewrite de_val in R1.
  replace ((101 / 100 * delta + 3 / 2 * tiny) / (1 - 501 / 1000)) with (1010 / 499 * delta + 1500 / 499 * tiny) in H1 by (field; lra). lra.
Qed.

Lemma scale_fades g x k delta : 0 <= delta -> Rabs (val g) <= pow2 k -> ev' x delta -> (forall i, fin (fmul (x i) g) = true) ->
  ev' (fun i => fmul (x i) g) (101 / 100 * pow2 k * delta + 1 * tiny).
Proof.
  intros Hd Hg [N H] F. exists N. intros i Hi. specialize (H i Hi). cbn beta in *. rewrite (fmul_fin_val _ _ (F i)).
  pose proof (rnd_size (val (x i) * val g)) as R1. rewrite Rabs_mult in R1. pose proof tiny_pos.
  assert (M : Rabs (val (x i)) * Rabs (val g) <= delta * pow2 k) by (apply Rmult_le_compat; try apply Rabs_pos; assumption).
  assert (0 <= delta * pow2 k) by (apply Rmult_le_pos; [exact Hd|apply bpow_ge_0]). rewrite de_val in R1.
  replace (101 / 100 * pow2 k * delta) with (101 / 100 * (delta * pow2 k)) by ring. set (u := delta * pow2 k) in *. set (w := Rabs (val (x i)) * Rabs (val g)) in *. clearbody u w. lra.
Qed.

Lemma mix_fades u v A C : 0 <= A -> 0 <= C -> ev' u A -> ev' v C -> (forall i, fin (fadd (u i) (v i)) = true) ->
  ev' (fun i => fadd (u i) (v i)) (101 / 100 * (A + C) + tiny).
Proof.
  intros PA PC [N1 H1] [N2 H2] F. exists (N1 + N2)%nat. intros i Hi. specialize (H1 i ltac:(lia)). specialize (H2 i ltac:(lia)). cbn beta in *. rewrite (fadd_fin_val _ _ (F i)).
  pose proof (rnd_size (val (u i) + val (v i))) as R1. pose proof (Rabs_triang (val (u i)) (val (v i))) as TR. rewrite de_val in R1. pose proof tiny_pos. lra.
Qed.

(** The rounding errors of two steps of the filter. *)
Section TwoSteps.
Variables d t : R.
Hypothesis Hd : 0 < d <= 1 / 1000000.
Hypothesis Ht : 0 < t.
Definition appr (r v : R) : Prop := Rabs (r - v) <= d * Rabs v + t / 2.
Lemma two_steps b0 b1 b2 a1 a2 x0 x1 x2 y0 y1 p0 p1 p2 q1 q2 z2 sm z1 y2 B0 B1 B2 A1 A2 :
  appr p0 (b0 * x2) -> appr p1 (b1 * x1) -> appr p2 (b2 * x0) -> appr q2 (a2 * y0) -> appr q1 (a1 * y1) ->
  appr z2 (p2 - q2) -> appr sm (p1 + z2) -> appr z1 (sm - q1) -> appr y2 (p0 + z1) ->
  Rabs (b0 * x2) <= B0 -> Rabs (b1 * x1) <= B1 -> Rabs (b2 * x0) <= B2 -> Rabs (a1 * y1) <= A1 -> Rabs (a2 * y0) <= A2 ->
  Rabs (y2 + a1 * y1 + a2 * y0) <= 1001 / 1000 * (B0 + B1 + B2) + 6 * d * (A1 + A2) + 5 * t.
Proof.
  unfold appr. intros P0 P1 P2 Q2 Q1 Z2 SM Z1 Y2 HB0 HB1 HB2 HA1 HA2.
  assert (SP : forall u U, Rabs u <= U -> 0 <= d * Rabs u <= d * U) by (intros u U H; pose proof (Rabs_pos u); split; [apply Rmult_le_pos; lra|apply Rmult_le_compat_l; lra]).
  assert (SZ : forall r v V, Rabs v <= V -> Rabs (r - v) <= d * Rabs v + t / 2 -> Rabs (r - v) <= d * V + t / 2 /\ Rabs r <= V + d * V + t / 2).
  { intros r v V HV H. pose proof (SP v V HV) as [_ S]. split; [lra|]. replace r with (r - v + v) by ring. eapply Rle_trans; [apply Rabs_triang|]. lra. }
  assert (S0 : 0 <= B0 /\ 0 <= B1 /\ 0 <= B2 /\ 0 <= A1 /\ 0 <= A2) by (repeat split; eapply Rle_trans; try apply Rabs_pos; eassumption).
  destruct (SZ _ _ _ HB0 P0) as [E0 M0]. destruct (SZ _ _ _ HB1 P1) as [E1 M1]. destruct (SZ _ _ _ HB2 P2) as [E2 M2].
  destruct (SZ _ _ _ HA2 Q2) as [E3 M3]. destruct (SZ _ _ _ HA1 Q1) as [E4 M4].
  assert (D1 : forall V, 0 <= V -> 0 <= d * V <= 1 / 1000000 * V) by (intros V HV; split; [apply Rmult_le_pos; lra|apply Rmult_le_compat_r; lra]).
  pose proof (D1 B0 ltac:(lra)) as DB0. pose proof (D1 B1 ltac:(lra)) as DB1. pose proof (D1 B2 ltac:(lra)) as DB2. pose proof (D1 A1 ltac:(lra)) as DA1. pose proof (D1 A2 ltac:(lra)) as DA2.
  assert (V1 : Rabs (p2 - q2) <= 1001 / 1000 * (B2 + A2) + 11 / 10 * t) by (unfold Rminus; eapply Rle_trans; [apply Rabs_triang|]; rewrite Rabs_Ropp; lra).
  destruct (SZ _ _ _ V1 Z2) as [E5 M5].
  pose proof (D1 t ltac:(lra)) as DT. pose proof (Rmult_plus_distr_l d B2 A2) as X1.
  assert (X5 : d * (1001 / 1000 * (B2 + A2) + 11 / 10 * t) = 1001 / 1000 * (d * B2 + d * A2) + 11 / 10 * (d * t)) by ring. rewrite X5 in *.
  assert (V2 : Rabs (p1 + z2) <= 1002 / 1000 * (B1 + B2 + A2) + 23 / 10 * t) by (eapply Rle_trans; [apply Rabs_triang|]; lra).
  destruct (SZ _ _ _ V2 SM) as [E6 M6].
  assert (X6 : d * (1002 / 1000 * (B1 + B2 + A2) + 23 / 10 * t) = 1002 / 1000 * (d * B1 + d * B2 + d * A2) + 23 / 10 * (d * t)) by ring. rewrite X6 in *.
  assert (V3 : Rabs (sm - q1) <= 1003 / 1000 * (B1 + B2 + A2 + A1) + 35 / 10 * t) by (unfold Rminus; eapply Rle_trans; [apply Rabs_triang|]; rewrite Rabs_Ropp; lra).
  destruct (SZ _ _ _ V3 Z1) as [E7 M7].
  assert (X7 : d * (1003 / 1000 * (B1 + B2 + A2 + A1) + 35 / 10 * t) = 1003 / 1000 * (d * B1 + d * B2 + d * A2 + d * A1) + 35 / 10 * (d * t)) by ring. rewrite X7 in *.
  assert (V4 : Rabs (p0 + z1) <= 1004 / 1000 * (B0 + B1 + B2 + A2 + A1) + 5 * t) by (eapply Rle_trans; [apply Rabs_triang|]; lra).
  destruct (SZ _ _ _ V4 Y2) as [E8 _].
  assert (X8 : d * (1004 / 1000 * (B0 + B1 + B2 + A2 + A1) + 5 * t) = 1004 / 1000 * (d * B0 + d * B1 + d * B2 + d * A2 + d * A1) + 5 * (d * t)) by ring. rewrite X8 in *.
  replace (6 * d * (A1 + A2)) with (6 * (d * A1) + 6 * (d * A2)) by ring.
  clear P0 P1 P2 Q2 Q1 Z2 SM Z1 Y2 M0 M1 M2 M3 M4 M5 M6 M7 V1 V2 V3 V4 X1 X5 X6 X7 X8 SP SZ D1.
  set (f0 := b0 * x2) in *. set (f1 := b1 * x1) in *. set (f2 := b2 * x0) in *. set (g1 := a1 * y1) in *. set (g2 := a2 * y0) in *.
  set (dB0 := d * B0) in *. set (dB1 := d * B1) in *. set (dB2 := d * B2) in *. set (dA1 := d * A1) in *. set (dA2 := d * A2) in *. set (dt := d * t) in *.
  clearbody f0 f1 f2 g1 g2 dB0 dB1 dB2 dA1 dA2 dt.
  apply Rabs_le_inv in HB0, HB1, HB2, E0, E1, E2, E3, E4, E5, E6, E7, E8. apply Rabs_le. split; lra.
Qed.
End TwoSteps.

Lemma appr_rnd v : appr (pow2 (-24)) tiny (rnd v) v.
Proof.
  unfold appr. pose proof (rnd_err v) as E. replace (tiny / 2) with (pow2 (-150)); [exact E|].
  unfold tiny. replace (-149)%Z with (-150 + 1)%Z by lia. rewrite bpow_plus. change (pow2 1) with 2. field.
Qed.

Lemma filter_fades c G M delta x : finite_coeffs c -> ringing (exact_coeffs c) G -> feedback_weight (exact_coeffs c) * G <= 524288 ->
  pow2 (-90) <= forward_weight (exact_coeffs c) * M <= pow2 60 -> (forall k, fin (x k) = true /\ Rabs (val (x k)) <= M) ->
  0 <= delta -> ev' x delta -> ev' (response (bq_new c) x) (8 / 5 * (forward_weight (exact_coeffs c) * G) * delta + 8 * G * tiny).
Proof.
  intros Fc HG HAG HM Hx Hdel [N0 HD]. pose proof (track c Fc G M HG HAG HM x Hx) as TR. set (y := fun n => val (response (bq_new c) x n)).
  assert (FIN : forall n, fin (z1v c x n) = true /\ fin (z2v c x n) = true /\ fin (yv c x n) = true).
  { intros n. destruct (TR n) as (F & _ & _ & (F1 & F2 & _)). auto. }
  pose proof tiny_pos as PT. pose proof sd as SD.
  set (A := feedback_weight (exact_coeffs c)) in *. set (W := forward_weight (exact_coeffs c)) in *. pose proof (ringing_1 _ _ HG) as PG.
  assert (PA : 1 <= A) by (unfold A, feedback_weight; pose proof (Rabs_pos (a1 (exact_coeffs c))); pose proof (Rabs_pos (a2 (exact_coeffs c))); lra).
  assert (PW : 0 <= W) by (unfold W, forward_weight; pose proof (Rabs_pos (b0 (exact_coeffs c))); pose proof (Rabs_pos (b1 (exact_coeffs c))); pose proof (Rabs_pos (b2 (exact_coeffs c))); lra).
  pose proof (Rmult_le_pos W delta PW Hdel) as PWD.
  destruct (settles_real (val (a1 c)) (val (a2 c)) G (6 * pow2 (-24) * A) (1001 / 1000 * (W * delta) + 5 * tiny) y) with (N0 := N0) (T0 := 2 * (G * (W * M))) as (N & _ & S).
  - exact HG.
  - exact PG.
  - apply Rmult_le_pos; lra.
  - lra.
  - replace (6 * pow2 (-24) * A * G) with (6 * pow2 (-24) * (A * G)) by ring. apply Rle_trans with (6 * pow2 (-24) * 524288); [apply Rmult_le_compat_l; lra|].
    replace 524288 with (pow2 19) by (cbn; lra). replace (6 * pow2 (-24) * pow2 19) with (6 * (pow2 (-24) * pow2 19)) by ring. rewrite <- bpow_plus. change (-24 + 19)%Z with (-5)%Z. cbn. lra.
  - intros n T Hn H1 H2.
    pose proof (proj2 (proj2 (FIN (S (S n))))) as F2. pose proof (proj1 (FIN (S (S n)))) as F1. pose proof (proj1 (proj2 (FIN (S n)))) as F0.
    change (y (S (S n))) with (val (yv c x (S (S n)))). change (y (S n)) with (val (yv c x (S n))) in *. change (y n) with (val (yv c x n)) in *.
    rewrite yv_eq in F2 |- *. rewrite z1v_S in F1. rewrite z2v_S in F0.
    pose proof (fadd_fin_val _ _ F2) as V2. apply fadd_fin_inv in F2 as [F2a _]. rewrite (fmul_fin_val _ _ F2a) in V2. rewrite z1v_S in V2.
    rewrite (fsub_fin_val _ _ F1) in V2. apply fsub_fin_inv in F1 as [F1a F1b]. rewrite (fmul_fin_val _ _ F1b), (fadd_fin_val _ _ F1a) in V2. apply fadd_fin_inv in F1a as [F1c _].
    rewrite (fmul_fin_val _ _ F1c), z2v_S, (fsub_fin_val _ _ F0) in V2. apply fsub_fin_inv in F0 as [F0a F0b]. rewrite (fmul_fin_val _ _ F0a), (fmul_fin_val _ _ F0b) in V2.
    rewrite z1v_S, z2v_S in *. rewrite V2.
    assert (PT0 : 0 <= T) by (eapply Rle_trans; [apply Rabs_pos|exact H1]).
    pose proof (HD n Hn) as D0. pose proof (HD (S n) ltac:(lia)) as D1. pose proof (HD (S (S n)) ltac:(lia)) as D2. cbn beta in D0, D1, D2.
    eapply Rle_trans; [eapply (two_steps (pow2 (-24)) tiny SD PT (val (b0 c)) (val (b1 c)) (val (b2 c)) (val (a1 c)) (val (a2 c))); try apply appr_rnd; (apply prod_le; [apply Rle_refl|eassumption])|].
    unfold A, W, forward_weight, feedback_weight. cbn [b0 b1 b2 a1 a2 exact_coeffs].
    replace (Rabs (val (b0 c)) * delta + Rabs (val (b1 c)) * delta + Rabs (val (b2 c)) * delta) with ((Rabs (val (b0 c)) + Rabs (val (b1 c)) + Rabs (val (b2 c))) * delta) by ring.
    pose proof (Rmult_le_pos (6 * pow2 (-24)) T ltac:(lra) PT0) as Q.
    replace (6 * pow2 (-24) * (1 + Rabs (val (a1 c)) + Rabs (val (a2 c))) * T) with (6 * pow2 (-24) * T + 6 * pow2 (-24) * (Rabs (val (a1 c)) * T + Rabs (val (a2 c)) * T)) by ring.
    set (u1 := (Rabs (val (b0 c)) + Rabs (val (b1 c)) + Rabs (val (b2 c))) * delta). set (u2 := 6 * pow2 (-24) * (Rabs (val (a1 c)) * T + Rabs (val (a2 c)) * T)). set (u3 := 6 * pow2 (-24) * T) in *.
    clear - Q. clearbody u1 u2 u3. lra.
  - intros n _. apply TR.
  - exists N. intros n Hn. eapply Rle_trans; [apply (S n Hn)|].
    pose proof (Rmult_le_pos (W * delta) G PWD ltac:(lra)) as Q1. pose proof (Rmult_le_pos tiny G ltac:(lra) ltac:(lra)) as Q2.
    replace (3 / 2 * ((1001 / 1000 * (W * delta) + 5 * tiny) * G)) with (3003 / 2000 * (W * delta * G) + 15 / 2 * (tiny * G)) by field.
    replace (8 / 5 * (W * G) * delta + 8 * G * tiny) with (8 / 5 * (W * delta * G) + 8 * (tiny * G)) by ring. lra.
Qed.

Lemma stream_level p e e' x : level p e e' -> (forall k, bounded (pow2 e) (x k)) -> forall k, bounded (pow2 e') (stream p x k).
Proof.
  intros L Hx k. assert (H : Forall (bounded (pow2 e)) (map x (seq 0 (S k)))) by (apply Forall_forall; intros z Hz; apply in_map_iff in Hz as (i & <- & _); apply Hx).
  pose proof (level_signal p e e' L _ H) as Q. rewrite signal_stream in Q. rewrite Forall_forall in Q. apply Q, in_map, in_seq. lia.
Qed.

Lemma fades_pos p e a b : fades p e a b -> 0 <= a /\ 0 <= b.
Proof.
  induction 1 as [l e|l damp fb e j Hj He He' Ne Hl Hd Hf|l e Ne He Hl|c e G Fc HG HA HB|g e k He Fg Hg|p q e e1 a1 b1 a2 b2 L A1 I1 A2 I2|p q e e1 a1 b1 a2 b2 He L1 L2 A1 I1 A2 I2].
  - lra.
  - pose proof (bpow_gt_0 radix2 j). lra.
  - lra.
  - pose proof (ringing_1 _ _ HG) as PG. assert (PW : 0 <= forward_weight (exact_coeffs c)) by (unfold forward_weight; pose proof (Rabs_pos (b0 (exact_coeffs c))); pose proof (Rabs_pos (b1 (exact_coeffs c))); pose proof (Rabs_pos (b2 (exact_coeffs c))); lra).
    pose proof (Rmult_le_pos _ G PW ltac:(lra)). lra.
  - pose proof (bpow_gt_0 radix2 k). lra.
  - destruct I1, I2. split; [now apply Rmult_le_pos|]. assert (0 <= a2 * b1) by now apply Rmult_le_pos. lra.
  - lra.
Qed.

Lemma fades_sound p e a b : fades p e a b -> forall x delta, (forall k, bounded (pow2 e) (x k)) -> 0 <= delta -> ev' x delta -> ev' (stream p x) (a * delta + b * tiny).
Proof.
  pose proof tiny_pos as PT.
  induction 1 as [l e|l damp fb e j Hj He He' Ne Hl Hd Hf|l e Ne He Hl|c e G Fc HG HA HB|g e k He Fg Hg|p q e e1 a1 b1 a2 b2 L A1 I1 A2 I2|p q e e1 a1 b1 a2 b2 He L1 L2 A1 I1 A2 I2];
    intros x delta Hx Hdel HX; cbn [stream].
  - destruct HX as [N H]. exists (N + length l)%nat. intros k Hk. destruct (Nat.ltb_spec k (length l)) as [Q|Q]; [lia|]. specialize (H (k - length l)%nat ltac:(lia)). cbn beta in H. lra.
  - assert (LV : level (PComb l damp fb) e (e + j + 1)) by now constructor.
    assert (Pj : pow2 (-10) <= pow2 (- j) <= pow2 (-1)) by (split; apply bpow_le; lia). replace (pow2 (-10)) with (/ 1024) in Pj by (cbn; lra). replace (pow2 (-1)) with (/ 2) in Pj by (cbn; lra).
    eapply ev_up; [apply (comb_fades l 0 (of_int 0) damp fb x (length l) (1 - pow2 (- j)) delta)|].
    + reflexivity.
    + destruct l; [congruence|cbn; lia].
    + exact Hd.
    + exact Hf.
    + lra.
    + exact Hdel.
    + exact HX.
    + intros k. apply (stream_level _ _ _ x LV Hx k).
    + replace (1 - (1 - pow2 (- j))) with (pow2 (- j)) by ring. unfold Rdiv. rewrite <- bpow_opp, Z.opp_involutive. right. ring.
  - assert (LV : level (PPass l) e (e + 2)) by now constructor. apply pass_fades; try assumption. intros k. apply (stream_level _ _ _ x LV Hx k).
  - apply filter_fades with (pow2 e); try assumption.
  - assert (LV : level (PScale g) e (e + k)) by now constructor. apply scale_fades; try assumption. intros i. apply (stream_level _ _ _ x LV Hx i).
  - destruct (fades_pos _ _ _ _ A1). replace (a2 * a1 * delta + (a2 * b1 + b2) * tiny) with (a2 * (a1 * delta + b1 * tiny) + b2 * tiny) by ring.
    apply I2; [now apply (stream_level p e)| |now apply I1]. pose proof (Rmult_le_pos a1 delta). pose proof (Rmult_le_pos b1 tiny). lra.
  - destruct (fades_pos _ _ _ _ A1). destruct (fades_pos _ _ _ _ A2).
    replace (101 / 100 * (a1 + a2) * delta + (101 / 100 * (b1 + b2) + 1) * tiny) with (101 / 100 * ((a1 * delta + b1 * tiny) + (a2 * delta + b2 * tiny)) + tiny) by ring.
    assert (LV : level (PMix p q) e (e1 + 1)) by now constructor.
    apply mix_fades; [pose proof (Rmult_le_pos a1 delta); pose proof (Rmult_le_pos b1 tiny); lra|pose proof (Rmult_le_pos a2 delta); pose proof (Rmult_le_pos b2 tiny); lra|now apply I1|now apply I2|].
    intros i. apply (stream_level _ _ _ x LV Hx i).
Qed.
End Parts.
