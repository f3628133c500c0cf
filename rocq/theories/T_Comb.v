(** * Theorems: the comb filter for every setting (C93). *)

From Coq Require Import ZArith List Bool Reals Lia Lra Psatz.
From Flocq Require Import Core.
From Verif Require Import Base F32 F32Lemmas F32Range Num M_Memory M_Delay S_Memory S_Delay S_Comb P_Memory P_Delay P_DelayNum P_Comb Examples.
Import ListNotations.
Local Open Scope R_scope.

Lemma half_R : @ndy R num_R 1 (-1) = 1 / 2.
Proof. cbn. lra. Qed.

Lemma fresh_R {B : Build} (h : heap R) s l : covers h s l -> (0 < ms_len s)%Z -> comb_rel h (cb_new s) l 0 0 (1 / 2) (1 / 2).
Proof.
  intros C Hn. split; [exact (dl_new_rel h s l C Hn)|]. unfold cb_new. cbn [cb_state cb_damp cb_damp_inv cb_feedback]. rewrite !nint_R, !half_R.
  cbn [nsub num_R]. repeat split; lra.
Qed.

(** For every interleaving of ticks and changes of dampening and feedback, with every
    feedback within f < 1 (at most 1023/1024) and inputs within M: once the buffer is within
    some K >= 1.01 M / (1 - f), every output is finite, within K for ever, and within
    2^-17 K / (1 - f) of the output of the same comb in exact arithmetic. *)
Theorem C93_comb_tracks : forall (NP : NanPolicy) (B : Build) (h : heap f32) s l (hr : heap R) sr (ops : list (comb_op f32)) (K M f : R),
  covers h s l -> covers hr sr (map val l) -> (0 < ms_len s)%Z ->
  pow2 (-90) <= K <= pow2 100 -> 1 / 2 <= f <= 1023 / 1024 -> 101 / 100 * M <= K * (1 - f) ->
  Forall (bounded K) l -> Forall (op_ok M f) ops ->
  exists h' c' ys hr' cr' zs, comb_run h (cb_new s) ops = Ret (h', c', ys) /\
    comb_run hr (cb_new sr) (map real_op ops) = Ret (hr', cr', zs) /\
    Forall2 (fun y z => bounded K y /\ Rabs (val y - z) <= K / (131072 * (1 - f))) ys zs.
Proof.
  intros NP B h s l hr sr ops K M f C Cr Hn HK Hf HM Hl Ho.
  set (E := K / (131072 * (1 - f))). assert (HE : E * (1 - f) = K / 131072) by (unfold E; field; lra).
  pose proof (K_pos K HK) as PK. assert (PE : 0 <= E) by (unfold E; apply Rmult_le_pos; [lra|left; apply Rinv_0_lt_compat; lra]).
  assert (Half : fin (lit 1 (-1)) = true /\ val (lit 1 (-1)) = 1 / 2).
  { destruct (lit_exact 1 (-1) ltac:(lia) ltac:(lia)) as [F V]. split; [exact F|]. rewrite V. cbn. lra. }
  destruct Half as [FH VH]. destruct (of_int_exact 0 ltac:(lia)) as [F0 V0].
  assert (Hnr : (0 < ms_len sr)%Z) by (destruct C as (E1 & _); destruct Cr as (E2 & _); rewrite map_length in E2; lia).
  destruct (comb_run_ok ops h (cb_new s) l 0 (of_int 0) (lit 1 (-1)) (lit 1 (-1))) as (h' & c' & Er & _).
  { split; [exact (dl_new_rel h s l C Hn)|]. split; [reflexivity|]. split; [reflexivity|]. split; [symmetry; apply one_minus_half|reflexivity]. }
  destruct (comb_run_ok (map real_op ops) hr (cb_new sr) (map val l) 0 (val (of_int 0)) (val (lit 1 (-1))) (val (lit 1 (-1)))) as (hr' & cr' & Err & _).
  { split; [exact (dl_new_rel hr sr _ Cr Hnr)|]. rewrite V0, VH. unfold cb_new. cbn [cb_state cb_damp cb_damp_inv cb_feedback]. rewrite !nint_R, !half_R. cbn [nsub num_R]. repeat split; lra. }
  exists h', c'. eexists. exists hr', cr'. eexists. split; [exact Er|]. split; [exact Err|].
  assert (T : Forall2 (near_y K E) (comb_spec l 0 (of_int 0) (lit 1 (-1)) (lit 1 (-1)) ops) (comb_spec (map val l) 0 (val (of_int 0)) (val (lit 1 (-1))) (val (lit 1 (-1))) (map real_op ops))).
  { apply comb_tracks with M f; try assumption; try lra.
    - clear - Hl PE. induction Hl as [|y l [Fy By] _ IH]; cbn [map]; constructor; [|exact IH]. split; [exact Fy|]. split; [exact By|]. rewrite Rminus_eq_0, Rabs_R0. exact PE.
    - split; [exact F0|]. rewrite V0, Rminus_0_r, Rabs_R0. split; lra.
    - split; [exact FH|]. rewrite VH. lra.
    - split; [exact FH|]. rewrite VH, Rabs_pos_eq by lra. lra. }
  clear - T. induction T as [|y z ys zs (Fy & By & Ey) _ IH]; constructor; [|exact IH]. split; [split; assumption|exact Ey].
Qed.
Print Assumptions C93_comb_tracks.

(** The default settings, contents and inputs within 1: K = 8 and f = 3/4, with the feedback
    raised to 3/4 and the dampening lowered on the way. *)
Example C93_met : pow2 (-90) <= 8 <= pow2 100 /\ 1 / 2 <= 3 / 4 <= 1023 / 1024 /\ 101 / 100 * 1 <= 8 * (1 - 3 / 4) /\
  Forall (op_ok 1 (3 / 4)) [CTick (of_int 1); CFeedback (lit 3 (-2)); CTick (of_int (-1)); CDamp (lit 1 (-2)); CTick (lit 1 (-1))].
Proof.
  split; [split; [apply Rle_trans with (pow2 0); [apply bpow_le; lia|cbn; lra]|apply Rle_trans with (pow2 3); [cbn; lra|apply bpow_le; lia]]|].
  split; [lra|]. split; [lra|].
  destruct (lit_exact 1 (-1) ltac:(lia) ltac:(lia)) as [G1 W1]. destruct (lit_exact 1 (-2) ltac:(lia) ltac:(lia)) as [G2 W2]. destruct (lit_exact 3 (-2) ltac:(lia) ltac:(lia)) as [G3 W3].
  destruct (of_int_exact 1 ltac:(lia)) as [F1 V1]. destruct (of_int_exact (-1) ltac:(lia)) as [F2 V2].
  repeat apply Forall_cons; try apply Forall_nil; cbn [op_ok]; unfold bounded, damp_ok, fb_ok;
    rewrite ?V1, ?V2, ?W1, ?W2, ?W3; (split; [assumption|]); try apply Rabs_le; cbn; lra.
Qed.

(** In exact arithmetic, after any history at all, a comb set to a dampening in [0,1) and a
    feedback g with |g| < 1 answers a constant input c in the long run with c / (1 - g). *)
Theorem C93_comb_settles : forall (B : Build) (h : heap R) s l (ops : list (comb_op R)) damp g c eps,
  covers h s l -> (0 < ms_len s)%Z -> 0 <= damp < 1 -> Rabs g < 1 -> 0 < eps ->
  exists N, forall k, (N <= k)%nat ->
    exists h' c' ys, comb_run h (cb_new s) (ops ++ CDamp damp :: CFeedback g :: repeat (CTick c) (S k)) = Ret (h', c', ys) /\
      Rabs (last ys 0 - c / (1 - g)) < eps.
Proof.
  intros B h s l ops damp g c eps C Hn Hd Hg He. pose proof (fresh_R h s l C Hn) as FR.
  destruct (comb_spec_app ops l 0 0 (1 / 2) (1 / 2)) as (d & m & s0 & p1 & g1 & L & App).
  assert (Hl : (0 < length l)%nat) by (destruct C as (E1 & _); lia).
  set (y := cy d m s0 damp g (fun _ => c)). set (z := cs d m s0 damp g (fun _ => c)). set (L0 := c / (1 - g)).
  assert (Hg1 : g < 1) by (pose proof (Rle_abs g); lra).
  destruct (settles (fun k => y k - L0) (fun k => z k - L0) (length l) damp g Hl Hd Hg) with (eps := eps) as [N HN]; try assumption.
  { intros k. unfold z, y. rewrite cs_S. ring. }
  { intros k. unfold y. rewrite cy_next with (n := length l) by lia. fold (z (S k)). unfold L0. field. lra. }
  exists N. intros k Hk. destruct (comb_run_ok (ops ++ CDamp damp :: CFeedback g :: repeat (CTick c) (S k)) h (cb_new s) l 0 0 (1 / 2) (1 / 2) FR) as (h' & c' & E & _).
  exists h', c'. eexists. split; [exact E|]. rewrite App. cbn [comb_spec].
  rewrite (repeat_seq (CTick c) 0 (S k)), <- (map_map (fun _ => c) CTick). rewrite last_app_ne.
  - replace (comb_spec _ _ _ _ _ _) with (map y (seq 0 (S k))).
    + rewrite last_map_seq. exact (HN k Hk).
    + symmetry. pose proof (comb_spec_seq d m s0 damp g (fun _ => c) (S k) 0) as Q. rewrite Nat.add_0_r in Q. exact Q.
  - cbn [seq map comb_spec]. discriminate.
Qed.
Print Assumptions C93_comb_settles.

(** A feedback of 1 or more is not refused: from a cleared buffer a positive constant input
    then grows beyond every bound. *)
Theorem C93_comb_diverges : forall (B : Build) (h : heap R) s n damp g c bound,
  covers h s (repeat 0 n) -> (0 < n)%nat -> 0 <= damp < 1 -> 1 <= g -> 0 < c ->
  exists N, forall k, (N <= k)%nat ->
    exists h' c' ys, comb_run h (cb_new s) (CDamp damp :: CFeedback g :: repeat (CTick c) (S k)) = Ret (h', c', ys) /\
      bound < last ys 0.
Proof.
  intros B h s n damp g c bound C Hn Hd Hg Hc.
  assert (Hn' : (0 < ms_len s)%Z) by (destruct C as (E1 & _); rewrite repeat_length in E1; lia). pose proof (fresh_R h s _ C Hn') as FR.
  set (y := cy (repeat 0 n) 0 0 damp g (fun _ => c)). set (z := cs (repeat 0 n) 0 0 damp g (fun _ => c)).
  assert (L : length (repeat 0 n) = (0 + n)%nat) by (rewrite repeat_length; lia).
  destruct (unbounded y z n damp g c Hn Hd Hg Hc) with (B := bound) as [N HN].
  { intros k. apply cs_S. }
  { intros k. unfold y. apply (cy_next (repeat 0 n) 0 0 damp g (fun _ => c) n k L Hn). }
  { intros k Hk. unfold y. rewrite (cy_first (repeat 0 n) 0 0 damp g (fun _ => c) n k L Hk). apply nth_repeat. }
  { reflexivity. }
  exists N. intros k Hk. destruct (comb_run_ok (CDamp damp :: CFeedback g :: repeat (CTick c) (S k)) h (cb_new s) _ 0 0 (1 / 2) (1 / 2) FR) as (h' & c' & E & _).
  exists h', c'. eexists. split; [exact E|]. cbn [comb_spec].
  rewrite (repeat_seq (CTick c) 0 (S k)), <- (map_map (fun _ => c) CTick).
  pose proof (comb_spec_seq (repeat 0 n) 0 0 damp g (fun _ => c) (S k) 0) as Q. cbn [cst fst] in Q. unfold cs at 1 in Q. cbn [cst snd Nat.add] in Q.
  rewrite Q. rewrite last_map_seq. exact (HN k Hk).
Qed.
Print Assumptions C93_comb_diverges.

Example C93_real_met : covers (B := dbg32) [repeat 0 5] (MS (PAt 0 0) 5) (repeat 0 5) /\ (0 < 5)%nat /\ 0 <= 1 / 4 < 1 /\ Rabs (-1 / 2) < 1.
Proof.
  split; [|split; [lia|split; [lra|apply Rabs_def1; lra]]].
  split; [reflexivity|]. split; [vm_compute; discriminate|]. exists [], []. split; reflexivity.
Qed.

(** C94: the all-pass unit, with inputs within M and a buffer within 2.01 M, stays within
    M / 2000000 of the same unit in exact arithmetic, for ever. *)
Theorem C94_all_pass_tracks : forall (NP : NanPolicy) (B : Build) (h : heap f32) s l (hr : heap R) sr (xs : list f32) (M : R),
  covers h s l -> covers hr sr (map val l) -> (0 < ms_len s)%Z -> pow2 (-80) <= M <= pow2 90 ->
  Forall (bounded (201 / 100 * M)) l -> Forall (bounded M) xs ->
  exists h' a' ys hr' ar' zs, ap_run h (ap_new s) xs = Ret (h', a', ys) /\
    ap_run hr (ap_new sr) (map val xs) = Ret (hr', ar', zs) /\
    Forall2 (fun y z => fin y = true /\ Rabs (val y - z) <= M / 2000000) ys zs.
Proof.
  intros NP B h s l hr sr xs M C Cr Hn HM Hl Hx.
  assert (Hnr : (0 < ms_len sr)%Z) by (destruct C as (E1 & _); destruct Cr as (E2 & _); rewrite map_length in E2; lia).
  destruct (ap_run_ok xs h (ap_new s) l 0) as (h' & a' & E & _); [exact (dl_new_rel h s l C Hn)|].
  destruct (ap_run_ok (map val xs) hr (ap_new sr) (map val l) 0) as (hr' & ar' & Er & _); [exact (dl_new_rel hr sr _ Cr Hnr)|].
  exists h', a'. eexists. exists hr', ar'. eexists. split; [exact E|]. split; [exact Er|].
  apply ap_tracks; [exact HM| |exact Hx]. pose proof (bpow_gt_0 radix2 (-80)) as P0. assert (PM : 0 < M) by lra.
  clear - Hl PM. induction Hl as [|y l [Fy By] _ IH]; cbn [map]; constructor; [|exact IH]. split; [exact Fy|]. split; [exact By|]. rewrite Rminus_eq_0, Rabs_R0. lra.
Qed.
Print Assumptions C94_all_pass_tracks.

(** In exact arithmetic, after any inputs at all, a constant input comes out unchanged in the
    long run. *)
Theorem C94_all_pass_settles : forall (B : Build) (h : heap R) s l (xs : list R) c eps,
  covers h s l -> (0 < ms_len s)%Z -> 0 < eps ->
  exists N, forall k, (N <= k)%nat ->
    exists h' a' ys, ap_run h (ap_new s) (xs ++ repeat c (S k)) = Ret (h', a', ys) /\ Rabs (last ys 0 - c) < eps.
Proof.
  intros B h s l xs c eps C Hn He.
  destruct (ap_spec_app xs l 0) as (d & m & L & App). assert (Hl : (0 < length l)%nat) by (destruct C as (E1 & _); lia).
  set (v := av d m (fun _ => c)).
  destruct (settles (fun k => v k - 2 * c) (fun k => match k with O => v 0%nat - 2 * c | S j => v j - 2 * c end) (length l) 0 (/ 2) Hl) with (eps := eps) as [N HN]; try lra.
  { rewrite Rabs_pos_eq; lra. }
  { intros k. ring. }
  { intros k. unfold v. rewrite av_next with (n := length l) by lia. field. }
  exists N. intros k Hk. destruct (ap_run_ok (xs ++ repeat c (S k)) h (ap_new s) l 0) as (h' & a' & E & _); [exact (dl_new_rel h s l C Hn)|].
  exists h', a'. eexists. split; [exact E|]. rewrite App, (repeat_seq c 0 (S k)).
  pose proof (ap_spec_seq d m (fun _ => c) (S k) 0) as Q. rewrite Nat.add_0_r in Q. cbn [ast] in Q. rewrite Q. rewrite last_app_ne by discriminate.
  rewrite last_map_seq. fold v. cbn [Nat.add]. replace (- c + v k - c) with (v k - 2 * c) by ring. exact (HN k Hk).
Qed.
Print Assumptions C94_all_pass_settles.

Example C94_met : pow2 (-80) <= 1 <= pow2 90 /\ Forall (bounded (201 / 100 * 1)) [of_int 2; of_int 1] /\ Forall (bounded 1) [of_int 1; of_int (-1)].
Proof.
  split; [split; [change 1 with (pow2 0)|change 1 with (pow2 0)]; apply bpow_le; lia|].
  split; repeat (constructor; [split; [reflexivity|];
    match goal with |- context [of_int ?z] => rewrite (proj2 (of_int_exact z ltac:(lia))) end; apply Rabs_le; lra|]); constructor.
Qed.
