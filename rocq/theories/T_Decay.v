(** * Theorems: how fast a comb filter dies away once its input stops (C116). *)

From Coq Require Import ZArith List Bool Reals Lia Lra Psatz.
From Flocq Require Import Core.
From Verif Require Import Base F32 F32Lemmas F32Range Num M_Memory M_Delay S_Memory S_Delay S_Comb S_Decay P_Memory P_Delay P_DelayNum P_Comb P_Decay T_Comb Examples.
Import ListNotations.
Local Open Scope R_scope.

(** In exact arithmetic, after any history of inputs within [M] and settings within bounds:
    once dampening [p] and feedback [g] are set and the input stops, the output falls by the
    factor [rho] every sample, from the level [K] it may have had. *)
Theorem C116_comb_decay : forall (B : Build) (h : heap R) s l (ops : list (comb_op R)) (p g e rho K M f : R) (k : nat),
  covers h s l -> (0 < ms_len s)%Z -> 0 <= K -> 1 / 2 <= f <= 1 -> M <= K * (1 - f) ->
  Forall (fun v => Rabs v <= K) l -> Forall (call_within M f) ops ->
  0 <= p < 1 -> 0 < e < 1 -> Rabs g <= e -> decay_rate (length l) p e rho ->
  exists h' c' ys, comb_run h (cb_new s) (ops ++ CDamp p :: CFeedback g :: repeat (CTick 0) (S k)) = Ret (h', c', ys) /\
    Rabs (last ys 0) <= K * rho ^ (k - length l).
Proof.
  intros B h s l ops p g e rho K M f k C Hn PK Hf HM Hl Ho Hp He Hg Hr. pose proof (fresh_R h s l C Hn) as FR.
  destruct (history_within K M f ops PK ltac:(lra) HM Ho l 0%nat 0 (1 / 2) (1 / 2) Hl) as (d & m & s0 & p1 & g1 & L & D & S0 & App); try lra.
  { rewrite Rabs_R0. exact PK. }
  { rewrite Rabs_pos_eq by lra. lra. }
  assert (Ln : (0 < length l)%nat) by (destruct C as (E1 & _); lia).
  set (y := cy d m s0 p g (fun _ => 0)). set (z := cs d m s0 p g (fun _ => 0)).
  destruct (comb_run_ok (ops ++ CDamp p :: CFeedback g :: repeat (CTick 0) (S k)) h (cb_new s) l 0 0 (1 / 2) (1 / 2) FR) as (h' & c' & E & _).
  exists h', c'. eexists. split; [exact E|]. rewrite App. cbn [comb_spec].
  rewrite (repeat_seq (CTick 0) 0 (S k)), <- (map_map (fun _ => 0) CTick). rewrite last_app_ne.
  - replace (comb_spec _ _ _ _ _ _) with (map y (seq 0 (S k))).
    + rewrite last_map_seq. cbn [Nat.add].
      apply (output_falls y z (length l) p g e rho K Ln Hp He Hg Hr PK).
      * intros j. unfold z, y. now rewrite cs_S.
      * intros j. unfold y. rewrite cy_next with (n := length l) by lia. unfold z. ring.
      * exact S0.
      * intros j Hj. unfold y. rewrite cy_first with (n := length l) by lia.
        rewrite Forall_forall in D. apply D, nth_In. lia.
    + symmetry. pose proof (comb_spec_seq d m s0 p g (fun _ => 0) (S k) 0) as Q. rewrite Nat.add_0_r in Q. exact Q.
  - cbn [seq map comb_spec]. discriminate.
Qed.
Print Assumptions C116_comb_decay.

(** And no faster: from a buffer of samples of at least [k0] > 0, with a positive feedback and a
    factor [rho] at or below the one that makes the condition of [decay_rate] an equality, the
    output stays above a fixed multiple of [rho] to the elapsed time. *)
Theorem C116_no_faster : forall (B : Build) (h : heap R) s l (p g rho k0 : R) (k : nat),
  covers h s l -> (0 < ms_len s)%Z -> 0 <= k0 -> Forall (fun v => k0 <= v) l ->
  0 <= p < 1 -> 0 <= g -> 0 < rho <= 1 -> rho ^ length l * (1 - p / rho) <= g * (1 - p) -> (length l <= k)%nat ->
  exists h' c' ys, comb_run h (cb_new s) (CDamp p :: CFeedback g :: repeat (CTick 0) (S k)) = Ret (h', c', ys) /\
    g * (1 - p) * k0 * rho ^ (k - length l) <= last ys 0.
Proof.
  intros B h s l p g rho k0 k C Hn PK Hl Hp Hg Hr Hq Hk. pose proof (fresh_R h s l C Hn) as FR.
  assert (Ln : (0 < length l)%nat) by (destruct C as (E1 & _); lia).
  set (y := cy l 0 0 p g (fun _ => 0)). set (z := cs l 0 0 p g (fun _ => 0)).
  destruct (comb_run_ok (CDamp p :: CFeedback g :: repeat (CTick 0) (S k)) h (cb_new s) l 0 0 (1 / 2) (1 / 2) FR) as (h' & c' & E & _).
  exists h', c'. eexists. split; [exact E|]. cbn [comb_spec].
  rewrite (repeat_seq (CTick 0) 0 (S k)), <- (map_map (fun _ => 0) CTick).
  replace (comb_spec _ _ _ _ _ _) with (map y (seq 0 (S k))).
  - rewrite last_map_seq. cbn [Nat.add].
    apply (output_stays y z (length l) p g rho k0 Ln Hp Hg Hr Hq PK); [| | | |exact Hk].
    + intros j. unfold z, y. now rewrite cs_S.
    + intros j. unfold y. rewrite cy_next with (n := length l) by lia. unfold z. ring.
    + unfold z, cs. cbn. lra.
    + intros j Hj. unfold y. rewrite cy_first with (n := length l) by lia.
      rewrite Forall_forall in Hl. apply Hl, nth_In. lia.
  - symmetry. exact (comb_spec_seq l 0 0 p g (fun _ => 0) (S k) 0).
Qed.
Print Assumptions C116_no_faster.

(** Such a factor always exists: with [n] samples of memory, dampening [p] and feedback within
    [e] the level falls by the factor 1 - (1 - e) / (n + 1 / (1 - p)). *)
Theorem C116_rate : forall (n : nat) (p e : R), (0 < n)%nat -> 0 <= p < 1 -> 0 < e < 1 ->
  decay_rate n p e (1 - (1 - e) / (INR n + / (1 - p))) /\ 0 < 1 - (1 - e) / (INR n + / (1 - p)) < 1.
Proof.
  intros n p e Hn Hp He. pose proof (rate_exists n p e Hn Hp He) as R1. unfold time_constant in R1.
  assert (N1 : 1 <= INR n) by (apply (le_INR 1); lia).
  assert (Q : 0 < / (1 - p)) by (apply Rinv_0_lt_compat; lra).
  set (D := INR n + / (1 - p)) in *. replace (/ (D / (1 - e))) with ((1 - e) / D) in R1 by (field; unfold D; lra).
  split; [exact R1|]. destruct R1 as (_ & P & _). split; [exact P|].
  assert (0 < (1 - e) / D) by (apply Rmult_lt_0_compat; [lra|apply Rinv_0_lt_compat; unfold D; lra]). lra.
Qed.
Print Assumptions C116_rate.

(** Reverberation time: sixty decibels are gone after at most seven time constants and one pass
    of the buffer, (n + 1 / (1 - p)) / (1 - e) samples being the time constant. *)
Theorem C116_sixty_db : forall (B : Build) (h : heap R) s l (ops : list (comb_op R)) (p g e K M f : R) (k : nat),
  covers h s l -> (0 < ms_len s)%Z -> 0 <= K -> 1 / 2 <= f <= 1 -> M <= K * (1 - f) ->
  Forall (fun v => Rabs v <= K) l -> Forall (call_within M f) ops ->
  0 <= p < 1 -> 0 < e < 1 -> Rabs g <= e ->
  (length l <= k)%nat -> 7 * time_constant (length l) p e <= INR (k - length l) ->
  exists h' c' ys, comb_run h (cb_new s) (ops ++ CDamp p :: CFeedback g :: repeat (CTick 0) (S k)) = Ret (h', c', ys) /\
    Rabs (last ys 0) <= K / 1000.
Proof.
  intros B h s l ops p g e K M f k C Hn PK Hf HM Hl Ho Hp He Hg Hk HT.
  assert (Ln : (0 < length l)%nat) by (destruct C as (E1 & _); lia).
  destruct (C116_comb_decay B h s l ops p g e _ K M f k C Hn PK Hf HM Hl Ho Hp He Hg (rate_exists (length l) p e Ln Hp He)) as (h' & c' & ys & E & Y).
  exists h', c', ys. split; [exact E|]. eapply Rle_trans; [exact Y|].
  assert (N1 : 1 <= INR (length l)) by (apply (le_INR 1); lia).
  assert (Q : 0 < / (1 - p)) by (apply Rinv_0_lt_compat; lra).
  assert (T : 1 < time_constant (length l) p e).
  { unfold time_constant. apply Rmult_lt_reg_r with (1 - e); [lra|]. unfold Rdiv. rewrite Rmult_assoc, Rinv_l by lra. lra. }
  pose proof (sixty_db _ _ T HT) as S. unfold Rdiv. apply Rmult_le_compat_l; [exact PK|]. lra.
Qed.
Print Assumptions C116_sixty_db.

(** The same comb in f32: the same fall, down to the accuracy of the arithmetic. *)
Theorem C116_f32_comb_decay : forall (NP : NanPolicy) (B : Build) (h : heap f32) s l (ops : list (comb_op f32)) (p g : f32) (e rho K M f : R) (k : nat),
  covers h s l -> (0 < ms_len s)%Z ->
  pow2 (-90) <= K <= pow2 100 -> 1 / 2 <= f <= 1023 / 1024 -> 101 / 100 * M <= K * (1 - f) -> 0 <= M ->
  Forall (bounded K) l -> Forall (op_ok M f) ops -> damp_ok p ->
  0 < e <= f -> fb_ok e g -> decay_rate (length l) (val p) e rho ->
  exists h' c' ys, comb_run h (cb_new s) (ops ++ CDamp p :: CFeedback g :: repeat (CTick (of_int 0)) (S k)) = Ret (h', c', ys) /\
    fin (last ys (of_int 0)) = true /\
    Rabs (val (last ys (of_int 0))) <= K * rho ^ (k - length l) + K / (131072 * (1 - f)).
Proof.
  intros NP B h s l ops p g e rho K M f k C Hn HK Hf HM PM Hl Ho Hp He Hg Hr. pose proof (K_pos K HK) as PK.
  destruct (of_int_exact 0 ltac:(lia)) as [F0 V0].
  set (sr := MS (PAt 0 0) (ms_len s)). assert (Cr : covers [map val l] sr (map val l)).
  { destruct C as (E1 & E2 & _). unfold covers, sr. cbn [ms_len ms_ptr]. rewrite map_length. split; [exact E1|]. split; [exact E2|].
    exists [], []. rewrite app_nil_r. split; reflexivity. }
  assert (Oall : Forall (op_ok M f) (ops ++ CDamp p :: CFeedback g :: repeat (CTick (of_int 0)) (S k))).
  { apply Forall_app. split; [exact Ho|]. constructor; [exact Hp|]. constructor; [destruct Hg as [G1 G2]; split; [exact G1|lra]|]. apply Forall_forall. intros op Hop. apply repeat_spec in Hop. subst op.
    split; [exact F0|]. rewrite V0, Rabs_R0. exact PM. }
  destruct (C93_comb_tracks NP B h s l [map val l] sr _ K M f C Cr Hn HK Hf HM Hl Oall) as (h' & c' & ys & hr' & cr' & zs & E & Er & T).
  destruct (C116_comb_decay B [map val l] sr (map val l) (map real_op ops) (val p) (val g) e rho K M f k) as (h2 & c2 & zs2 & Er2 & Z); try assumption; try lra.
  { apply Forall_forall. intros v Hv. apply in_map_iff in Hv as (u & <- & Hu). rewrite Forall_forall in Hl. exact (proj2 (Hl u Hu)). }
  { apply Forall_forall. intros v Hv. apply in_map_iff in Hv as (u & <- & Hu). rewrite Forall_forall in Ho. specialize (Ho u Hu). destruct u as [x|v|v]; cbn in *; destruct Ho; [assumption|lra|assumption]. }
  { destruct Hp as [_ Hp]. lra. }
  { exact (proj2 Hg). }
  { now rewrite map_length. }
  rewrite map_app in Er. cbn [map real_op] in Er.
  replace (map real_op (repeat (CTick (of_int 0)) (S k))) with (repeat (CTick 0) (S k)) in Er.
  2:{ clear - V0. induction (S k) as [|j IH]; [reflexivity|]. cbn [repeat map real_op]. rewrite V0, <- IH. reflexivity. }
  rewrite Er2 in Er. injection Er as -> -> ->. rewrite map_length in Z.
  exists h', c', ys. split; [exact E|].
  assert (A : fin (last ys (of_int 0)) = true /\ Rabs (val (last ys (of_int 0)) - last zs 0) <= K / (131072 * (1 - f))).
  { assert (PE : 0 <= K / (131072 * (1 - f))) by (apply Rmult_le_pos; [lra|left; apply Rinv_0_lt_compat; lra]).
    clear - T F0 V0 PE. induction T as [|y z ys zs [[Fy _] Ey] T IH]; [cbn [last]; rewrite V0, Rminus_0_r, Rabs_R0; auto|].
    destruct T as [|y' z' ys zs H T]; [cbn [last]; auto|]. exact IH. }
  destruct A as [Fl El]. split; [exact Fl|].
  replace (val (last ys (of_int 0))) with ((val (last ys (of_int 0)) - last zs 0) + last zs 0) by ring.
  eapply Rle_trans; [apply Rabs_triang|]. lra.
Qed.
Print Assumptions C116_f32_comb_decay.

(** Three samples 1, 2, 3 and two inputs within 1 at the settings of [C93_met]; then dampening 1/2
    and feedback 9/32: the level falls by the factor 3/4 every sample, exactly the slowest mode,
    since (3/4)^3 (1 - (1/2) / (3/4)) = 9/64. *)
Example C116_rate_met : decay_rate 3 (1 / 2) (9 / 32) (3 / 4) /\ (3 / 4) ^ 3 * (1 - 1 / 2 / (3 / 4)) = 9 / 32 * (1 - 1 / 2).
Proof. unfold decay_rate. cbn [pow]. split; [|lra]. split; [lra|]. split; lra. Qed.

Example C116_met (B : Build) (k : nat) : exists h' c' ys,
  comb_run [[7; 1; 2; 3; 7]] (cb_new ex_slice)
    ([CTick 1; CFeedback (1 / 2); CTick (- 1); CDamp (1 / 4)] ++ CDamp (1 / 2) :: CFeedback (9 / 32) :: repeat (CTick 0) (S k)) = Ret (h', c', ys) /\
  Rabs (last ys 0) <= 3 * (3 / 4) ^ (k - 3).
Proof.
  assert (C : covers [[7; 1; 2; 3; 7]] ex_slice [1; 2; 3]).
  { split; [reflexivity|]. split; [cbn [ms_len ex_slice]; unfold isize_max, usize_bits; destruct ptr_w; lia|]. exists [7], [7]. split; reflexivity. }
  apply (C116_comb_decay B _ ex_slice [1; 2; 3] _ (1 / 2) (9 / 32) (9 / 32) (3 / 4) 3 1 (1 / 2) k C); try lra; try reflexivity.
  - repeat (constructor; [rewrite Rabs_pos_eq; lra|]). constructor.
  - repeat (constructor; [cbn [call_within]; first [apply Rabs_le; lra|lra]|]). constructor.
  - rewrite Rabs_pos_eq; lra.
  - apply C116_rate_met.
Qed.

Example C116_f32_met (NP : NanPolicy) (B : Build) (k : nat) : exists h' c' ys,
  comb_run ex_heap (cb_new ex_slice)
    ([CTick (of_int 1); CFeedback (lit 3 (-2)); CTick (of_int (-1)); CDamp (lit 1 (-2)); CTick (lit 1 (-1))] ++
     CDamp (lit 1 (-1)) :: CFeedback (lit 9 (-5)) :: repeat (CTick (of_int 0)) (S k)) = Ret (h', c', ys) /\
  fin (last ys (of_int 0)) = true /\
  Rabs (val (last ys (of_int 0))) <= 8 * (3 / 4) ^ (k - 3) + 8 / (131072 * (1 - 3 / 4)).
Proof.
  destruct C93_met as (HK & Hf & HM & Ho). destruct (lit_exact 1 (-1) ltac:(lia) ltac:(lia)) as [FH VH]. change (pow2 (-1)) with (/ 2) in VH.
  destruct (lit_exact 9 (-5) ltac:(lia) ltac:(lia)) as [FG VG]. change (pow2 (-5)) with (/ 32) in VG.
  apply (C116_f32_comb_decay NP B ex_heap ex_slice ex_list _ (lit 1 (-1)) (lit 9 (-5)) (9 / 32) (3 / 4) 8 1 (3 / 4) k); try assumption; try lra; try reflexivity.
  - apply ex_covers.
  - unfold ex_list. repeat (constructor; [split; [reflexivity|]; match goal with |- context [of_int ?z] => rewrite (proj2 (of_int_exact z ltac:(lia))) end; apply Rabs_le; lra|]). constructor.
  - split; [exact FH|]. rewrite VH. lra.
  - split; [exact FG|]. rewrite VG, Rabs_pos_eq; lra.
  - replace (val (lit 1 (-1))) with (1 / 2) by (rewrite VH; lra). apply C116_rate_met.
Qed.

(** Fifty-two silent samples are enough for sixty decibels at these settings. *)
Example C116_sixty_met : 7 * time_constant 3 (1 / 2) (9 / 32) <= INR (52 - 3).
Proof. unfold time_constant. rewrite (INR_IZR_INZ (52 - 3)), (INR_IZR_INZ 3). change (Z.of_nat (52 - 3)) with 49%Z. change (Z.of_nat 3) with 3%Z. lra. Qed.
