(** * C113, continued: how quiet a comb becomes once the input has stopped. *)

From Coq Require Import ZArith List Bool Reals Lia Lra.
From Flocq Require Import Core.
From Verif Require Import Base F32 F32Lemmas Num M_Memory M_Delay S_Memory S_Delay S_Comb S_Tail
  P_Memory P_Delay P_DelayNum P_Comb P_Tail P_TailComb T_Comb T_Tail Examples.
Import ListNotations.
Local Open Scope R_scope.

Lemma last_seq {A} (u : nat -> A) (z : A) k N : last (map u (seq k (S N))) z = u (k + N)%nat.
Proof. revert k. induction N as [|N IH]; intros k; [cbn; now rewrite Nat.add_0_r|]. change (map u (seq k (S (S N)))) with (u k :: map u (seq (S k) (S N))). rewrite Nat.add_succ_r, <- Nat.add_succ_l, <- IH. destruct (map u (seq (S k) (S N))) eqn:E; [discriminate|]. reflexivity. Qed.
Lemma last_app_r {A} (a b : list A) z : b <> [] -> last (a ++ b) z = last b z.
Proof. intros Hb. induction a as [|x a IH]; [reflexivity|]. cbn [app]. rewrite <- IH. destruct (a ++ b) eqn:E; [destruct a; [now subst|discriminate]|reflexivity]. Qed.

(** After any history of ticks and settings as in [C93_comb_tracks], a comb set to a dampening in [0, 15/16] and a
    feedback within e (1/2 <= e <= f), and given nothing but zeros from then on, is in the long run within
    40 * 2^-149 / (1 - e): it need not fall silent ([C113_comb_hum_refuted]), but it stays below 2^-133. *)
Theorem C113_comb_quiet : forall (NP : NanPolicy) (B : Build) (h : heap f32) s l (ops : list (comb_op f32)) damp g (x : nat -> f32) (K M f e : R),
  covers h s l -> (0 < ms_len s)%Z ->
  pow2 (-90) <= K <= pow2 100 -> f <= 1023 / 1024 -> 1 / 2 <= e <= f -> 0 <= M -> 101 / 100 * M <= K * (1 - f) ->
  Forall (bounded K) l -> Forall (op_ok M f) ops -> damp_ok damp -> fb_ok e g -> (forall n, silent (x n)) ->
  exists N, forall k, (N <= k)%nat ->
    exists h' c' ys, comb_run h (cb_new s) (ops ++ CDamp damp :: CFeedback g :: map CTick (map x (seq 0 (S k)))) = Ret (h', c', ys) /\
      fin (last ys (of_int 0)) = true /\ Rabs (val (last ys (of_int 0))) <= 40 * (tiny / (1 - e)).
Proof.
  intros NP B h s l ops damp g x K M f e C Hn HK Hf He PM HM Hl Ho Hd Hg Hx.
  set (E := K / (131072 * (1 - f))). assert (HE : E * (1 - f) = K / 131072) by (unfold E; field; lra).
  pose proof (K_pos K HK) as PK. assert (PE : 0 <= E) by (unfold E; apply Rmult_le_pos; [lra|left; apply Rinv_0_lt_compat; lra]).
  assert (Half : fin (lit 1 (-1)) = true /\ val (lit 1 (-1)) = 1 / 2).
  { destruct (lit_exact 1 (-1) ltac:(lia) ltac:(lia)) as [F V]. split; [exact F|]. rewrite V. cbn. lra. }
  destruct Half as [FH VH]. destruct (of_int_exact 0 ltac:(lia)) as [F0 V0].
  assert (Rel : comb_rel h (cb_new s) l 0 (of_int 0) (lit 1 (-1)) (lit 1 (-1))).
  { split; [exact (dl_new_rel h s l C Hn)|]. split; [reflexivity|]. split; [reflexivity|]. split; [symmetry; apply one_minus_half|reflexivity]. }
  destruct (spec_app ops l 0 (of_int 0) (lit 1 (-1)) (lit 1 (-1))) as (d & m & s0 & p1 & g1 & L & App).
  assert (Ln : (0 < length l)%nat) by (destruct C as (E1 & _); lia).
  assert (Q : forall N, comb_spec d m s0 damp g (map CTick (map x (seq 0 N))) = map (fy d m s0 damp g x) (seq 0 N)).
  { intros N. pose proof (spec_seq d m s0 damp g x N 0) as Q. rewrite Nat.add_0_r in Q. exact Q. }
  assert (Fy : forall k, fin (fy d m s0 damp g x k) = true).
  { intros k. set (all := ops ++ CDamp damp :: CFeedback g :: map CTick (map x (seq 0 (S k)))).
    assert (T : Forall2 (near_y K E) (comb_spec l 0 (of_int 0) (lit 1 (-1)) (lit 1 (-1)) all)
      (comb_spec (map val l) 0 (val (of_int 0)) (val (lit 1 (-1))) (val (lit 1 (-1))) (map real_op all))).
    { apply comb_tracks with M f; try assumption; try lra.
      - clear - Hl PE. induction Hl as [|y l [Fy By] _ IH]; cbn [map]; constructor; [|exact IH]. split; [exact Fy|]. split; [exact By|]. rewrite Rminus_eq_0, Rabs_R0. exact PE.
      - split; [exact F0|]. rewrite V0, Rminus_0_r, Rabs_R0. split; lra.
      - split; [exact FH|]. rewrite VH. lra.
      - split; [exact FH|]. rewrite VH, Rabs_pos_eq by lra. lra.
      - apply Forall_app. split; [exact Ho|]. constructor; [exact Hd|]. constructor; [destruct Hg as [G1 G2]; split; [exact G1|lra]|].
        apply Forall_forall. intros op Hop. apply in_map_iff in Hop as (z & <- & Hz). apply in_map_iff in Hz as (i & <- & _).
        destruct (Hx i) as [X1 X2]. split; [exact X1|]. rewrite X2, Rabs_R0. exact PM. }
    unfold all in T. rewrite App in T. cbn [comb_spec] in T. rewrite Q in T. clear - T.
    assert (A : forall a b, Forall2 (near_y K E) a b -> Forall (fun y => fin y = true) a) by (induction 1 as [|y z ? ? [F _] _ IH]; constructor; assumption).
    apply A in T. apply Forall_app in T as [_ T]. rewrite Forall_forall in T. apply T, in_map, in_seq. lia. }
  destruct (comb_quiet d m s0 damp g x (length l) e ltac:(lia) Ln Hd Hg ltac:(lra) Hx Fy) as [N HN].
  exists N. intros k Hk. destruct (comb_run_ok (ops ++ CDamp damp :: CFeedback g :: map CTick (map x (seq 0 (S k)))) h (cb_new s) l 0 _ _ _ Rel) as (h' & c' & Er & _).
  exists h', c'. eexists. split; [exact Er|]. rewrite App. cbn [comb_spec]. rewrite Q, last_app_r by discriminate. rewrite last_seq.
  split; [apply Fy|exact (HN k Hk)].
Qed.
Print Assumptions C113_comb_quiet.

(** The samples 1, 2, 3, then the calls of [C93_met], then dampening and feedback 1/2 and zeros: the output ends up
    within 80 * 2^-149 and, by [C113_default_comb_hums], such a comb need not go below 2 * 2^-149. *)
Example C113_comb_quiet_met (NP : NanPolicy) (B : Build) : exists N, forall k, (N <= k)%nat ->
    exists h' c' ys, comb_run ex_heap (cb_new ex_slice)
      ([CTick (of_int 1); CFeedback (lit 3 (-2)); CTick (of_int (-1)); CDamp (lit 1 (-2)); CTick (lit 1 (-1))] ++
       CDamp (lit 1 (-1)) :: CFeedback (lit 1 (-1)) :: map CTick (map (fun _ => of_int 0) (seq 0 (S k)))) = Ret (h', c', ys) /\
      fin (last ys (of_int 0)) = true /\ Rabs (val (last ys (of_int 0))) <= 40 * (tiny / (1 - 1 / 2)).
Proof.
  destruct C93_met as (HK & Hf & HM & Ho). destruct (lit_exact 1 (-1) ltac:(lia) ltac:(lia)) as [FH VH]. change (pow2 (-1)) with (/ 2) in VH.
  apply C113_comb_quiet with ex_list 8 1 (3 / 4); try assumption; try lra.
  - apply ex_covers.
  - reflexivity.
  - unfold ex_list. repeat (constructor; [split; [reflexivity|]; match goal with |- context [of_int ?z] => rewrite (proj2 (of_int_exact z ltac:(lia))) end; apply Rabs_le; lra|]). constructor.
  - split; [exact FH|]. rewrite VH. lra.
  - split; [exact FH|]. rewrite VH, Rabs_pos_eq; lra.
  - intros _. apply zero_silent.
Qed.
