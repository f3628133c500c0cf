(** * Lemmas on the Simpson rule model. *)

From Coq Require Import ZArith List Bool Reals Lia Lra Arith.
From Verif Require Import Base F32 Num M_Integral.
Import ListNotations.

Lemma step_by_2_even {A} (g : nat -> A) k s : step_by_2 (map g (seq s (2 * k))) = map (fun i => g (s + 2 * i)%nat) (seq 0 k).
Proof.
  revert s. induction k as [|k IH]; intros s; [reflexivity|].
  replace (2 * S k)%nat with (S (S (2 * k))) by lia. cbn [seq map step_by_2].
  rewrite IH, <- seq_shift, map_map. f_equal; [f_equal; lia|]. apply map_ext. intros i. f_equal. lia.
Qed.
Lemma step_by_2_odd {A} (g : nat -> A) k s : step_by_2 (map g (seq s (2 * k + 1))) = map (fun i => g (s + 2 * i)%nat) (seq 0 (k + 1)).
Proof.
  revert s. induction k as [|k IH]; intros s; [cbn; do 2 f_equal; lia|].
  replace (2 * S k + 1)%nat with (S (S (2 * k + 1))) by lia. cbn [seq map step_by_2].
  rewrite IH. replace (S k + 1)%nat with (S (k + 1)) by lia. cbn [seq map]. rewrite <- seq_shift, map_map.
  f_equal; [f_equal; lia|]. apply map_ext. intros i. f_equal. lia.
Qed.

Lemma slice_range_map {A} (g : nat -> A) N a b : (a <= b <= N)%nat ->
  slice_range (map g (seq 0 N)) a b = Ret (map g (seq a (b - a))).
Proof.
  intros H. unfold slice_range. rewrite map_length, seq_length.
  rewrite (proj2 (Nat.leb_le a b)), (proj2 (Nat.leb_le b N)) by lia. cbn [andb]. f_equal.
  replace N with (a + ((b - a) + (N - b)))%nat by lia. rewrite !seq_app, !map_app.
  rewrite skipn_app, map_length, seq_length, Nat.sub_diag. rewrite skipn_all2 by (rewrite map_length, seq_length; lia).
  cbn [skipn app]. rewrite firstn_app, map_length, seq_length, Nat.sub_diag. cbn [firstn]. rewrite app_nil_r.
  apply firstn_all2. rewrite map_length, seq_length. lia.
Qed.

Lemma map_outcome_ret {F} (g : F -> F) xs : map_outcome (fun x => Ret (g x)) xs = Ret (map g xs).
Proof. induction xs as [|x r IH]; [reflexivity|]. cbn [map_outcome bind map]. now rewrite IH. Qed.

Section Shape.
Context {F : Type} {NF : Num F}.
Local Open Scope num_scope.
Variables (g : F -> F) (a b : F).

Lemma simpson_too_short N : (N < 3)%nat -> simpsons_rule N (fun x => Ret (g x)) a b = Panic.
Proof. intros H. destruct N as [|[|[|N]]]; [reflexivity|reflexivity|reflexivity|lia]. Qed.

Definition node N (i : nat) : F := a + nint (Z.of_nat i) * ((b - a) / nint (Z.of_nat N)).

Lemma simpson_even m : (2 <= m)%nat -> let N := (2 * m)%nat in
  simpsons_rule N (fun x => Ret (g x)) a b =
  Ret (((b - a) / nint (Z.of_nat N)) / nint 3 *
   (g a + nint 4 * sum (map (fun i => g (node N (2 * i + 1))) (seq 0 m))
        + nint 2 * sum (map (fun i => g (node N (2 * i + 2))) (seq 0 (m - 1)))
        + nint 4 * sum (map (fun i => g (node N (2 * i + 1))) (seq 0 m)) + g b)).
Proof.
  intros Hm N. unfold simpsons_rule. rewrite map_outcome_ret, map_map. cbn [bind].
  change (fun x => g (a + nint (Z.of_nat x) * ((b - a) / nint (Z.of_nat N)))) with (fun i => g (node N i)).
  rewrite !slice_range_map by lia. cbn [bind].
  replace (Nat.modulo N 2) with 0%nat by (unfold N; rewrite Nat.mul_comm, Nat.mod_mul by lia; reflexivity). cbn [Nat.eqb bind].
  replace (N - 1)%nat with (2 * (m - 1) + 1)%nat by lia. replace (2 * (m - 1) + 1 - 2)%nat with (2 * (m - 2) + 1)%nat by lia.
  rewrite !step_by_2_odd. replace (m - 1 + 1)%nat with m by lia. replace (m - 2 + 1)%nat with (m - 1)%nat by lia.
  cbv beta.
  assert (E : forall j k, map (fun i => g (node N (j + 2 * i))) (seq 0 k) = map (fun i => g (node N (2 * i + j))) (seq 0 k)).
  { intros j k. apply map_ext. intros i. do 2 f_equal. lia. }
  rewrite (E 1%nat m), (E 2%nat (m - 1)%nat). reflexivity.
Qed.

Lemma simpson_odd m : (1 <= m)%nat -> let N := (2 * m + 1)%nat in
  simpsons_rule N (fun x => Ret (g x)) a b =
  Ret (((b - a) / nint (Z.of_nat N)) / nint 3 *
   (g a + nint 4 * sum (map (fun i => g (node N (2 * i + 1))) (seq 0 m))
        + nint 2 * sum (map (fun i => g (node N (2 * i + 2))) (seq 0 (m - 1)))
        + nint 4 * sum (map (fun i => g (node N (2 * i + 1))) (seq 0 m)) + nint 0)).
Proof.
  intros Hm N. unfold simpsons_rule. rewrite map_outcome_ret, map_map. cbn [bind].
  change (fun x => g (a + nint (Z.of_nat x) * ((b - a) / nint (Z.of_nat N)))) with (fun i => g (node N i)).
  rewrite !slice_range_map by lia. cbn [bind].
  replace (Nat.modulo N 2) with 1%nat
    by (unfold N; rewrite Nat.add_comm, Nat.mul_comm, Nat.mod_add by lia; reflexivity). cbn [Nat.eqb bind].
  replace (N - 1)%nat with (2 * m)%nat by lia. replace (2 * m - 2)%nat with (2 * (m - 1))%nat by lia.
  rewrite !step_by_2_even.
  cbv beta.
  assert (E : forall j k, map (fun i => g (node N (j + 2 * i))) (seq 0 k) = map (fun i => g (node N (2 * i + j))) (seq 0 k)).
  { intros j k. apply map_ext. intros i. do 2 f_equal. lia. }
  rewrite (E 1%nat m), (E 2%nat (m - 1)%nat). reflexivity.
Qed.
End Shape.
