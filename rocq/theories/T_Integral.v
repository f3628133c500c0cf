(** * Theorems: numerical integration (C73). *)

From Coq Require Import ZArith List Bool Reals Lia Lra Arith.
From Flocq Require Import Core.
From Verif Require Import Base F32 F32Lemmas F32Exact F32Over Num M_Integral S_Integral P_Integral Examples.
Import ListNotations.
Local Open Scope R_scope.

Lemma nintR z : @nint R num_R z = IZR z.
Proof. unfold nint. cbn. ring. Qed.

Lemma fold_left_plus l x : fold_left Rplus l x = x + fold_left Rplus l 0.
Proof.
  revert x. induction l as [|y l IH]; intros x; cbn [fold_left]; [lra|]. rewrite IH, (IH (0 + y)). lra.
Qed.
Lemma sum_rsum (g : nat -> R) n : sum (map g (seq 0 n)) = rsum n g.
Proof.
  unfold sum. rewrite nintR. change (@nadd R num_R) with Rplus. induction n as [|n IH]; [reflexivity|].
  replace (S n) with (n + 1)%nat by lia. rewrite seq_app, map_app, fold_left_app, IH. cbn [seq map fold_left].
  replace (n + 1)%nat with (S n) by lia. reflexivity.
Qed.
Lemma rsum_ext n g g' : (forall i, g i = g' i) -> rsum n g = rsum n g'.
Proof. intros H. induction n as [|n IH]; [reflexivity|]. cbn. now rewrite IH, H. Qed.

Lemma node_R a b N i : @node R num_R a b N i = a + INR i * ((b - a) / INR N).
Proof. unfold node. rewrite !nintR, <- !INR_IZR_INZ. reflexivity. Qed.

(** C73: fewer than three nodes make [simpsons_rule] panic, whatever the function and the
    interval, in f32 as in exact arithmetic. *)
Theorem C73_too_few_nodes : forall (F : Type) (NF : Num F) (f : F -> F) (N : nat) (a b : F), (N < 3)%nat ->
  simpsons_rule N (fun x => Ret (f x)) a b = Panic.
Proof. intros F NF f N a b H. now apply simpson_too_short. Qed.
Print Assumptions C73_too_few_nodes.

(** C73: in exact arithmetic, for every function and every even number 2m >= 4 of nodes, the
    result is the Simpson rule plus 4h/3 times the sum of the values at the odd nodes: those
    get weight 8 instead of 4. *)
Theorem C73_odd_nodes_twice_refuted : forall (f : R -> R) (a b : R) (m : nat), (2 <= m)%nat ->
  let h := (b - a) / (2 * INR m) in
  simpsons_rule (2 * m) (fun x => Ret (f x)) a b = Ret (simpson f a b m + 4 * h / 3 * odd_nodes f a h m).
Proof.
  intros f a b m Hm h. assert (H2 : INR (2 * m) = 2 * INR m) by (rewrite mult_INR; reflexivity).
  assert (0 < INR m) by (apply lt_0_INR; lia).
  rewrite simpson_even by exact Hm. cbv zeta. f_equal. rewrite !sum_rsum, !nintR, <- !INR_IZR_INZ, H2.
  unfold simpson. fold h. cbn [nadd nsub nmul ndiv num_R].
  rewrite (rsum_ext m _ (fun i => f (a + (2 * INR i + 1) * h))).
  2:{ intros i. rewrite node_R, H2, plus_INR, mult_INR. fold h. reflexivity. }
  rewrite (rsum_ext (m - 1) _ (fun i => f (a + (2 * INR i + 2) * h))).
  2:{ intros i. rewrite node_R, H2, plus_INR, mult_INR. fold h. do 3 f_equal. }
  fold (odd_nodes f a h m). fold (even_nodes f a h m). fold h. field.
Qed.
Print Assumptions C73_odd_nodes_twice_refuted.

Lemma rsum_affine p q n : rsum n (fun i => p + q * (2 * INR i + 1)) = INR n * p + q * (INR n * INR n).
Proof. induction n as [|n IH]; [cbn; ring|]. cbn [rsum]. rewrite IH, S_INR. ring. Qed.
Lemma rsum_affine2 p q n : rsum n (fun i => p + q * (2 * INR i + 2)) = INR n * p + q * (INR n * (INR n + 1)).
Proof. induction n as [|n IH]; [cbn; ring|]. cbn [rsum]. rewrite IH, S_INR. ring. Qed.

(** C73: so an affine function x -> c + d*x is integrated to 5/3 of its integral for every
    even N = 2m >= 4. In particular a constant c gives 5/3 * c * (b - a). *)
Theorem C73_affine_five_thirds_refuted : forall (c d a b : R) (m : nat), (2 <= m)%nat ->
  simpsons_rule (2 * m) (fun x => Ret (c + d * x)) a b = Ret (5 / 3 * (c * (b - a) + d * (b * b - a * a) / 2)).
Proof.
  intros c d a b m Hm. rewrite C73_odd_nodes_twice_refuted by exact Hm. cbv zeta. f_equal.
  assert (Pm : 0 < INR m) by (apply lt_0_INR; lia).
  unfold simpson. set (h := (b - a) / (2 * INR m)). unfold odd_nodes, even_nodes.
  rewrite (rsum_ext m _ (fun i => (c + d * a) + (d * h) * (2 * INR i + 1))) by (intros; ring).
  rewrite (rsum_ext (m - 1) _ (fun i => (c + d * a) + (d * h) * (2 * INR i + 2))) by (intros; ring).
  rewrite rsum_affine, rsum_affine2, minus_INR by lia. unfold h. cbn [INR]. field. lra.
Qed.
Print Assumptions C73_affine_five_thirds_refuted.

(** C73: for odd N = 2m+1 >= 3 a constant is integrated to (5/3 - 2/N) of its integral. *)
Theorem C73_constant_odd_refuted : forall (c a b : R) (m : nat), (1 <= m)%nat ->
  simpsons_rule (2 * m + 1) (fun _ => Ret c) a b = Ret ((5 / 3 - 2 / (2 * INR m + 1)) * (c * (b - a))).
Proof.
  intros c a b m Hm. change (fun _ : R => Ret c) with (fun x : R => Ret ((fun _ => c) x)). rewrite simpson_odd by exact Hm. cbv zeta. f_equal.
  assert (Pm : 0 <= INR m) by apply pos_INR.
  assert (H2 : INR (2 * m + 1) = 2 * INR m + 1) by (rewrite plus_INR, mult_INR; reflexivity).
  rewrite !sum_rsum, !nintR, <- !INR_IZR_INZ, H2. cbn [nadd nsub nmul ndiv num_R].
  rewrite (rsum_ext m _ (fun i => c + 0 * (2 * INR i + 1))) by (intros; ring).
  rewrite (rsum_ext (m - 1) _ (fun i => c + 0 * (2 * INR i + 2))) by (intros; ring).
  rewrite rsum_affine, rsum_affine2, minus_INR by lia. cbn [INR]. field. lra.
Qed.
Print Assumptions C73_constant_odd_refuted.

(** The first four nodes on [0, 4], function 1: 20/3 instead of 4. *)
Example C73_ex : simpsons_rule 4 (fun _ => Ret 1) 0 4 = Ret (20 / 3).
Proof.
  pose proof (C73_affine_five_thirds_refuted 1 0 0 4 2 ltac:(lia)) as H. change (2 * 2)%nat with 4%nat in H.
  transitivity (simpsons_rule 4 (fun x => Ret (1 + 0 * x)) 0 4).
  - assert (E : forall f g : R -> outcome R, (forall x, f x = g x) -> simpsons_rule 4 f 0 4 = simpsons_rule 4 g 0 4).
    { intros f g E. unfold simpsons_rule. cbn [seq map map_outcome]. now rewrite !E. }
    apply E. intros x. f_equal. ring.
  - rewrite H. f_equal. lra.
Qed.

(** The same in f32: 6.666667 *)
Example C73_ex_f32 (NP : NanPolicy) : obits (simpsons_rule 4 (fun _ => Ret (of_int 1)) (of_int 0) (of_int 4)) = Ret 1087722838%Z.
Proof. vm_compute. reflexivity. Qed.

(** ** The start value of a sum *)
Section Start.
Context {NP : NanPolicy}.
(** Equal numbers (zeros of either sign are), or both NaN. *)
Definition alike (x y : f32) : Prop := (isnan x = true /\ isnan y = true) \/ feq x y = true.

Lemma alike_fin x y : fin x = true -> fin y = true -> val x = val y -> alike x y.
Proof.
  intros Fx Fy E. right. rewrite feq_ext, !ext_fin by auto using fin_notnan. rewrite E. apply Req_bool_true. reflexivity.
Qed.
Lemma alike_refl x : alike x x.
Proof.
  destruct (isnan x) eqn:N; [left; auto|right]. rewrite feq_ext by exact N. apply Req_bool_true. reflexivity.
Qed.
Lemma alike_cases x y : alike x y -> x = y \/ (isnan x = true /\ isnan y = true) \/
  (fin x = true /\ fin y = true /\ val x = 0 /\ val y = 0).
Proof.
  intros [H|H]; [auto|]. destruct (isnan x) eqn:Nx; [rewrite feq_nan in H by auto; discriminate|].
  destruct (isnan y) eqn:Ny; [rewrite feq_nan in H by auto; discriminate|]. rewrite feq_ext in H by assumption.
  destruct (Req_bool_spec (ext x) (ext y)) as [E|E]; [|discriminate]. clear H. pose proof big_pos as P.
  assert (EI : ext f_inf = big) by reflexivity. assert (EN : ext (Binary.B754_infinity 24 128 true) = - big) by reflexivity.
  assert (FB : forall z, fin z = true -> - big < ext z < big).
  { intros z Fz. rewrite ext_fin by exact Fz. apply Rabs_lt_inv. apply val_lt_big. }
  destruct (not_nan_cases x Nx) as [Fx|[-> | ->]]; destruct (not_nan_cases y Ny) as [Fy|[-> | ->]]; auto.
  - rewrite !ext_fin in E by assumption. destruct (Req_dec (val x) 0) as [Z|Z]; [right; right; repeat split; auto; congruence|].
    left. now apply val_inj.
  - specialize (FB x Fx). rewrite ?EI, ?EN in E. lra.
  - specialize (FB x Fx). rewrite ?EI, ?EN in E. lra.
  - specialize (FB y Fy). rewrite ?EI, ?EN in E. lra.
  - rewrite ?EI, ?EN in E. lra.
  - specialize (FB y Fy). rewrite ?EI, ?EN in E. lra.
  - rewrite ?EI, ?EN in E. lra.
Qed.

Lemma fin_zero x : fin x = true -> val x = 0 -> exists s, x = Binary.B754_zero 24 128 s.
Proof.
  intros F V. destruct x as [s|s|s pl H'|s m e H']; try discriminate F; [now exists s|].
  exfalso. unfold val in V. simpl in V. apply eq_0_F2R in V. destruct s; discriminate V.
Qed.
Lemma add_zero_l z y : fin z = true -> val z = 0 -> fin y = true -> fin (fadd z y) = true /\ val (fadd z y) = val y.
Proof.
  intros Fz Vz Fy. destruct (fadd_spec z y Fz Fy) as [F V].
  { rewrite Vz, Rplus_0_l, rnd_repr by apply repr_val. apply val_lt_big. }
  split; [exact F|]. rewrite V, Vz, Rplus_0_l. apply rnd_repr, repr_val.
Qed.
Lemma add_zero_r z y : fin z = true -> val z = 0 -> fin y = true -> fin (fadd y z) = true /\ val (fadd y z) = val y.
Proof.
  intros Fz Vz Fy. destruct (fadd_spec y z Fy Fz) as [F V].
  { rewrite Vz, Rplus_0_r, rnd_repr by apply repr_val. apply val_lt_big. }
  split; [exact F|]. rewrite V, Vz, Rplus_0_r. apply rnd_repr, repr_val.
Qed.

Lemma alike_add x x' y y' : alike x x' -> alike y y' -> alike (fadd x y) (fadd x' y').
Proof.
  intros Hx Hy. apply alike_cases in Hx, Hy.
  destruct Hx as [->|[[N N']|(Fx & Fx' & Vx & Vx')]].
  2: left; split; apply fadd_nan; auto.
  - destruct Hy as [->|[[N N']|(Fy & Fy' & Vy & Vy')]]; [apply alike_refl|left; split; apply fadd_nan; auto|].
    destruct (isnan x') eqn:N; [left; split; apply fadd_nan; auto|].
    destruct (not_nan_cases x' N) as [F|E].
    + destruct (add_zero_r y x' Fy Vy F) as [F1 V1]. destruct (add_zero_r y' x' Fy' Vy' F) as [F2 V2].
      apply alike_fin; auto. congruence.
    + destruct (fin_zero y Fy Vy) as [s ->]. destruct (fin_zero y' Fy' Vy') as [s' ->].
      destruct E as [-> | ->]; apply alike_refl.
  - destruct Hy as [->|[[N N']|(Fy & Fy' & Vy & Vy')]]; [|left; split; apply fadd_nan; auto|].
    + destruct (isnan y') eqn:N; [left; split; apply fadd_nan; auto|].
      destruct (not_nan_cases y' N) as [F|E].
      * destruct (add_zero_l x y' Fx Vx F) as [F1 V1]. destruct (add_zero_l x' y' Fx' Vx' F) as [F2 V2].
        apply alike_fin; auto. congruence.
      * destruct (fin_zero x Fx Vx) as [s ->]. destruct (fin_zero x' Fx' Vx') as [s' ->].
        destruct E as [-> | ->]; apply alike_refl.
    + destruct (add_zero_l x y Fx Vx Fy) as [F1 V1]. destruct (add_zero_l x' y' Fx' Vx' Fy') as [F2 V2].
      apply alike_fin; auto. congruence.
Qed.

Lemma alike_mul c x x' : alike x x' -> alike (fmul c x) (fmul c x').
Proof.
  intros Hx. apply alike_cases in Hx. destruct Hx as [->|[[N N']|(Fx & Fx' & Vx & Vx')]]; [apply alike_refl|left; split; apply fmul_nan; auto|].
  destruct (isnan c) eqn:N; [left; split; apply fmul_nan; auto|].
  destruct (not_nan_cases c N) as [F|E].
  - assert (Z : forall z, fin z = true -> val z = 0 -> fin (fmul c z) = true /\ val (fmul c z) = 0).
    { intros z Fz Vz. destruct (fmul_spec c z F Fz) as [F1 V1]; [rewrite Vz, Rmult_0_r, rnd_0, Rabs_R0; apply big_pos|].
      split; [exact F1|]. now rewrite V1, Vz, Rmult_0_r, rnd_0. }
    destruct (Z x Fx Vx), (Z x' Fx' Vx'). apply alike_fin; auto. congruence.
  - destruct (fin_zero x Fx Vx) as [s ->]. destruct (fin_zero x' Fx' Vx') as [s' ->].
    left. destruct E as [-> | ->]; unfold fmul, Binary.Bmult; rewrite !isnan_BSN2B; auto.
Qed.

Lemma alike_sum l z z' : alike z z' -> alike (fold_left fadd l z) (fold_left fadd l z').
Proof. revert z z'. induction l as [|x l IH]; intros z z' H; [exact H|]. cbn [fold_left]. apply IH, alike_add; [exact H|apply alike_refl]. Qed.
End Start.

(** C73: whether a sum starts at 0.0, as in older versions of core, or at -0.0, as in recent ones, makes
    no difference: for every function, number of nodes and interval the outcome is the same, and a
    number equal to it if it is a number. *)
Theorem C73_sum_start : forall (NP : NanPolicy) (f : f32 -> outcome f32) (N : nat) (a b : f32),
  simpsons_rule_from (of_int 0) N f a b = simpsons_rule N f a b /\
  match simpsons_rule N f a b, simpsons_rule_from (fneg (of_int 0)) N f a b with
  | Ret y, Ret y' => isnan y = true /\ isnan y' = true \/ feq y y' = true
  | Panic, Panic | UB, UB => True
  | _, _ => False
  end.
Proof.
  intros NP f N a b. split; [reflexivity|]. unfold simpsons_rule, simpsons_rule_from. cbv zeta.
  generalize (map (fun i => nadd a (nmul (nint (Z.of_nat i)) (ndiv (nsub b a) (nint (Z.of_nat N))))) (seq 0 N)). intros xs.
  destruct (map_outcome f xs) as [y| |]; cbn [bind]; [|exact I|exact I]. destruct (f a) as [fa| |]; cbn [bind]; [|exact I|exact I].
  destruct (slice_range y 1 N) as [s1| |]; cbn [bind]; [|exact I|exact I]. destruct (slice_range y 2 (N - 1)) as [s2| |]; cbn [bind]; [|exact I|exact I].
  destruct (if Nat.eqb (Nat.modulo N 2) 0 then f b else Ret (nint 0)) as [fb| |]; cbn [bind]; [|exact I|exact I].
  assert (Z : alike (nint 0) (fneg (of_int 0))) by (right; vm_compute; reflexivity).
  assert (Sm : forall l, alike (sum l) (sum_from (fneg (of_int 0)) l)) by (intros l; apply alike_sum; exact Z).
  generalize (ndiv (ndiv (nsub b a) (nint (Z.of_nat N))) (nint 3)). intros c.
  generalize (@nint f32 num_f32 4) (@nint f32 num_f32 2). intros c4 c2.
  change (alike (fmul c (fadd (fadd (fadd (fadd fa (fmul c4 (sum (step_by_2 s1)))) (fmul c2 (sum (step_by_2 s2)))) (fmul c4 (sum (step_by_2 s1)))) fb))
    (fmul c (fadd (fadd (fadd (fadd fa (fmul c4 (sum_from (fneg (of_int 0)) (step_by_2 s1)))) (fmul c2 (sum_from (fneg (of_int 0)) (step_by_2 s2)))) (fmul c4 (sum_from (fneg (of_int 0)) (step_by_2 s1)))) fb))).
  repeat first [apply alike_mul | apply alike_add | apply Sm | apply alike_refl].
Qed.
Print Assumptions C73_sum_start.

(** Both versions of core on a function whose values cancel to a zero: the signs differ, the numbers do not. *)
Example C73_sum_start_met (NP : NanPolicy) :
  let f := fun x : f32 => Ret (fneg (of_int 0)) in
  match simpsons_rule 4 f (of_int 0) (of_int 4), simpsons_rule_from (fneg (of_int 0)) 4 f (of_int 0) (of_int 4) with
  | Ret y, Ret y' => feq y y' = true /\ to_bits y = 0%Z /\ to_bits y' = (2 ^ 31)%Z | _, _ => False end.
Proof. vm_compute. repeat split. Qed.
