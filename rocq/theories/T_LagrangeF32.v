(** * Theorems: Lagrange interpolation in single precision (C99). *)

From Coq Require Import ZArith List Bool Reals Lia Lra Psatz.
From Flocq Require Import Core.
From Verif Require Import Base F32 F32Lemmas F32Exact F32Ints Num M_Memory S_Memory S_Delay S_Poly S_LagrangeF32
  P_Memory P_Lerp P_Lagrange P_DesignF32 P_LagrangeF32 Examples.
Import ListNotations.
Local Open Scope R_scope.

(** C99: with 1 to 16 samples within 2^30 and a position between the first and the last, the
    result is within n 2^-22 times the sum of the contributions, plus 2^-80, of the polynomial of
    degree below n through the samples. *)
Theorem C99_lagrange_accuracy : forall (NP : NanPolicy) (B : Build) (ys : list f32) (x : f32) (c : list R),
  (1 <= length ys <= 16)%nat -> Forall (bounded (pow2 30)) ys -> fin x = true -> 0 <= val x <= INR (length ys - 1) ->
  (length c <= length ys)%nat -> (forall k, (k < length ys)%nat -> peval c (INR k) = val (nth k ys f_zero)) ->
  exists v, lagrange ys x = Ret v /\ fin v = true /\
    Rabs (val v - peval c (val x)) <= INR (length ys) * pow2 (-22) * spread (map val ys) (val x) + pow2 (-80).
Proof.
  intros NP B ys x c Hn Hy Fx Hx Lc Hc. exists (lagrange_sum ys x).
  rewrite (lagrange_precondition_fin ys x) by (try exact Fx; try lia; intros ->; cbn in Hn; lia). rewrite Rle_bool_true by tauto.
  split; [reflexivity|]. replace (peval c (val x)) with (lagrange_sum (map val ys) (val x)); [now apply sum_f32_near|].
  apply lagrange_reproduces; [now rewrite map_length|]. intros k Hk. rewrite map_length in Hk. unfold node. rewrite <- INR_IZR_INZ, Hc by exact Hk.
  rewrite <- (map_nth val). apply nth_indep. now rewrite map_length.
Qed.
Print Assumptions C99_lagrange_accuracy.

(** The contribution bound is attained by design: at a node only the sample there contributes. *)
Lemma basis_node n i k : (k < n)%nat -> basis n i (INR k) = if Nat.eqb i k then 1 else 0.
Proof.
  intros Hk. unfold basis. assert (Hin : In k (seq 0 n)) by (apply in_seq; lia). generalize (seq 0 n) Hin. clear Hk Hin. intros js Hin.
  destruct (Nat.eqb_spec i k) as [->|E].
  - clear Hin. induction js as [|j js IH]; [reflexivity|]. cbn [map fold_right]. rewrite IH. destruct (Nat.eqb_spec k j) as [|N]; [lra|].
    assert (INR k - INR j <> 0) by (intros Z; apply N, INR_eq; lra). field. assumption.
  - induction js as [|j js IH]; [destruct Hin|]. cbn [map fold_right]. destruct Hin as [->|Hin].
    + destruct (Nat.eqb_spec i k); [congruence|]. unfold Rdiv. ring.
    + rewrite (IH Hin). ring.
Qed.

Lemma spread_node (ys : list R) k : (k < length ys)%nat -> spread ys (INR k) = Rabs (nth k ys 0).
Proof.
  intros Hk. unfold spread. assert (G : forall m a, (a + m <= length ys)%nat -> fold_right Rplus 0 (map (fun i => Rabs (nth i ys 0 * basis (length ys) i (INR k))) (seq a m)) =
    if (Nat.leb a k && Nat.ltb k (a + m))%bool then Rabs (nth k ys 0) else 0).
  { induction m as [|m IH]; intros a Ha; cbn [seq map fold_right].
    - destruct (Nat.leb_spec a k); cbn [andb]; [|reflexivity]. destruct (Nat.ltb_spec k (a + 0)); [lia|reflexivity].
    - rewrite IH by lia. rewrite basis_node by exact Hk. destruct (Nat.eqb_spec a k) as [->|E].
      + destruct (Nat.leb_spec (S k) k); [lia|]. destruct (Nat.leb_spec k k); [|lia]. destruct (Nat.ltb_spec k (k + S m)); [|lia]. cbn [andb]. rewrite Rmult_1_r. ring.
      + rewrite Rmult_0_r, Rabs_R0, Rplus_0_l. replace (S a + m)%nat with (a + S m)%nat by lia.
        destruct (Nat.leb_spec (S a) k); destruct (Nat.leb_spec a k); try lia; reflexivity. }
  rewrite G by lia. destruct (Nat.leb_spec 0 k); [|lia]. destruct (Nat.ltb_spec k (0 + length ys)); [reflexivity|lia].
Qed.

(** At a node: the sample there, to within n 2^-22 of itself. *)
Theorem C99_lagrange_at_nodes : forall (NP : NanPolicy) (B : Build) (ys : list f32) (x : f32) k,
  (1 <= length ys <= 16)%nat -> Forall (bounded (pow2 30)) ys -> (k < length ys)%nat -> fin x = true -> val x = INR k ->
  exists v, lagrange ys x = Ret v /\ fin v = true /\
    Rabs (val v - val (nth k ys f_zero)) <= INR (length ys) * pow2 (-22) * Rabs (val (nth k ys f_zero)) + pow2 (-80).
Proof.
  intros NP B ys x k Hn Hy Hk Fx Vx. destruct (lagrange_sum_poly (map val ys)) as (c & Lc & Pc). rewrite map_length in Lc.
  assert (Hc : forall j, (j < length ys)%nat -> peval c (INR j) = val (nth j ys f_zero)).
  { intros j Hj. rewrite <- Pc, INR_IZR_INZ. change (IZR (Z.of_nat j)) with (node j). rewrite lagrange_sum_node by now rewrite map_length.
    rewrite <- (map_nth val). apply nth_indep. now rewrite map_length. }
  destruct (C99_lagrange_accuracy NP B ys x c Hn Hy Fx) as (v & E & Fv & A); [rewrite Vx; split; [apply pos_INR|apply le_INR; lia]|exact Lc|exact Hc|].
  exists v. split; [exact E|]. split; [exact Fv|]. rewrite Vx, Hc, spread_node in A by (rewrite ?map_length; exact Hk).
  replace (nth k (map val ys) 0) with (val (nth k ys f_zero)) in A; [exact A|]. rewrite <- (map_nth val). apply nth_indep. now rewrite map_length.
Qed.
Print Assumptions C99_lagrange_at_nodes.

(** ** Four points *)

(** The four-point version computes bit for bit what the general version computes. *)
Theorem C99_four_points_same : forall (NP : NanPolicy) (B : Build) (a b c d x : f32), fin x = true -> val x <= 3 ->
  lagrange [a; b; c; d] x = Ret (lagrange_only_4_elements a b c d x).
Proof.
  intros NP B a b c d x Fx Hx. rewrite (lagrange_precondition_fin [a; b; c; d] x) by (try exact Fx; try discriminate; cbn; lia).
  rewrite Rle_bool_true by (cbn; lra). f_equal.
  assert (S : forall i j : Z, (0 <= i <= 3)%Z -> (0 <= j <= 3)%Z -> i <> j -> nsub (nint i) (nint j) = (nint (i - j) : f32)).
  { intros i j Hi Hj Hij. assert (Ci : (i = 0 \/ i = 1 \/ i = 2 \/ i = 3)%Z) by lia. assert (Cj : (j = 0 \/ j = 1 \/ j = 2 \/ j = 3)%Z) by lia.
    destruct Ci as [->|[->|[->| ->]]]; destruct Cj as [->|[->|[->| ->]]]; try congruence; apply bits_inj; reflexivity. }
  unfold lagrange_sum, lagrange_term, lagrange_only_4_elements. cbn [length seq fold_left Nat.eqb nth Z.of_nat Pos.of_succ_nat Pos.succ].
  rewrite !S by lia. reflexivity.
Qed.
Print Assumptions C99_four_points_same.

Lemma lebesgue4 x : 0 <= x <= 3 ->
  Rabs ((x - 1) * (x - 2) * (x - 3) / 6) + Rabs (x * (x - 2) * (x - 3) / 2) + Rabs (x * (x - 1) * (x - 3) / 2) + Rabs (x * (x - 1) * (x - 2) / 6) <= 2.
Proof.
  intros H. assert (P3 : forall a b c, 0 <= a -> 0 <= b -> 0 <= c -> 0 <= a * b * c) by (intros; repeat apply Rmult_le_pos; assumption).
  assert (Sq : forall a b, 0 <= b -> 0 <= (x - a) * (x - a) * b) by (intros; apply Rmult_le_pos; [apply (Rle_0_sqr (x - a))|assumption]).
  destruct (Rle_dec x 1) as [A|A]; [|destruct (Rle_dec x 2) as [C|C]].
  - pose proof (P3 (1 - x) (2 - x) (3 - x) ltac:(lra) ltac:(lra) ltac:(lra)). pose proof (P3 x (2 - x) (3 - x) ltac:(lra) ltac:(lra) ltac:(lra)).
    pose proof (P3 x (1 - x) (3 - x) ltac:(lra) ltac:(lra) ltac:(lra)). pose proof (P3 x (1 - x) (2 - x) ltac:(lra) ltac:(lra) ltac:(lra)).
    pose proof (Sq (1 / 2) (3 - x) ltac:(lra)).
    rewrite (Rabs_left1 ((x - 1) * (x - 2) * (x - 3) / 6)), (Rabs_pos_eq (x * (x - 2) * (x - 3) / 2)), (Rabs_pos_eq (x * (x - 1) * (x - 3) / 2)), (Rabs_pos_eq (x * (x - 1) * (x - 2) / 6)) by lra. lra.
  - pose proof (P3 (x - 1) (2 - x) (3 - x) ltac:(lra) ltac:(lra) ltac:(lra)). pose proof (P3 x (2 - x) (3 - x) ltac:(lra) ltac:(lra) ltac:(lra)).
    pose proof (P3 x (x - 1) (3 - x) ltac:(lra) ltac:(lra) ltac:(lra)). pose proof (P3 x (x - 1) (2 - x) ltac:(lra) ltac:(lra) ltac:(lra)).
    pose proof (Sq (3 / 2) (3 - x) ltac:(lra)). pose proof (Sq (3 / 2) x ltac:(lra)).
    rewrite (Rabs_pos_eq ((x - 1) * (x - 2) * (x - 3) / 6)), (Rabs_pos_eq (x * (x - 2) * (x - 3) / 2)), (Rabs_left1 (x * (x - 1) * (x - 3) / 2)), (Rabs_left1 (x * (x - 1) * (x - 2) / 6)) by lra. lra.
  - pose proof (P3 (x - 1) (x - 2) (3 - x) ltac:(lra) ltac:(lra) ltac:(lra)). pose proof (P3 x (x - 2) (3 - x) ltac:(lra) ltac:(lra) ltac:(lra)).
    pose proof (P3 x (x - 1) (3 - x) ltac:(lra) ltac:(lra) ltac:(lra)). pose proof (P3 x (x - 1) (x - 2) ltac:(lra) ltac:(lra) ltac:(lra)).
    pose proof (Sq (5 / 2) x ltac:(lra)).
    rewrite (Rabs_left1 ((x - 1) * (x - 2) * (x - 3) / 6)), (Rabs_left1 (x * (x - 2) * (x - 3) / 2)), (Rabs_left1 (x * (x - 1) * (x - 3) / 2)), (Rabs_pos_eq (x * (x - 1) * (x - 2) / 6)) by lra. lra.
Qed.

Lemma spread4 a b c d x M : 0 <= x <= 3 -> Rabs a <= M -> Rabs b <= M -> Rabs c <= M -> Rabs d <= M -> spread [a; b; c; d] x <= 2 * M.
Proof.
  intros Hx Ha Hb Hc Hd. unfold spread, basis. cbn [length seq map fold_right nth Nat.eqb INR].
  match goal with |- ?L <= _ => replace L with (Rabs a * Rabs ((x - 1) * (x - 2) * (x - 3) / 6) + Rabs b * Rabs (x * (x - 2) * (x - 3) / 2) + Rabs c * Rabs (x * (x - 1) * (x - 3) / 2) + Rabs d * Rabs (x * (x - 1) * (x - 2) / 6)) end.
  - pose proof (lebesgue4 x Hx) as L. set (p := Rabs ((x - 1) * (x - 2) * (x - 3) / 6)) in *. set (q := Rabs (x * (x - 2) * (x - 3) / 2)) in *. set (r := Rabs (x * (x - 1) * (x - 3) / 2)) in *. set (s := Rabs (x * (x - 1) * (x - 2) / 6)) in *.
    assert (0 <= p /\ 0 <= q /\ 0 <= r /\ 0 <= s) as (P1 & P2 & P3 & P4) by (unfold p, q, r, s; repeat split; apply Rabs_pos).
    assert (PM : 0 <= M) by (pose proof (Rabs_pos a); lra). clearbody p q r s.
    apply Rle_trans with (M * p + M * q + M * r + M * s); [|nra]. repeat apply Rplus_le_compat; apply Rmult_le_compat_r; assumption.
  - rewrite <- !Rabs_mult.
    rewrite <- (Rabs_Ropp (a * ((x - 1) * (x - 2) * (x - 3) / 6))), <- (Rabs_Ropp (c * (x * (x - 1) * (x - 3) / 2))).
    rewrite Rplus_0_r, !Rplus_assoc. repeat (f_equal; [f_equal; field|]). f_equal. field.
Qed.

Lemma ret_inj {A} (a b : A) : Ret a = Ret b -> a = b.
Proof. now injection 1. Qed.

(** Between four samples within M the result is within 2^-19 M of the cubic through them. *)
Theorem C99_four_points_accuracy : forall (NP : NanPolicy) (a b c d x : f32) (p : list R) (M : R),
  bounded M a -> bounded M b -> bounded M c -> bounded M d -> M <= pow2 30 -> fin x = true -> 0 <= val x <= 3 -> (length p <= 4)%nat ->
  peval p 0 = val a -> peval p 1 = val b -> peval p 2 = val c -> peval p 3 = val d ->
  let v := lagrange_only_4_elements a b c d x in fin v = true /\ Rabs (val v - peval p (val x)) <= pow2 (-19) * M + pow2 (-80).
Proof.
  intros NP a b c d x p M Ba Bb Bc Bd HM Fx Hx Lp Pa Pb Pc Pd v.
  assert (W : forall y, bounded M y -> bounded (pow2 30) y) by (intros y [F H]; split; [exact F|lra]).
  destruct (C99_lagrange_accuracy NP dbg32 [a; b; c; d] x p) as (v' & E & Fv & A); [cbn; lia|repeat (constructor; auto)|exact Fx|cbn; lra|exact Lp| |].
  { intros k Hk. cbn [length] in Hk. destruct k as [|[|[|[|k]]]]; [| | | |lia]; cbn [nth INR]; [exact Pa|exact Pb| |].
    - replace (1 + 1) with 2 by ring. exact Pc.
    - replace (1 + 1 + 1) with 3 by ring. exact Pd. }
  pose proof (C99_four_points_same NP dbg32 a b c d x Fx (proj2 Hx)) as E4. fold v in E4. clearbody v. rewrite E in E4. apply ret_inj in E4. subst v'. split; [exact Fv|]. eapply Rle_trans; [exact A|]. apply Rplus_le_compat_r.
  cbn [map]. destruct Ba as [_ Ba], Bb as [_ Bb], Bc as [_ Bc], Bd as [_ Bd]. pose proof (spread4 _ _ _ _ (val x) M Hx Ba Bb Bc Bd) as Sp.
  replace (pow2 (-19)) with (4 * pow2 (-22) * 2) by (cbn; lra). cbn [length]. replace (INR 4) with 4 by (cbn; lra).
  pose proof (bpow_gt_0 radix2 (-22)) as P. nra.
Qed.
Print Assumptions C99_four_points_accuracy.

(** ** Reading a buffer *)
Local Open Scope Z_scope.
(** The window read at x: w samples from w/2 - 1 before floor x, the last replaced by 0 for an odd
    window. The result follows the polynomial through it at the fraction of x. *)
Theorem C99_lagrange_wrapped_accuracy : forall (NP : NanPolicy) (MO : MathOps f32) (B : Build) (h : heap f32) s l (x : f32) (w : Z) (ys c : list R),
  floor_ok MO -> covers h s l -> 0 < ms_len s -> Forall (bounded (pow2 30)) l -> 2 <= w <= 16 ->
  fin x = true -> (Rabs (val x) < pow2 23)%R -> isize_min + 50 <= Zfloor (val x) <= isize_max - 50 ->
  length ys = Z.to_nat w ->
  (forall k, (Z.of_nat k < 2 * (w / 2)) -> exists v, nthz l ((Zfloor (val x) - (w / 2 - 1) + Z.of_nat k) mod ms_len s) = Some v /\ nth k ys 0%R = val v) ->
  (w mod 2 = 1 -> nth (Z.to_nat (w - 1)) ys 0%R = 0%R) ->
  (length c <= Z.to_nat w)%nat -> (forall k, (k < Z.to_nat w)%nat -> peval c (INR k) = nth k ys 0%R) ->
  let frac := rnd (val x - IZR (Zfloor (val x))) in
  exists v, lagrange_wrapped h s x w = Ret v /\ fin v = true /\
    (Rabs (val v - peval c frac) <= IZR w * pow2 (-22) * spread ys frac + pow2 (-80))%R.
Proof.
  intros NP MO B h s l x w ys c Hf C Hn Hl Hw Fx Hx Hi Ly Hy Ho Lc Hc frac.
  destruct (floor_index x Hf Fx Hx) as (Ui & Ft & Ht & _); [unfold is_isize; lia|]. cbv zeta in *. rewrite Ui in *.
  pose proof (lagrange_wrapped_form h s l x w f_zero C Hn ltac:(lia)) as G. cbv zeta in G. rewrite Ui in G. specialize (G ltac:(lia) ltac:(lia)).
  rewrite G. replace (Z.min w 100) with w by lia. clear G.
  set (t := nsub x (nint (Zfloor (val x)))) in *. set (zs := map _ (seq 0 (Z.to_nat w))).
  assert (Lz : length zs = Z.to_nat w) by (unfold zs; now rewrite map_length, seq_length).
  destruct (of_int_exact 0 ltac:(lia)) as [F0 V0].
  assert (Nz : forall k, (k < Z.to_nat w)%nat -> bounded (pow2 30) (nth k zs f_zero) /\ val (nth k zs f_zero) = nth k ys 0%R).
  { intros k Hk. unfold zs. rewrite nth_map_seq by exact Hk. destruct (Z.ltb_spec (Z.of_nat k) (2 * (w / 2))) as [L|L].
    - destruct (Hy k L) as (v & E1 & E2). unfold wrapped. rewrite E1. split; [|now rewrite E2].
      apply nthz_Some in E1. destruct E1 as [_ E1]. apply nth_error_In in E1. rewrite Forall_forall in Hl. now apply Hl.
    - pose proof (Z.div_mod w 2 ltac:(lia)) as Dm. pose proof (Z.mod_pos_bound w 2 ltac:(lia)) as Mb.
      change (nint 0 : f32) with (of_int 0). split; [split; [exact F0|rewrite V0, Rabs_R0; apply bpow_ge_0]|].
      rewrite V0. replace k with (Z.to_nat (w - 1)) by lia. symmetry. apply Ho. lia. }
  assert (Mz : map val zs = ys).
  { apply nth_ext with (d := 0%R) (d' := 0%R); [rewrite map_length; lia|]. intros k Hk. rewrite map_length, Lz in Hk.
    destruct (Nz k Hk) as [_ <-]. rewrite (nth_indep _ 0%R (val f_zero)) by (rewrite map_length; lia). apply map_nth. }
  assert (Vt : val t = frac).
  { unfold t, frac. change (nint (Zfloor (val x)) : f32) with (of_int (Zfloor (val x))). cbn [nsub num_f32].
    assert (Bi : (Z.abs (Zfloor (val x)) <= 2 ^ 24)).
    { apply Rabs_lt_inv in Hx. change (pow2 23) with (IZR (2 ^ 23)) in Hx. pose proof (Zfloor_lb (val x)). pose proof (Zfloor_ub (val x)).
      assert (Zfloor (val x) < 2 ^ 23) by (apply lt_IZR; lra). assert (- 2 ^ 23 - 1 < Zfloor (val x)) by (apply lt_IZR; rewrite minus_IZR, opp_IZR; lra). lia. }
    destruct (of_int_exact _ Bi) as [Fo Vo]. pose proof (Zfloor_lb (val x)) as Lb. pose proof (Zfloor_ub (val x)) as Ub.
    destruct (fsub_bnd x (of_int (Zfloor (val x))) 1 Fx Fo) as (F & V & _); [apply (repr_int 1); lia|apply (pow2_lt_big 0); lia|rewrite Vo; apply Rabs_le; lra|]. now rewrite V, Vo. }
  destruct (C99_lagrange_accuracy NP B zs t c) as (v & E & Fv & A).
  - lia.
  - apply Forall_nth. intros k d Hk. rewrite (nth_indep _ d f_zero Hk). apply Nz. lia.
  - exact Ft.
  - split; [lra|]. apply Rle_trans with 1%R; [lra|]. change 1%R with (INR 1). apply le_INR. lia.
  - lia.
  - intros k Hk. rewrite Hc by lia. symmetry. apply Nz. lia.
  - exists v. split; [exact E|]. split; [exact Fv|]. rewrite Mz, Vt, Lz, INR_IZR_INZ in A. replace (Z.of_nat (Z.to_nat w)) with w in A by lia. exact A.
Qed.
Print Assumptions C99_lagrange_wrapped_accuracy.

(** At a whole position i that is, to within w 2^-22 of its value, the sample w/2 - 1 places before
    i: the expected sample i only for windows of 2 and 3. *)
Theorem C99_whole_position_refuted : forall (NP : NanPolicy) (MO : MathOps f32) (B : Build) (h : heap f32) s l (x : f32) (w i : Z),
  floor_ok MO -> covers h s l -> 0 < ms_len s -> Forall (bounded (pow2 30)) l -> 2 <= w <= 16 ->
  fin x = true -> val x = IZR i -> Z.abs i < 2 ^ 23 -> isize_min + 50 <= i <= isize_max - 50 ->
  exists y v, nthz l ((i - (w / 2 - 1)) mod ms_len s) = Some y /\ lagrange_wrapped h s x w = Ret v /\ fin v = true /\
    (Rabs (val v - val y) <= IZR w * pow2 (-22) * Rabs (val y) + pow2 (-80))%R.
Proof.
  intros NP MO B h s l x w i Hf C Hn Hl Hw Fx Vx Bi Hi.
  assert (Hm : forall j, exists v, nthz l (j mod ms_len s) = Some v).
  { intros j. apply nthz_ex. destruct C as (E1 & _). rewrite <- E1. apply Z.mod_pos_bound. exact Hn. }
  pose proof (Z.div_mod w 2 ltac:(lia)) as Dm. pose proof (Z.mod_pos_bound w 2 ltac:(lia)) as Mb.
  set (ys := map (fun k => if Z.of_nat k <? 2 * (w / 2) then match nthz l ((i - (w / 2 - 1) + Z.of_nat k) mod ms_len s) with Some v => val v | None => 0%R end else 0%R) (seq 0 (Z.to_nat w))).
  assert (Ly : length ys = Z.to_nat w) by (unfold ys; now rewrite map_length, seq_length).
  destruct (lagrange_sum_poly ys) as (c & Lc & Pc).
  assert (Zf : Zfloor (val x) = i) by (rewrite Vx; apply Zfloor_IZR).
  destruct (C99_lagrange_wrapped_accuracy NP MO B h s l x w ys c Hf C Hn Hl Hw Fx) as (v & E & Fv & A).
  - rewrite Vx, <- abs_IZR. change (pow2 23) with (IZR (2 ^ 23)). now apply IZR_lt.
  - now rewrite Zf.
  - exact Ly.
  - intros k Hk. rewrite Zf. destruct (Hm (i - (w / 2 - 1) + Z.of_nat k)) as [y Ey]. exists y. split; [exact Ey|].
    unfold ys. rewrite nth_map_seq by lia. destruct (Z.ltb_spec (Z.of_nat k) (2 * (w / 2))); [|lia]. now rewrite Ey.
  - intros Ho. unfold ys. rewrite nth_map_seq by lia. destruct (Z.ltb_spec (Z.of_nat (Z.to_nat (w - 1))) (2 * (w / 2))); [lia|reflexivity].
  - lia.
  - intros k Hk. rewrite <- Pc, INR_IZR_INZ. change (IZR (Z.of_nat k)) with (node k). apply lagrange_sum_node. lia.
  - destruct (Hm (i - (w / 2 - 1))) as [y Ey]. exists y, v. split; [exact Ey|]. split; [exact E|]. split; [exact Fv|].
    cbv zeta in A. rewrite Zf, Vx, Rminus_eq_0, rnd_0 in A. change 0%R with (INR 0) in A. rewrite spread_node in A by lia.
    replace (peval c (INR 0)) with (nth 0 ys 0%R) in A.
    2:{ rewrite <- Pc. change (INR 0) with (node 0). symmetry. apply lagrange_sum_node. lia. }
    replace (nth 0 ys 0%R) with (val y) in A; [exact A|].
    unfold ys. rewrite nth_map_seq by lia. destruct (Z.ltb_spec (Z.of_nat 0) (2 * (w / 2))); [|lia].
    cbn [Z.of_nat]. now rewrite Z.add_0_r, Ey.
Qed.
Print Assumptions C99_whole_position_refuted.

(** The hypotheses are met: the cubic x^3 - 1 at 3/2, and a window of 5 in a buffer of 7. *)
Lemma bounded_int M z : Z.abs z <= 2 ^ 24 -> (Rabs (IZR z) <= M)%R -> bounded M (of_int z).
Proof. intros Hz H. destruct (of_int_exact z Hz) as [F V]. split; [exact F|]. now rewrite V. Qed.

Example C99_met : let ys := [of_int (-1); of_int 0; of_int 7; of_int 26] in let p := [-1; 0; 0; 1]%R in
  (1 <= length ys <= 16)%nat /\ Forall (bounded 26) ys /\ (26 <= pow2 30)%R /\ fin (lit 3 (-1)) = true /\ (0 <= val (lit 3 (-1)) <= 3)%R /\
  (forall k, (k < 4)%nat -> peval p (INR k) = val (nth k ys f_zero)).
Proof.
  intros ys p. split; [cbn; lia|]. split.
  { repeat (constructor; [apply bounded_int; [lia|rewrite <- abs_IZR; apply IZR_le; lia]|]). constructor. }
  split; [change 26%R with (IZR 26); change (pow2 30) with (IZR (2 ^ 30)); apply IZR_le; lia|].
  destruct (lit_exact 3 (-1) ltac:(lia) ltac:(lia)) as [F V]. split; [exact F|]. split; [rewrite V; cbn; lra|].
  intros k Hk. destruct k as [|[|[|[|k]]]]; [| | | |lia]; unfold ys; cbn [nth];
    match goal with |- _ = val (of_int ?z) => rewrite (proj2 (of_int_exact z ltac:(lia))) end; cbn; lra.
Qed.

Example C99_wrapped_met : covers (B := dbg32) [repeat (of_int 1) 7] (MS (PAt 0 0) 7) (repeat (of_int 1) 7) /\ 0 < 7 /\
  Forall (bounded (pow2 30)) (repeat (of_int 1) 7) /\ val (of_int 12) = IZR 12.
Proof.
  split; [split; [reflexivity|]; split; [vm_compute; discriminate|]; exists [], []; split; reflexivity|].
  split; [lia|]. split; [|apply of_int_exact; lia].
  cbn [repeat]. repeat (constructor; [apply bounded_int; [lia|rewrite Rabs_R1; change 1%R with (pow2 0); apply bpow_le; lia]|]). constructor.
Qed.
