(** * Lemmas: the entries of the band-limited rectangle table against the sine integral. *)

From Coq Require Import ZArith List Bool Reals Lia Lra.
From Flocq Require Import Core.
From Verif Require Import Base F32 F32Lemmas M_Sine S_Sine S_Integral S_SineIntegral P_Sine P_SineAcc P_SincReal P_SiQuad M_BlRectTable.
Import ListNotations.
Local Open Scope R_scope.

(** Twelve-digit sines of the multiples of pi / 200. *)
Definition unit12 : Z := 1000000000000.
Definition angle200 (r : Z) : Z := (3141592653 * 2 ^ 24 * r / (200 * 1000000000))%Z.
Definition sn (r : Z) : Z := (taylor11 (angle200 r) * unit12 / unit11)%Z.
Definition sines : list Z := Eval vm_compute in map (fun r => sn (Z.of_nat r)) (seq 0 101).
Lemma sines_eq : sines = map (fun r => sn (Z.of_nat r)) (seq 0 101).
Proof. vm_compute. reflexivity. Qed.

Lemma angle200_close r : (0 <= r <= 100)%Z -> Rabs (PI / 200 * IZR r - IZR (angle200 r) / 2 ^ 24) <= 61 / 1000000000 /\ 0 <= IZR (angle200 r) / 2 ^ 24 <= 8 / 5.
Proof.
  intros Hn. unfold angle200.
  set (A := (3141592653 * 2 ^ 24 * r)%Z). set (D := (200 * 1000000000)%Z).
  assert (HD : (0 < D)%Z) by reflexivity.
  pose proof (Z.mul_div_le A D HD) as H1. pose proof (Z.mul_succ_div_gt A D HD) as H2.
  apply IZR_le in H1. apply IZR_lt in H2. rewrite mult_IZR in H1, H2. rewrite succ_IZR in H2.
  assert (Q : (0 <= A / D)%Z) by (apply Z.div_pos; unfold A; lia). apply IZR_le in Q.
  set (q := IZR (A / D)) in *.
  assert (EA : IZR A = 3141592653 * 16777216 * IZR r) by (unfold A; rewrite !mult_IZR; reflexivity).
  assert (ED : IZR D = 200000000000) by reflexivity. rewrite EA, ED in H1, H2.
  assert (P : (2 ^ 24 : R) = 16777216) by (cbn [pow]; lra). rewrite P.
  assert (Hn1 : 0 <= IZR r) by (apply (IZR_le 0); lia). assert (Hn2 : IZR r <= 100) by (apply IZR_le; lia).
  pose proof PI_tight as HP.
  assert (HB1 : 3141592653 / 1000000000 * IZR r <= PI * IZR r) by (apply Rmult_le_compat_r; lra).
  assert (HB2 : PI * IZR r <= 3141592654 / 1000000000 * IZR r) by (apply Rmult_le_compat_r; lra).
  clearbody q. clear A EA. split; [apply Rabs_le; split; lra|split; lra].
Qed.

Lemma sn_ok r : (0 <= r <= 100)%Z -> Rabs (IZR unit12 * sin (PI / 200 * IZR r) - IZR (sn r)) <= 150000.
Proof.
  intros Hr. destruct (angle200_close r Hr) as [H1 H2]. pose proof (taylor11_val (angle200 r)) as T.
  pose proof (sin_taylor _ H2) as H3. pose proof (sin_lip (PI / 200 * IZR r) (IZR (angle200 r) / 2 ^ 24)) as H4. assert (H5 := Rle_trans _ _ _ H4 H1).
  rewrite <- T in H3. assert (HU : (0 < unit11)%Z) by reflexivity. unfold sn.
  pose proof (Z.mul_div_le (taylor11 (angle200 r) * unit12) unit11 HU) as L. pose proof (Z.mul_succ_div_gt (taylor11 (angle200 r) * unit12) unit11 HU) as U.
  apply IZR_le in L. apply IZR_lt in U. rewrite !mult_IZR in L, U. rewrite succ_IZR in U.
  set (t := IZR (taylor11 (angle200 r))) in *. set (q := IZR (taylor11 (angle200 r) * unit12 / unit11)) in *. apply IZR_lt in HU. set (u := IZR unit11) in *.
  set (y := sin (IZR (angle200 r) / 2 ^ 24)) in *. set (z := sin (PI / 200 * IZR r)) in *. assert (EK : IZR unit12 = 1000000000000) by reflexivity. rewrite EK in *.
  clearbody t q u y z. set (w := t / u) in *. assert (Et : t = w * u) by (unfold w; field; lra). clearbody w. subst t.
  assert (q <= w * 1000000000000) by (apply Rmult_le_reg_l with u; lra). assert (w * 1000000000000 < q + 1) by (apply Rmult_lt_reg_l with u; [lra|]; lra). apply Rabs_le_inv in H5. apply Rabs_le. lra.
Qed.

Definition sin_at (j : Z) : Z :=
  let r := (j mod 400)%Z in
  if (r <=? 100)%Z then nth (Z.to_nat r) sines 0%Z
  else if (r <=? 200)%Z then nth (Z.to_nat (200 - r)) sines 0%Z
  else if (r <=? 300)%Z then (- nth (Z.to_nat (r - 200)) sines 0)%Z
  else (- nth (Z.to_nat (400 - r)) sines 0)%Z.

Lemma sines_nth r : (0 <= r <= 100)%Z -> nth (Z.to_nat r) sines 0%Z = sn r.
Proof.
  intros H. rewrite sines_eq. rewrite (nth_indep _ 0%Z (sn (Z.of_nat 0))) by (rewrite map_length, seq_length; lia).
  rewrite (map_nth (fun r => sn (Z.of_nat r)) (seq 0 101) 0%nat). rewrite seq_nth by lia. f_equal. lia.
Qed.

Lemma sin_at_ok j : (0 <= j)%Z -> Rabs (IZR unit12 * sin (PI / 200 * IZR j) - IZR (sin_at j)) <= 150000.
Proof.
  intros Hj. pose proof (Z.mod_pos_bound j 400 ltac:(lia)) as Hr. pose proof (Z.div_mod j 400 ltac:(lia)) as E.
  assert (Hq : (0 <= j / 400)%Z) by (apply Z.div_pos; lia). unfold sin_at. set (r := (j mod 400)%Z) in *. cbv zeta.
  assert (S : sin (PI / 200 * IZR j) = sin (PI / 200 * IZR r)).
  { rewrite E, plus_IZR, mult_IZR. rewrite <- (Z2Nat.id (j / 400)) by exact Hq. rewrite <- INR_IZR_INZ.
    replace (PI / 200 * (400 * INR (Z.to_nat (j / 400)) + IZR r)) with (PI / 200 * IZR r + 2 * INR (Z.to_nat (j / 400)) * PI) by field. apply sin_period. }
  rewrite S. clear S E Hq. clearbody r. destruct (Z.leb_spec r 100).
  { rewrite sines_nth by lia. apply sn_ok. lia. }
  destruct (Z.leb_spec r 200).
  { rewrite sines_nth by lia. pose proof (sn_ok (200 - r) ltac:(lia)) as O. rewrite minus_IZR in O.
    replace (PI / 200 * (200 - IZR r)) with (PI - PI / 200 * IZR r) in O by field. rewrite sin_PI_x in O. exact O. }
  destruct (Z.leb_spec r 300).
  { rewrite sines_nth by lia. pose proof (sn_ok (r - 200) ltac:(lia)) as O. rewrite minus_IZR in O.
    replace (PI / 200 * IZR r) with (PI / 200 * (IZR r - 200) + PI) by field. rewrite neg_sin, opp_IZR.
    replace (IZR unit12 * - sin (PI / 200 * (IZR r - 200)) - - IZR (sn (r - 200))) with (- (IZR unit12 * sin (PI / 200 * (IZR r - 200)) - IZR (sn (r - 200)))) by ring.
    rewrite Rabs_Ropp. exact O. }
  rewrite sines_nth by lia. pose proof (sn_ok (400 - r) ltac:(lia)) as O. rewrite minus_IZR in O.
  replace (PI / 200 * IZR r) with (- (PI / 200 * (400 - IZR r)) + 2 * INR 1 * PI) by (cbn [INR]; field). rewrite sin_period, sin_neg, opp_IZR.
  replace (IZR unit12 * - sin (PI / 200 * (400 - IZR r)) - - IZR (sn (400 - r))) with (- (IZR unit12 * sin (PI / 200 * (400 - IZR r)) - IZR (sn (400 - r)))) by ring.
  rewrite Rabs_Ropp. exact O.
Qed.

(** s * sinc(j s) for s = pi / 200, scaled by 10^12: a value and an error bound. *)
Definition node (j : Z) : Z := if (j =? 0)%Z then 15707963267%Z else (sin_at j / j)%Z.
Definition node_err (j : Z) : Z := if (j =? 0)%Z then 3%Z else (150000 / j + 2)%Z.
Lemma node_ok j : (0 <= j)%Z -> Rabs (IZR unit12 * (PI / 200 * sincr (IZR j * (PI / 200))) - IZR (node j)) <= IZR (node_err j).
Proof.
  intros Hj. unfold node, node_err. pose proof PI_tight. assert (EK : IZR unit12 = 1000000000000) by reflexivity. destruct (Z.eqb_spec j 0) as [->|N].
  { rewrite Rmult_0_l, sincr_0, EK. apply Rabs_le. lra. }
  assert (J : 0 < IZR j) by (apply (IZR_lt 0); lia). pose proof (sin_at_ok j Hj) as S. apply Rabs_le_inv in S.
  rewrite sincr_n0 by (apply Rgt_not_eq, Rmult_lt_0_compat; lra).
  replace (IZR j * (PI / 200)) with (PI / 200 * IZR j) by ring.
  replace (IZR unit12 * (PI / 200 * (sin (PI / 200 * IZR j) / (PI / 200 * IZR j)))) with (IZR unit12 * sin (PI / 200 * IZR j) * / IZR j) by (field; lra).
  set (x := IZR unit12 * sin (PI / 200 * IZR j)) in *.
  pose proof (Z.mul_div_le (sin_at j) j ltac:(lia)) as L. pose proof (Z.mul_succ_div_gt (sin_at j) j ltac:(lia)) as U.
  pose proof (Z.mul_succ_div_gt 150000 j ltac:(lia)) as W.
  apply IZR_le in L. apply IZR_lt in U, W. rewrite mult_IZR in L. rewrite mult_IZR, succ_IZR in U, W. rewrite plus_IZR.
  set (a := IZR (sin_at j / j)) in *. set (b := IZR (150000 / j)) in *. set (k := IZR (sin_at j)) in *. set (n := IZR j) in *.
  clearbody x a b k n. set (y := x * / n). assert (E : x = n * y) by (unfold y; field; lra). clearbody y. subst x.
  apply Rabs_le. split; apply Rmult_le_reg_l with n; lra.
Qed.

(** The running check: sums of the node values and of the error bounds. *)
Definition close_enough (m e q w : Z) : bool :=
  (w <=? q)%Z && (-29 <=? e)%Z && (e <=? 0)%Z && (Z.abs m <? 16777216)%Z &&
  (m * 2 ^ (e + 29) * 10000000000000000000000 - 1768388256 * (q - w) * 536870912 <=? 22387517030400000000000000)%Z &&
  (1768388257 * (q + w) * 536870912 - m * 2 ^ (e + 29) * 10000000000000000000000 <=? 22387517030400000000000000)%Z.
Fixpoint scan (l : list (Z * Z * Z)) (i q w q0 w0 : Z) : bool :=
  match l with
  | [] => true
  | (d, m, e) :: l' =>
      close_enough m e q w &&
      (let q2 := node (2 * i + 2) in let w2 := node_err (2 * i + 2) in
       scan l' (i + 1) (q + (q0 + 4 * node (2 * i + 1) + q2)) (w + (w0 + 4 * node_err (2 * i + 1) + w2)) q2 w2)
  end%Z.

Lemma scan_ok : scan bl_rect_literals 0 0 0 (node 0) (node_err 0) = true.
Proof. vm_compute. reflexivity. Qed.

Definition step200 : R := PI / 200.
Definition panel200 (i : nat) : R :=
  step200 / 3 * (sincr (2 * INR i * step200) + 4 * sincr ((2 * INR i + 1) * step200) + sincr ((2 * INR i + 2) * step200)).

Lemma panel_ok (i : nat) : let j := (2 * Z.of_nat i)%Z in
  Rabs (3 * IZR unit12 * panel200 i - IZR (node j + 4 * node (j + 1) + node (j + 2))) <= IZR (node_err j + 4 * node_err (j + 1) + node_err (j + 2)).
Proof.
  cbv zeta. set (j := (2 * Z.of_nat i)%Z). pose proof (node_ok j ltac:(lia)) as N0. pose proof (node_ok (j + 1) ltac:(lia)) as N1. pose proof (node_ok (j + 2) ltac:(lia)) as N2.
  rewrite plus_IZR in N1, N2. assert (J : IZR j = 2 * INR i) by (unfold j; rewrite mult_IZR, <- INR_IZR_INZ; reflexivity). rewrite J in N0, N1, N2.
  fold step200 in N0, N1, N2. unfold panel200. rewrite !plus_IZR, !mult_IZR.
  apply Rabs_le_inv in N0, N1, N2. apply Rabs_le. clearbody j. lra.
Qed.

Lemma close_enough_ok m e q w (x : R) : close_enough m e q w = true -> Rabs (3 * IZR unit12 * x - IZR q) <= IZR w ->
  (Z.abs m < 2 ^ 24)%Z /\ (-29 <= e <= 0)%Z /\ Rabs (IZR m * pow2 e - 5 / (3 * PI) * x) <= 417 / 100000000.
Proof.
  unfold close_enough. rewrite !andb_true_iff, !Z.leb_le, Z.ltb_lt. intros [[[[[Q E1] E2] M] A] B] X. split; [exact M|]. split; [lia|].
  apply IZR_le in A, B, Q. rewrite ?minus_IZR, ?mult_IZR, ?plus_IZR, ?minus_IZR in A, B.
  assert (P : IZR (2 ^ (e + 29)) = pow2 e * 536870912).
  { change 536870912 with (pow2 29). rewrite <- bpow_plus. rewrite <- (IZR_Zpower radix2) by lia. reflexivity. }
  rewrite ?mult_IZR, P in A, B. rewrite minus_IZR in A. rewrite plus_IZR in B. set (v := IZR m * pow2 e). assert (Ev : IZR m * (pow2 e * 536870912) = v * 536870912) by (unfold v; ring). rewrite Ev in A, B.
  assert (EK : IZR unit12 = 1000000000000) by reflexivity. rewrite EK in X. apply Rabs_le_inv in X. pose proof PI_tight as HP.
  set (q' := IZR q) in *. set (w' := IZR w) in *. clearbody v q' w'.
  assert (I : 53 / 100 <= 5 / (3 * PI) /\ 1768388256 / 10000000000 <= 5 / (3 * PI) / 3 <= 1768388257 / 10000000000).
  { assert (K1 : 1768388256 / 10000000000 <= 5 / (3 * PI) / 3 <= 1768388257 / 10000000000).
    { replace (5 / (3 * PI) / 3) with (5 / 9 * / PI) by (field; lra).
      split; apply Rmult_le_reg_r with PI; try lra; rewrite Rmult_assoc, Rinv_l by lra; lra. }
    lra. }
  set (c := 5 / (3 * PI)) in *. clearbody c. destruct I as [_ I].
  assert (Y1 : 0 <= q' - w') by lra.
  assert (Z1 : 1768388256 / 10000000000 * (q' - w') <= c / 3 * (3 * 1000000000000 * x)) by (apply Rmult_le_compat; lra).
  assert (Z2 : c / 3 * (3 * 1000000000000 * x) <= 1768388257 / 10000000000 * (q' + w')) by (apply Rmult_le_compat; lra).
  apply Rabs_le. split; lra.
Qed.

Lemma scan_sound l : forall (i : nat) q w, Rabs (3 * IZR unit12 * rsum i panel200 - IZR q) <= IZR w ->
  scan l (Z.of_nat i) q w (node (2 * Z.of_nat i)) (node_err (2 * Z.of_nat i)) = true ->
  forall k d m e, nth_error l k = Some (d, m, e) ->
  (Z.abs m < 2 ^ 24)%Z /\ (-29 <= e <= 0)%Z /\ Rabs (IZR m * pow2 e - 5 / (3 * PI) * rsum (i + k) panel200) <= 417 / 100000000.
Proof.
  induction l as [|[[d0 m0] e0] l IH]; intros i q w Hq Hs k d m e Hk; [now destruct k|].
  cbn [scan] in Hs. rewrite andb_true_iff in Hs. destruct Hs as [C Hs]. destruct k as [|k]; cbn [nth_error] in Hk.
  - injection Hk as -> -> ->. rewrite Nat.add_0_r. exact (close_enough_ok m e q w _ C Hq).
  - replace (i + S k)%nat with (S i + k)%nat by lia. cbv zeta in Hs.
    eapply (IH (S i)); [|replace (2 * Z.of_nat (S i))%Z with (2 * Z.of_nat i + 2)%Z by lia; replace (Z.of_nat (S i)) with (Z.of_nat i + 1)%Z by lia; exact Hs|exact Hk].
    cbn [rsum]. pose proof (panel_ok i) as P. cbv zeta in P. rewrite !plus_IZR in *. apply Rabs_le_inv in P, Hq. apply Rabs_le. lra.
Qed.

Lemma table_literals : forallb literal_ok bl_rect_literals = true /\ Z.of_nat (length bl_rect_literals) = 5075%Z.
Proof. split; vm_compute; reflexivity. Qed.

(** Entry k is 5 / (3 pi) Si(k pi / 100). *)
Definition bl_curve (y : R) : R := 5 / (3 * PI) * sine_integral (PI / 100 * y).

Lemma table_entry k : (0 <= k < 5075)%Z -> let v := nth (Z.to_nat k) bl_rect_table (of_int 0) in
  fin v = true /\ Rabs (val v - bl_curve (IZR k)) <= 42 / 10000000.
Proof.
  intros Hk v. destruct table_literals as [_ Len].
  destruct (nth_error bl_rect_literals (Z.to_nat k)) as [[[d m] e]|] eqn:E; [|apply nth_error_None in E; lia].
  assert (Ev : v = lit m e).
  { unfold v, bl_rect_table. apply nth_error_nth. rewrite nth_error_map, E. reflexivity. }
  pose proof (scan_sound bl_rect_literals 0 0 0 ltac:(cbn [rsum]; rewrite Rmult_0_r, Rminus_0_r, Rabs_R0; lra) scan_ok _ _ _ _ E) as (M & Ee & A).
  destruct (lit_exact m e M ltac:(lia)) as [F V]. rewrite Ev. split; [exact F|]. rewrite V. cbn [Nat.add] in A.
  assert (S0 : 0 <= step200) by (unfold step200; pose proof PI_RGT_0; lra).
  pose proof (simpson_si step200 (Z.to_nat k) S0) as Q. fold panel200 in Q.
  assert (Hs : step200 * step200 * step200 * step200 * step200 <= 1 / 1000000000).
  { pose proof PI_tight. assert (H1 : 0 <= step200 <= 1571 / 100000) by (unfold step200; lra).
    set (s := step200) in *. clearbody s. clear - H1.
    assert (s * s <= 1571 / 100000 * (1571 / 100000)) by (apply Rmult_le_compat; lra).
    assert (0 <= s * s) by (apply Rmult_le_pos; lra).
    assert (s * s * s <= 1571 / 100000 * (1571 / 100000) * (1571 / 100000)) by (apply Rmult_le_compat; lra).
    assert (0 <= s * s * s) by (apply Rmult_le_pos; lra).
    assert (s * s * s * s <= 1571 / 100000 * (1571 / 100000) * (1571 / 100000) * (1571 / 100000)) by (apply Rmult_le_compat; lra).
    assert (0 <= s * s * s * s) by (apply Rmult_le_pos; lra).
    apply Rle_trans with (1571 / 100000 * (1571 / 100000) * (1571 / 100000) * (1571 / 100000) * (1571 / 100000)); [apply Rmult_le_compat; lra|lra]. }
  set (s5 := step200 * step200 * step200 * step200 * step200) in *.
  assert (N : INR (Z.to_nat k) = IZR k) by (rewrite INR_IZR_INZ, Z2Nat.id by lia; reflexivity).
  rewrite N in Q. assert (Bk : 0 <= IZR k <= 5074) by (split; apply IZR_le; lia).
  assert (Qb : IZR k * (2 / 225 * s5) <= 46 / 1000000000).
  { apply Rle_trans with (5074 * (2 / 225 * (1 / 1000000000))); [|lra]. apply Rmult_le_compat; try lra. assert (0 <= s5) by (unfold s5; do 4 (apply Rmult_le_pos; [|exact S0]); exact S0). lra. }
  replace (2 * IZR k * step200) with (PI / 100 * IZR k) in Q by (unfold step200; field).
  unfold bl_curve. set (Si := sine_integral (PI / 100 * IZR k)) in *.
  match type of Q with Rabs (_ - ?r) <= _ => set (R0 := r) in * end.
  change (rsum (Z.to_nat k) panel200) with R0 in A. pose proof PI_tight as HP.
  assert (C : 0 <= 5 / (3 * PI) <= 54 / 100).
  { split; [apply Rlt_le, Rdiv_lt_0_compat; lra|]. apply Rmult_le_reg_r with (3 * PI); [lra|]. unfold Rdiv at 1. rewrite Rmult_assoc, Rinv_l by lra. lra. }
  set (c := 5 / (3 * PI)) in *.
  assert (T : Rabs (c * R0 - c * Si) <= 3 / 100000000).
  { rewrite <- Rmult_minus_distr_l, Rabs_mult, (Rabs_pos_eq c) by lra. rewrite Rabs_minus_sym.
    apply Rle_trans with (54 / 100 * (46 / 1000000000)); [|lra]. apply Rmult_le_compat; [lra|apply Rabs_pos|lra|lra]. }
  apply Rabs_le_inv in A, T. apply Rabs_le. lra.
Qed.
