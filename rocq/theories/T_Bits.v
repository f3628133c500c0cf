(** * Theorems: bit patterns, components and bit reduction (C56-C59). *)

From Coq Require Import ZArith List Bool Reals Lia Lra.
From Flocq Require Import Core IEEE754.BinarySingleNaN IEEE754.Binary.
From Verif Require Import Base F32 F32Lemmas F32Exact F32Ints F32Range F32Over Num M_Bits P_Bits Examples.
Import ListNotations.
Open Scope Z_scope.

(** ** Raw words *)

(** C56: [to_raw_word] never fails, gives a 32-bit word, and [from_raw_word] takes it back
    to the very same float, NaN payload and sign included. *)
Theorem C56_float_word_float : forall (B : Build) (x : f32),
  exists w, to_raw_word x = Ret w /\ is_u32 w /\ from_raw_word w = x.
Proof.
  intros B x. exists (to_bits x). split; [apply raw_word_ok|]. split; [apply to_bits_range|].
  rewrite from_raw_ok by apply to_bits_range. apply from_to_bits.
Qed.
Print Assumptions C56_float_word_float.

(** C56: every 32-bit word survives the way through a float. *)
Theorem C56_word_float_word : forall (B : Build) (w : Z), is_u32 w ->
  to_raw_word (from_raw_word w) = Ret w.
Proof. intros B w Hw. rewrite raw_word_ok, from_raw_ok by exact Hw. now rewrite to_from_bits. Qed.
Print Assumptions C56_word_float_word.

Example C56_ex : obits (Ret (from_raw_word 2143289345)) = Ret 2143289345.
Proof. vm_compute. reflexivity. Qed.

(** ** Components *)

(** C57: splitting a float or a word and joining the parts gives it back. *)
Theorem C57_split_join : forall (B : Build),
  (forall x : f32, (do c <- to_f32_components x ; from_f32_components c) = Ret x) /\
  (forall w, is_u32 w -> (do c <- word_to_components w ; word_from_components c) = Ret w).
Proof.
  intros B. assert (H : forall w, is_u32 w -> (do c <- word_to_components w ; word_from_components c) = Ret w).
  { intros w Hw. rewrite to_components_ok by exact Hw. cbn [bind].
    match goal with |- word_from_components ?c = _ => destruct (from_components_ok c) as (E & _) end.
    - cbn [c_exponent]. apply Z.mod_pos_bound. lia.
    - cbn [c_mantissa]. apply Z.mod_pos_bound. lia.
    - rewrite E. now rewrite comp_of_word. }
  split; [|exact H]. intros x. unfold to_f32_components, from_f32_components. rewrite raw_word_ok. cbn [bind].
  specialize (H (to_bits x) (to_bits_range x)). destruct (word_to_components (to_bits x)) as [c| |]; try discriminate.
  cbn [bind] in *. rewrite H. cbn [bind]. rewrite from_raw_ok by apply to_bits_range. now rewrite from_to_bits.
Qed.
Print Assumptions C57_split_join.

(** C57: the parts are the sign bit, the eight exponent bits and the 23 mantissa bits. *)
Theorem C57_split_meaning : forall (B : Build) (w : Z), is_u32 w ->
  exists c, word_to_components w = Ret c /\ 0 <= c_exponent c < 256 /\ 0 <= c_mantissa c < 2 ^ 23 /\
    w = (if c_sign c then 1 else 0) * 2 ^ 31 + c_exponent c * 2 ^ 23 + c_mantissa c.
Proof.
  intros B w Hw. rewrite to_components_ok by exact Hw. eexists. split; [reflexivity|]. cbn [c_sign c_exponent c_mantissa].
  split; [apply Z.mod_pos_bound; lia|]. split; [apply Z.mod_pos_bound; lia|].
  rewrite <- (comp_of_word w Hw) at 1. unfold comp_word. cbn [c_sign c_exponent c_mantissa]. destruct (2 ^ 31 <=? w); lia.
Qed.
Print Assumptions C57_split_meaning.

(** C57: joining and then splitting gives the parts back exactly when the mantissa fits in
    its 23 bits. *)
Theorem C57_join_split_iff : forall (B : Build) (c : components), is_u8 (c_exponent c) -> is_u32 (c_mantissa c) ->
  ((do w <- word_from_components c ; word_to_components w) = Ret c <-> c_mantissa c < 2 ^ 23).
Proof.
  intros B c He Hm. split.
  - intros H. rewrite from_components_eq in H by assumption.
    destruct (u32_add _ _) as [w| |] eqn:E; try discriminate. cbn [bind] in H.
    assert (Hw : is_u32 w).
    { unfold u32_add in E. destruct (Z.ltb_spec ((if c_sign c then 2 ^ 31 else 0) + c_exponent c * 2 ^ 23 + c_mantissa c) (2 ^ 32)).
      - injection E as <-. unfold is_u32, is_u8 in *. destruct (c_sign c); lia.
      - destruct ovf_checks; [discriminate|]. injection E as <-. apply Z.mod_pos_bound. lia. }
    rewrite to_components_ok in H by exact Hw. injection H as H. rewrite <- H. cbn [c_mantissa]. apply Z.mod_pos_bound. lia.
  - intros H. destruct (from_components_ok c He) as (E & _ & E2); [unfold is_u32 in Hm; lia|]. now rewrite E.
Qed.
Print Assumptions C57_join_split_iff.

(** C57: a larger mantissa overflows the word (a panic, or a wrapped word without overflow
    checks) or spills into the exponent. *)
Theorem C57_oversized_mantissa : forall (B : Build) (c : components), is_u8 (c_exponent c) -> is_u32 (c_mantissa c) ->
  2 ^ 23 <= c_mantissa c ->
  let total := (if c_sign c then 1 else 0) * 2 ^ 31 + c_exponent c * 2 ^ 23 + c_mantissa c in
  (2 ^ 32 <= total -> word_from_components c = if ovf_checks then Panic else Ret (total - 2 ^ 32)) /\
  (total < 2 ^ 32 -> exists c', (do w <- word_from_components c ; word_to_components w) = Ret c' /\
     c_exponent c' = (c_exponent c + c_mantissa c / 2 ^ 23) mod 256 /\ c_mantissa c' = c_mantissa c mod 2 ^ 23 /\
     (c_exponent c' <> c_exponent c \/ c_sign c' <> c_sign c)).
Proof.
  intros B c He Hm Hbig total. unfold is_u8, is_u32 in *.
  assert (Et : (if c_sign c then 2 ^ 31 else 0) + c_exponent c * 2 ^ 23 + c_mantissa c = total) by (unfold total; destruct (c_sign c); lia).
  rewrite from_components_eq by assumption. unfold u32_add. rewrite Et.
  split; intros H; destruct (Z.ltb_spec total (2 ^ 32)); try lia.
  - destruct ovf_checks; [reflexivity|]. f_equal. assert (total < 2 ^ 33) by (unfold total; destruct (c_sign c); lia).
    symmetry. apply Z.mod_unique with 1; lia.
  - cbn [bind]. assert (0 <= total) by (unfold total; destruct (c_sign c); lia).
    rewrite to_components_ok by (unfold is_u32; lia). eexists. split; [reflexivity|]. cbn [c_sign c_exponent c_mantissa].
    pose proof (Z.div_mod (c_mantissa c) (2 ^ 23) ltac:(lia)) as E. pose proof (Z.mod_pos_bound (c_mantissa c) (2 ^ 23) ltac:(lia)) as Bm.
    set (q := c_mantissa c / 2 ^ 23) in *. set (r := c_mantissa c mod 2 ^ 23) in *.
    assert (Ed : total / 2 ^ 23 = (if c_sign c then 256 else 0) + (c_exponent c + q)).
    { symmetry. apply Z.div_unique with r; unfold total; destruct (c_sign c); lia. }
    assert (Er : total mod 2 ^ 23 = r).
    { symmetry. apply Z.mod_unique with ((if c_sign c then 256 else 0) + (c_exponent c + q)); unfold total; destruct (c_sign c); lia. }
    assert (Ee : (total / 2 ^ 23) mod 2 ^ 8 = (c_exponent c + q) mod 256).
    { rewrite Ed. change (2 ^ 8) with 256. destruct (c_sign c); [|reflexivity].
      rewrite Z.add_comm. rewrite <- (Z.mul_1_l 256) at 1. now rewrite Z.mod_add by lia. }
    split; [exact Ee|]. split; [exact Er|]. rewrite Ee.
    assert (Hq : 1 <= q < 512) by lia.
    destruct (Z_lt_le_dec (c_exponent c + q) 256) as [L|L].
    + left. rewrite Z.mod_small by lia. lia.
    + destruct (Z.eq_dec q 256) as [Q|Q].
      * right. destruct (c_sign c); [unfold total in H; lia|]. replace (2 ^ 31 <=? total) with true; [discriminate|].
        symmetry. apply Z.leb_le. unfold total. lia.
      * left. intros A. assert (c_exponent c + q < 512) by (unfold total in H; destruct (c_sign c); lia).
        replace ((c_exponent c + q) mod 256) with (c_exponent c + q - 256) in A; [lia|].
        apply Z.mod_unique with 1; lia.
Qed.
Print Assumptions C57_oversized_mantissa.

Example C57_ex_fits : @word_from_components dbg32 (Comp true 130 5242880) = Ret 3243245568 /\
  @word_to_components dbg32 3243245568 = Ret (Comp true 130 5242880).
Proof. split; vm_compute; reflexivity. Qed.
Example C57_ex_spills : @word_from_components dbg32 (Comp false 130 (2 ^ 23)) = Ret (131 * 2 ^ 23).
Proof. vm_compute. reflexivity. Qed.
Example C57_ex_overflows : @word_from_components dbg32 (Comp true 255 (2 ^ 23)) = Panic /\
  @word_from_components rel64 (Comp true 255 (2 ^ 23)) = Ret 0.
Proof. split; vm_compute; reflexivity. Qed.

(** ** Linear bit reduction *)

(** Rounding |x| down to a multiple of 1/2^k, the sign kept. *)
Definition truncate_to (k : Z) (negative : bool) (x : R) : R :=
  ((if negative then -1 else 1) * (IZR (Zfloor (Rabs x * IZR (2 ^ k))) / IZR (2 ^ k)))%R.

Lemma truncate_trunc x k : 0 <= k -> fin x = true ->
  (IZR (Ztrunc (val x * pow2 k)) * pow2 (- k))%R = truncate_to k (sgn x) (val x).
Proof.
  intros Hk F. unfold truncate_to. change (2 ^ k) with (Zpower radix2 k). rewrite IZR_Zpower by exact Hk. rewrite bpow_opp.
  pose proof (bpow_gt_0 radix2 k). destruct (sgn x) eqn:S.
  - pose proof (sgn_val_le x S). rewrite Rabs_left1 by lra.
    replace (val x * pow2 k)%R with (- (- val x * pow2 k))%R by ring. rewrite Ztrunc_opp, opp_IZR.
    rewrite Ztrunc_floor by nra. field. lra.
  - pose proof (sgn_val_ge x S). rewrite Rabs_right by lra. rewrite Ztrunc_floor by nra. field. lra.
Qed.

(** C58: inside [-1, 1] and for a depth of 1 to 30 the result is x truncated towards zero to
    31 - d binary places, exactly, with the sign of x (so -0 stays -0). *)
Theorem C58_exact_truncation : forall (NP : NanPolicy) (B : Build) (x : f32) (d : Z),
  fin x = true -> (-1 <= val x <= 1)%R -> 1 <= d <= 30 ->
  exists y, bit_reduce x d = Ret (Ok y) /\ fin y = true /\ sgn y = sgn x /\
    val y = truncate_to (31 - d) (sgn x) (val x).
Proof.
  intros NP B x d F H Hd. destruct (reduce_spec x d F H Hd) as (y & E & Fy & Sy & Vy). exists y.
  split; [|split; [exact Fy|split; [exact Sy|]]].
  - unfold bit_reduce. destruct (Z.ltb_spec 30 d); [lia|].
    destruct (of_int_exact 1 ltac:(lia)) as [F1 V1]. destruct (of_int_exact (-1) ltac:(lia)) as [Fm Vm].
    replace (flt x (of_int (-1))) with false; [replace (fgt x (of_int 1)) with false|].
    + cbn [orb]. rewrite E. reflexivity.
    + symmetry. unfold fgt. apply flt_fin_false; [exact F1|exact F|]. rewrite V1. lra.
    + symmetry. apply flt_fin_false; [exact F|exact Fm|]. rewrite Vm. lra.
  - rewrite Vy. replace (d - 31) with (- (31 - d)) by lia. apply truncate_trunc; [lia|exact F].
Qed.
Print Assumptions C58_exact_truncation.

Lemma truncate_trunc_abs (k : Z) (s : bool) (x : R) : 0 <= k -> (if s then x <= 0 else 0 <= x)%R ->
  (Rabs (truncate_to k s x) <= Rabs x /\ Rabs (x - truncate_to k s x) < 1 / IZR (2 ^ k))%R /\
  truncate_to k s (truncate_to k s x) = truncate_to k s x.
Proof.
  intros Hk Hs. unfold truncate_to. assert (P : (0 < IZR (2 ^ k))%R) by (apply (IZR_lt 0); apply Z.pow_pos_nonneg; lia).
  set (p := IZR (2 ^ k)) in *. set (n := Zfloor (Rabs x * p)).
  pose proof (Zfloor_lb (Rabs x * p)) as L. pose proof (Zfloor_ub (Rabs x * p)) as U. fold n in L, U.
  assert (N0 : (0 <= n)%Z).
  { apply Zfloor_lub. pose proof (Rabs_pos x). nra. }
  assert (Rn : (0 <= IZR n)%R) by now apply (IZR_le 0).
  assert (Q0 : (0 <= IZR n / p)%R) by (apply Rmult_le_pos; [exact Rn|apply Rlt_le, Rinv_0_lt_compat, P]).
  assert (Q1 : (IZR n / p <= Rabs x)%R).
  { apply Rmult_le_reg_r with p; [exact P|]. replace (IZR n / p * p)%R with (IZR n) by (field; lra). exact L. }
  assert (Q2 : (Rabs x < IZR n / p + 1 / p)%R).
  { apply Rmult_lt_reg_r with p; [exact P|]. replace ((IZR n / p + 1 / p) * p)%R with (IZR n + 1)%R by (field; lra). exact U. }
  set (q := (IZR n / p)%R) in *.
  assert (Fq : Zfloor (q * p) = n) by (unfold q; replace (IZR n / p * p)%R with (IZR n) by (field; lra); apply Zfloor_IZR).
  destruct s.
  - rewrite (Rabs_left1 x) in * by lra. rewrite (Rabs_left1 (-1 * q)) by lra. split; [split|].
    + lra.
    + apply Rabs_def1; lra.
    + replace (- (-1 * q))%R with q by ring. now rewrite Fq.
  - rewrite (Rabs_right x) in * by lra. rewrite (Rabs_right (1 * q)) by lra. split; [split|].
    + lra.
    + apply Rabs_def1; lra.
    + replace (1 * q)%R with q by ring. rewrite Fq. fold q. ring.
Qed.

(** C58: hence it never increases the magnitude, errs by less than 2^(d-31), is idempotent
    and odd. *)
Theorem C58_consequences : forall (NP : NanPolicy) (B : Build) (x : f32) (d : Z),
  fin x = true -> (-1 <= val x <= 1)%R -> 1 <= d <= 30 ->
  exists y, bit_reduce x d = Ret (Ok y) /\ (Rabs (val y) <= Rabs (val x))%R /\
    (Rabs (val x - val y) < 1 / IZR (2 ^ (31 - d)))%R /\
    bit_reduce y d = Ret (Ok y) /\ bit_reduce (fneg x) d = Ret (Ok (fneg y)).
Proof.
  intros NP B x d F H Hd. destruct (C58_exact_truncation NP B x d F H Hd) as (y & E & Fy & Sy & Vy).
  assert (Hs : (if sgn x then val x <= 0 else 0 <= val x)%R).
  { destruct (sgn x) eqn:S; [now apply sgn_val_le|now apply sgn_val_ge]. }
  destruct (truncate_trunc_abs (31 - d) (sgn x) (val x) ltac:(lia) Hs) as [[A1 A2] A3]. rewrite <- Vy in A1, A2, A3.
  exists y. split; [exact E|]. split; [exact A1|]. split; [exact A2|].
  assert (Hy : (-1 <= val y <= 1)%R).
  { assert (Rabs (val x) <= 1)%R by (apply Rabs_le; lra). apply Rabs_le_inv. lra. }
  split.
  - destruct (C58_exact_truncation NP B y d Fy Hy Hd) as (z & Ez & Fz & Sz & Vz). rewrite Ez. do 2 f_equal.
    apply val_sgn_inj; [exact Fz|exact Fy| |exact Sz]. rewrite Vz, Sy. exact A3.
  - destruct (C58_exact_truncation NP B (fneg x) d) as (z & Ez & Fz & Sz & Vz); [now rewrite fin_fneg|rewrite val_fneg; lra|exact Hd|].
    rewrite Ez. do 2 f_equal. assert (Sg : forall z : f32, fin z = true -> sgn (fneg z) = negb (sgn z)) by (intros t; now destruct t).
    apply val_sgn_inj; [exact Fz|now rewrite fin_fneg| |].
    + rewrite Vz, val_fneg, val_fneg, Vy, Sg by exact F. unfold truncate_to. rewrite Rabs_Ropp. destruct (sgn x); cbn [negb]; ring.
    + rewrite Sz, !Sg, Sy by assumption. reflexivity.
Qed.
Print Assumptions C58_consequences.

(** C58: what happens on every other input. A depth above 30 is refused first; then every
    input beyond [-1, 1], infinities included; depth 0 returns its input; a NaN becomes a
    zero. *)
Theorem C58_refusals_and_identity : forall (NP : NanPolicy) (B : Build) (x : f32) (d : Z), is_u8 d ->
  (30 < d -> bit_reduce x d = Ret (Err OverBitReduction)) /\
  (d <= 30 -> ((fin x = true /\ (1 < Rabs (val x))%R) \/ (fin x = false /\ isnan x = false)) ->
     bit_reduce x d = Ret (Err InputExceedsRange)) /\
  (d = 0 -> isnan x = true \/ (fin x = true /\ (-1 <= val x <= 1)%R) -> bit_reduce x d = Ret (Ok x)) /\
  (1 <= d <= 30 -> isnan x = true -> exists s, bit_reduce x d = Ret (Ok (B754_zero 24 128 s))).
Proof.
  intros NP B x d Hd. unfold bit_reduce. destruct (of_int_exact 1 ltac:(lia)) as [F1 V1].
  destruct (of_int_exact (-1) ltac:(lia)) as [Fm Vm].
  assert (Nn : isnan x = true -> flt x (of_int (-1)) || fgt x (of_int 1) = false).
  { intros N. unfold fgt, flt, fcmp. destruct x; try discriminate. reflexivity. }
  split; [|split; [|split]].
  - intros H. destruct (Z.ltb_spec 30 d); [reflexivity|lia].
  - intros H0 H. destruct (Z.ltb_spec 30 d); [lia|].
    replace (flt x (of_int (-1)) || fgt x (of_int 1)) with true; [reflexivity|]. symmetry. apply orb_true_iff.
    destruct H as [[F H]|[F N]].
    + unfold Rabs in H. destruct (Rcase_abs (val x)).
      * left. apply flt_true_fin; [exact F|exact Fm|]. rewrite Vm. lra.
      * right. unfold fgt. apply flt_true_fin; [exact F1|exact F|]. rewrite V1. lra.
    + destruct x as [s|s|s pl H|s m e H]; try discriminate. destruct s; [left|right]; reflexivity.
  - intros -> H. destruct (Z.ltb_spec 30 0); [lia|]. replace (flt x (of_int (-1)) || fgt x (of_int 1)) with false; [reflexivity|].
    destruct H as [N|[F H]]; [now rewrite Nn|]. symmetry. apply orb_false_iff. split.
    + apply flt_fin_false; [exact F|exact Fm|]. rewrite Vm. lra.
    + unfold fgt. apply flt_fin_false; [exact F1|exact F|]. rewrite V1. lra.
  - intros H N. destruct (Z.ltb_spec 30 d); [lia|]. rewrite Nn by exact N.
    destruct (reduce_nan x d N H) as [s ->]. exists s. reflexivity.
Qed.
Print Assumptions C58_refusals_and_identity.

(** C58: the unchecked variant does not refuse a depth of 32 or more: with overflow checks it
    panics. *)
Theorem C58_unchecked_overshift : forall (NP : NanPolicy) (B : Build) (x : f32) (d : Z),
  ovf_checks = true -> 32 <= d -> bit_reduce_unchecked x d = Panic.
Proof.
  intros NP B x d C H. unfold bit_reduce_unchecked, is_sign_positive, is_sign_negative, u32_shr.
  destruct (Z.eqb_spec d 0); [lia|]. cbn [negb]. destruct (Z.ltb_spec d 32); [lia|]. rewrite C.
  destruct (sgn x); reflexivity.
Qed.
Print Assumptions C58_unchecked_overshift.

(** 0.7 reduced to three binary places is 0.625; -0.7 is -0.625 *)
Example C58_ex : (do r <- @bit_reduce default_policy dbg32 (lit 11744051 (-24)) 28 ;
    Ret (match r with Ok y => to_bits y | Err _ => 0 end)) = Ret (to_bits (lit 5 (-3))) /\
  (do r <- @bit_reduce default_policy dbg32 (lit (-11744051) (-24)) 28 ;
    Ret (match r with Ok y => to_bits y | Err _ => 0 end)) = Ret (to_bits (lit (-5) (-3))).
Proof. split; vm_compute; reflexivity. Qed.

(** ** Exponential bit reduction *)

(** C59: for d <= 23 the low d bits of the pattern are cleared and no other bit changes, for
    every float; in particular sign and exponent stay. *)
Theorem C59_clears_low_mantissa_bits : forall (NP : NanPolicy) (B : Build) (x : f32) (d : Z), 0 <= d <= 23 ->
  exists y, bit_reduce_exp x d = Ret (Ok y) /\
    to_bits y = to_bits x - to_bits x mod 2 ^ d /\
    exists c, to_f32_components x = Ret c /\
      to_f32_components y = Ret (Comp (c_sign c) (c_exponent c) (c_mantissa c - c_mantissa c mod 2 ^ d)).
Proof.
  intros NP B x d Hd. pose proof (to_bits_range x) as R. destruct (cleared (to_bits x) d R Hd) as (R2 & Es & Ee & Em & El).
  eexists. unfold bit_reduce_exp. destruct (Z.ltb_spec 23 d); [lia|]. rewrite reduce_exp_ok by exact Hd. cbn [bind].
  split; [reflexivity|]. rewrite to_from_bits by exact R2. split; [reflexivity|].
  unfold to_f32_components. rewrite !raw_word_ok. cbn [bind]. rewrite to_from_bits by exact R2.
  rewrite !to_components_ok by assumption. eexists. split; [reflexivity|]. cbn [c_sign c_exponent c_mantissa].
  unfold bit_sign, bit_exp, bit_mant in *. now rewrite Es, Ee, Em.
Qed.
Print Assumptions C59_clears_low_mantissa_bits.

Lemma bits_cases x : let w := to_bits x in
  (fin x = true <-> bit_exp w < 255) /\ (isnan x = true <-> bit_exp w = 255 /\ bit_mant w <> 0).
Proof.
  cbv zeta. pose proof (to_bits_range x) as R. pose proof (from_to_bits x) as E. set (w := to_bits x) in *.
  assert (Be : 0 <= bit_exp w < 256) by (apply Z.mod_pos_bound; lia).
  destruct (Z_lt_le_dec (bit_exp w) 255) as [L|L].
  - destruct (bits_finite w R L) as (F & _). rewrite E in F. pose proof (fin_notnan x F). split; split; intros; try tauto; try congruence; lia.
  - assert (L' : bit_exp w = 255) by lia. destruct (Z.eq_dec (bit_mant w) 0) as [M|M].
    + pose proof (bits_infinite w R L' M) as I. rewrite E in I. rewrite I. split; split; intros H; try discriminate; try lia.
    + pose proof (bits_nan w R L' M) as N. rewrite E in N. split; split; intros H; try tauto; try lia.
      apply fin_notnan in H. congruence.
Qed.

(** C59: the effect on finite values: same sign, smaller or equal magnitude, and on normal
    numbers a relative error below 2^(d-23). *)
Theorem C59_finite_values : forall (NP : NanPolicy) (B : Build) (x : f32) (d : Z), 0 <= d <= 23 -> fin x = true ->
  exists y, bit_reduce_exp x d = Ret (Ok y) /\ fin y = true /\ sgn y = sgn x /\
    (Rabs (val y) <= Rabs (val x))%R /\ (Rabs (val x - val y) < IZR (2 ^ d) * Rmax (pow2 (-149)) (pow2 (-23) * Rabs (val x)))%R /\
    ((pow2 (-126) <= Rabs (val x))%R -> (Rabs (val x - val y) < IZR (2 ^ d) / IZR (2 ^ 23) * Rabs (val x))%R).
Proof.
  intros NP B x d Hd Fx. destruct (C59_clears_low_mantissa_bits NP B x d Hd) as (y & E & Eb & _).
  exists y. split; [exact E|]. clear E.
  pose proof (to_bits_range x) as R. destruct (cleared (to_bits x) d R Hd) as (R2 & Es & Ee & Em & El).
  destruct (bits_cases x) as [HF _]. apply HF in Fx. clear HF.
  pose proof (from_to_bits x) as Ex. pose proof (from_to_bits y) as Ey. rewrite Eb in Ey.
  set (w := to_bits x) in *. destruct (bits_finite w R Fx) as (F1 & S1 & V1). rewrite Ex in F1, S1, V1.
  destruct (bits_finite (w - w mod 2 ^ d) R2) as (F2 & S2 & V2); [now rewrite Ee|]. rewrite Ey in F2, S2, V2.
  rewrite Es, Ee, Em, El in *. split; [exact F2|]. split; [now rewrite S1, S2|].
  assert (Bm : 0 <= bit_mant w < 2 ^ 23) by (apply Z.mod_pos_bound; lia).
  assert (Be : 0 <= bit_exp w) by (apply Z.mod_pos_bound; lia).
  assert (Pd : 0 < 2 ^ d) by (apply Z.pow_pos_nonneg; lia).
  assert (Br : 0 <= w mod 2 ^ d < 2 ^ d) by (apply Z.mod_pos_bound; lia).
  assert (Lr : w mod 2 ^ d <= bit_mant w) by (rewrite <- El; apply Z.mod_le; lia).
  rewrite V1, V2. clear V1 V2 S1 S2 F1 F2 Ex Ey Eb Es Ee Em El R R2.
  revert Bm Be Br Lr Fx. generalize (bit_mant w), (bit_exp w), (w mod 2 ^ d), (bit_sign w). intros m e r s Bm Be Br Lr Fx.
  set (a := if e =? 0 then m else m + 2 ^ 23). set (b := if e =? 0 then m - r else m - r + 2 ^ 23).
  set (k := Z.max e 1 - 150). assert (Pk : (0 < pow2 k)%R) by apply bpow_gt_0.
  assert (Eab : a - b = r) by (unfold a, b; destruct (e =? 0); lia).
  assert (B0 : 0 <= b) by (unfold b; destruct (e =? 0); lia).
  assert (A0 : b <= a) by lia.
  assert (Ra : forall n, (0 <= n)%Z -> Rabs ((if s then -1 else 1) * (IZR n * pow2 k)) = (IZR n * pow2 k)%R).
  { intros n Hn. apply (IZR_le 0) in Hn. destruct s; [rewrite Rabs_left1 by nra; ring|rewrite Rabs_right by nra; ring]. }
  assert (Rd : Rabs ((if s then -1 else 1) * (IZR a * pow2 k) - (if s then -1 else 1) * (IZR b * pow2 k)) = (IZR r * pow2 k)%R).
  { replace ((if s then -1 else 1) * (IZR a * pow2 k) - (if s then -1 else 1) * (IZR b * pow2 k))%R with
      ((if s then -1 else 1) * (IZR r * pow2 k))%R by (rewrite <- Eab, minus_IZR; ring). apply Ra. lia. }
  rewrite Rd, !Ra by lia. apply IZR_le in A0. assert (Hr : (IZR r < IZR (2 ^ d))%R) by (apply IZR_lt; lia).
  assert (P2d : (0 < IZR (2 ^ d))%R) by now apply (IZR_lt 0).
  assert (P23 : (pow2 (-23) = / IZR (2 ^ 23))%R) by reflexivity.
  assert (Norm : 1 <= e -> (pow2 k <= pow2 (-23) * (IZR a * pow2 k))%R).
  { intros He. assert (IZR (2 ^ 23) <= IZR a)%R. { apply IZR_le. unfold a. destruct (Z.eqb_spec e 0); lia. }
    rewrite P23. assert (Q : (0 < IZR (2 ^ 23))%R) by (apply (IZR_lt 0); lia).
    replace (/ IZR (2 ^ 23) * (IZR a * pow2 k))%R with (IZR a / IZR (2 ^ 23) * pow2 k)%R by (field; lra).
    assert (1 <= IZR a / IZR (2 ^ 23))%R by (apply Rmult_le_reg_r with (IZR (2 ^ 23)); [exact Q|]; unfold Rdiv; rewrite Rmult_assoc, Rinv_l; lra).
    nra. }
  split; [nra|]. split.
  - apply Rlt_le_trans with (IZR (2 ^ d) * pow2 k)%R; [nra|]. apply Rmult_le_compat_l; [lra|].
    destruct (Z.eq_dec e 0) as [e0|e0].
    + apply Rle_trans with (2 := Rmax_l _ _). unfold k. subst e. apply Rle_refl.
    + apply Rle_trans with (2 := Rmax_r _ _). apply Norm. lia.
  - intros Hn. assert (He : 1 <= e).
    { destruct (Z.eq_dec e 0) as [e0|e0]; [|lia]. exfalso. unfold k, a in Hn. subst e. change (0 =? 0) with true in Hn. cbv iota in Hn. change (Z.max 0 1 - 150) with (-149) in Hn.
      change (pow2 (-126)) with (pow2 (23 + -149)) in Hn. rewrite bpow_plus in Hn. pose proof (bpow_gt_0 radix2 (-149)).
      assert (IZR m < pow2 23)%R by (change (pow2 23) with (IZR (2 ^ 23)); apply IZR_lt; lia).
      revert Hn. generalize dependent (pow2 (-149)). generalize dependent (pow2 23). intros. nra. }
    specialize (Norm He). rewrite P23 in Norm. unfold Rdiv. rewrite Rmult_assoc. nra.
Qed.
Print Assumptions C59_finite_values.

(** C59: reducing twice is reducing once, for every float. *)
Theorem C59_idempotent : forall (NP : NanPolicy) (B : Build) (x : f32) (d : Z), 0 <= d <= 23 ->
  exists y, bit_reduce_exp x d = Ret (Ok y) /\ bit_reduce_exp y d = Ret (Ok y).
Proof.
  intros NP B x d Hd. destruct (C59_clears_low_mantissa_bits NP B x d Hd) as (y & E & Eb & _).
  destruct (C59_clears_low_mantissa_bits NP B y d Hd) as (z & Ez & Ebz & _).
  exists y. split; [exact E|]. rewrite Ez. do 2 f_equal. apply bits_inj. rewrite Ebz, Eb.
  assert (Pd : 0 < 2 ^ d) by (apply Z.pow_pos_nonneg; lia).
  pose proof (Z.div_mod (to_bits x) (2 ^ d) ltac:(lia)) as D.
  replace (to_bits x - to_bits x mod 2 ^ d) with (to_bits x / 2 ^ d * 2 ^ d) by lia. rewrite Z.mod_mul by lia. lia.
Qed.
Print Assumptions C59_idempotent.

(** C59: infinities are kept; a NaN stays a NaN exactly when one of its surviving mantissa
    bits is set, otherwise it becomes an infinity; a depth above 23 is refused. *)
Theorem C59_special_values : forall (NP : NanPolicy) (B : Build) (x : f32) (d : Z), 0 <= d ->
  (23 < d -> bit_reduce_exp x d = Ret (Err OverBitReduction)) /\
  (d <= 23 -> fin x = false -> isnan x = false -> bit_reduce_exp x d = Ret (Ok x)) /\
  (d <= 23 -> isnan x = true -> exists y, bit_reduce_exp x d = Ret (Ok y) /\
     (if (to_bits x mod 2 ^ 23) / 2 ^ d =? 0 then exists s, y = B754_infinity 24 128 s else isnan y = true)).
Proof.
  intros NP B x d Hd. split; [|split].
  - intros H. unfold bit_reduce_exp. destruct (Z.ltb_spec 23 d); [reflexivity|lia].
  - intros H F N. destruct (C59_clears_low_mantissa_bits NP B x d ltac:(lia)) as (y & E & Eb & _).
    rewrite E. do 2 f_equal. apply bits_inj. rewrite Eb. destruct x as [s|s|s pl Hp|s m e Hp]; try discriminate.
    assert (Em : to_bits (B754_infinity 24 128 s) = (if s then 511 else 255) * 2 ^ 23) by (destruct s; reflexivity).
    rewrite Em. replace (2 ^ 23) with (2 ^ (23 - d) * 2 ^ d) by (rewrite <- Z.pow_add_r by lia; f_equal; lia).
    rewrite Z.mul_assoc, Z.mod_mul by (apply Z.pow_nonzero; lia). lia.
  - intros H N. destruct (C59_clears_low_mantissa_bits NP B x d ltac:(lia)) as (y & E & Eb & _).
    exists y. split; [exact E|]. pose proof (to_bits_range x) as R. destruct (cleared (to_bits x) d R ltac:(lia)) as (R2 & Es & Ee & Em & El).
    destruct (bits_cases x) as [_ HN]. apply HN in N. destruct N as [N1 N2].
    pose proof (from_to_bits y) as Ey. rewrite Eb in Ey.
    assert (Pd : 0 < 2 ^ d) by (apply Z.pow_pos_nonneg; lia).
    change (to_bits x mod 2 ^ 23) with (bit_mant (to_bits x)).
    pose proof (Z.div_mod (bit_mant (to_bits x)) (2 ^ d) ltac:(lia)) as D.
    destruct (Z.eqb_spec (bit_mant (to_bits x) / 2 ^ d) 0) as [Z0|Z0].
    + eexists. rewrite <- Ey. apply bits_infinite; [exact R2|now rewrite Ee|]. rewrite Em. rewrite Z0 in D. lia.
    + rewrite <- Ey. apply bits_nan; [exact R2|now rewrite Ee|]. rewrite Em. nia.
Qed.
Print Assumptions C59_special_values.

(** 0.7 with 21 mantissa bits cleared is 0.625; a NaN with only low payload bits turns into
    an infinity. *)
Example C59_ex : (do r <- @bit_reduce_exp dbg32 (lit 11744051 (-24)) 21 ;
    Ret (match r with Ok y => to_bits y | Err _ => 0 end)) = Ret (to_bits (lit 5 (-3))) /\
  (do r <- @bit_reduce_exp dbg32 (from_bits (255 * 2 ^ 23 + 1)) 1 ;
    Ret (match r with Ok y => to_bits y | Err _ => 0 end)) = Ret (to_bits f_inf).
Proof. split; vm_compute; reflexivity. Qed.
