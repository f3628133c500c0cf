(** * Proofs about bit patterns and bit reduction. *)

From Coq Require Import ZArith List Bool Reals Lia Lra.
From Flocq Require Import Core IEEE754.BinarySingleNaN IEEE754.Binary IEEE754.Bits Mult_error.
From Verif Require Import Base F32 F32Lemmas F32Exact F32Ints F32Range F32Over Num P_SineFloat P_Oscillator M_Bits.
Import ListNotations.
Local Open Scope Z_scope.

Lemma to_bits_range x : is_u32 (to_bits x).
Proof. unfold is_u32, to_bits, bits_of_b32. apply (bits_of_binary_float_range 23 8); reflexivity. Qed.
Lemma from_to_bits x : from_bits (to_bits x) = x.
Proof. exact (binary_float_of_bits_of_binary_float 23 8 eq_refl eq_refl eq_refl x). Qed.
Lemma to_from_bits w : is_u32 w -> to_bits (from_bits w) = w.
Proof. intros H. exact (bits_of_binary_float_of_bits 23 8 eq_refl eq_refl eq_refl w H). Qed.

Lemma bytes_word w : is_u32 w -> of_le_bytes (le_bytes w) = w.
Proof.
  intros H. unfold is_u32, of_le_bytes, le_bytes in *. cbn [fold_right]. 
  change (2 ^ 16) with (2 ^ 8 * 2 ^ 8). change (2 ^ 24) with (2 ^ 8 * 2 ^ 8 * 2 ^ 8).
  rewrite <- !Z.div_div by lia. set (a := w / 2 ^ 8). set (b := a / 2 ^ 8). set (c := b / 2 ^ 8).
  pose proof (Z.div_mod w (2 ^ 8) ltac:(lia)). fold a in H0.
  pose proof (Z.div_mod a (2 ^ 8) ltac:(lia)). fold b in H1.
  pose proof (Z.div_mod b (2 ^ 8) ltac:(lia)). fold c in H2.
  pose proof (Z.mod_pos_bound w (2 ^ 8) ltac:(lia)). pose proof (Z.mod_pos_bound a (2 ^ 8) ltac:(lia)).
  pose proof (Z.mod_pos_bound b (2 ^ 8) ltac:(lia)).
  assert (c < 2 ^ 8) by lia. assert (0 <= c) by lia. rewrite (Z.mod_small c) by lia. lia.
Qed.

Section Bits.
Context {NP : NanPolicy} {B : Build}.

Lemma shl_ok x d : 0 <= d < 32 -> 0 <= x -> x * 2 ^ d < 2 ^ 32 -> u32_shl x d = Ret (x * 2 ^ d).
Proof.
  intros Hd Hx H. unfold u32_shl. destruct (Z.ltb_spec d 32); [|lia].
  rewrite Z.shiftl_mul_pow2 by lia. rewrite Z.mod_small; [reflexivity|]. split; [|exact H]. apply Z.mul_nonneg_nonneg; lia.
Qed.
Lemma shr_ok x d : 0 <= d < 32 -> u32_shr x d = Ret (x / 2 ^ d).
Proof. intros Hd. unfold u32_shr. destruct (Z.ltb_spec d 32); [|lia]. now rewrite Z.shiftr_div_pow2 by lia. Qed.
Lemma u32_add_ok a b : a + b < 2 ^ 32 -> u32_add a b = Ret (a + b).
Proof. intros H. unfold u32_add. destruct (Z.ltb_spec (a + b) (2 ^ 32)); [reflexivity|lia]. Qed.

Lemma raw_word_ok x : to_raw_word x = Ret (to_bits x).
Proof.
  unfold to_raw_word. pose proof (to_bits_range x) as Hr. pose proof (bytes_word _ Hr) as E. unfold is_u32 in Hr.
  unfold le_bytes, of_le_bytes in *. cbn [fold_right] in E.
  set (w := to_bits x) in *.
  pose proof (Z.mod_pos_bound w (2 ^ 8) ltac:(lia)) as B0.
  pose proof (Z.mod_pos_bound (w / 2 ^ 8) (2 ^ 8) ltac:(lia)) as B1.
  pose proof (Z.mod_pos_bound (w / 2 ^ 16) (2 ^ 8) ltac:(lia)) as B2.
  pose proof (Z.mod_pos_bound (w / 2 ^ 24) (2 ^ 8) ltac:(lia)) as B3.
  clearbody w. revert E B0 B1 B2 B3.
  generalize (w mod 2 ^ 8), ((w / 2 ^ 8) mod 2 ^ 8), ((w / 2 ^ 16) mod 2 ^ 8), ((w / 2 ^ 24) mod 2 ^ 8).
  intros b0 b1 b2 b3 E B0 B1 B2 B3.
  unfold raw_loop. cbn [Z.add Z.mul Pos.mul Pos.add]. 
  rewrite (shl_ok b0) by lia. cbn [bind]. rewrite u32_add_ok by lia. cbn [bind].
  rewrite (shl_ok b1) by lia. cbn [bind]. rewrite u32_add_ok by lia. cbn [bind].
  rewrite (shl_ok b2) by lia. cbn [bind]. rewrite u32_add_ok by lia. cbn [bind].
  rewrite (shl_ok b3) by lia. cbn [bind]. rewrite u32_add_ok by lia. cbn [bind].
  f_equal. lia.
Qed.

Lemma from_raw_ok w : is_u32 w -> from_raw_word w = from_bits w.
Proof. intros H. unfold from_raw_word. now rewrite bytes_word. Qed.

(** ** Components *)

Lemma to_components_ok w : is_u32 w ->
  word_to_components w = Ret (Comp (2 ^ 31 <=? w) ((w / 2 ^ 23) mod 2 ^ 8) (w mod 2 ^ 23)).
Proof.
  intros Hw. unfold is_u32 in Hw. unfold word_to_components, sign_shift, exp_shift, mant_shift, sign_mask, exp_mask, mant_mask.
  rewrite !shr_ok by lia. cbn [bind]. rewrite Z.div_1_r.
  change 8388607 with (Z.ones 23). change 255 with (Z.ones 8). change (Z.land (w / 2 ^ 31) 1) with (Z.land (w / 2 ^ 31) (Z.ones 1)).
  rewrite !Z.land_ones by lia. rewrite (Z.mod_mod (w / 2 ^ 23)) by lia.
  f_equal. f_equal. destruct (Z.leb_spec (2 ^ 31) w) as [L|L].
  - replace (w / 2 ^ 31) with 1; [reflexivity|]. apply Z.div_unique with (w - 2 ^ 31); lia.
  - rewrite Z.div_small by lia. reflexivity.
Qed.

Definition comp_word (c : components) : Z :=
  (if c_sign c then 2 ^ 31 else 0) + c_exponent c * 2 ^ 23 + c_mantissa c.

Lemma from_components_eq c : is_u8 (c_exponent c) -> is_u32 (c_mantissa c) ->
  word_from_components c = u32_add ((if c_sign c then 2 ^ 31 else 0) + c_exponent c * 2 ^ 23) (c_mantissa c).
Proof.
  intros He Hm. unfold is_u8, is_u32 in *. unfold word_from_components, sign_shift, exp_shift, mant_shift.
  rewrite (shl_ok (c_exponent c)) by lia.
  rewrite (shl_ok (if c_sign c then 1 else 0)) by (destruct (c_sign c); lia). cbn [bind].
  rewrite u32_add_ok by (destruct (c_sign c); lia). cbn [bind]. rewrite (shl_ok (c_mantissa c)) by lia. cbn [bind].
  rewrite Z.mul_1_r. f_equal. destruct (c_sign c); lia.
Qed.

Lemma from_components_ok c : is_u8 (c_exponent c) -> 0 <= c_mantissa c < 2 ^ 23 ->
  word_from_components c = Ret (comp_word c) /\ is_u32 (comp_word c) /\ word_to_components (comp_word c) = Ret c.
Proof.
  intros He Hm. unfold is_u8 in He. assert (R : is_u32 (comp_word c)).
  { unfold comp_word, is_u32. destruct (c_sign c); lia. }
  split; [|split; [exact R|]].
  - rewrite from_components_eq by (unfold is_u32, is_u8; lia). unfold comp_word, is_u32 in *. apply u32_add_ok. lia.
  - rewrite to_components_ok by exact R. unfold is_u32, comp_word in *. destruct c as [s e m]. cbn [c_sign c_exponent c_mantissa] in *.
    f_equal. f_equal.
    + destruct s.
      * apply Z.leb_le. lia.
      * apply Z.leb_gt. lia.
    + replace (((if s then 2 ^ 31 else 0) + e * 2 ^ 23 + m) / 2 ^ 23) with ((if s then 2 ^ 8 else 0) + e).
      * destruct s; [rewrite <- (Z.mul_1_l (2 ^ 8)) at 1; rewrite Z.add_comm, Z.mod_add by lia; apply Z.mod_small; lia|].
        apply Z.mod_small. lia.
      * apply Z.div_unique with m; destruct s; lia.
    + symmetry. apply Z.mod_unique with ((if s then 2 ^ 8 else 0) + e); destruct s; lia.
Qed.

Lemma comp_of_word w : is_u32 w -> comp_word (Comp (2 ^ 31 <=? w) ((w / 2 ^ 23) mod 2 ^ 8) (w mod 2 ^ 23)) = w.
Proof.
  intros Hw. unfold is_u32, comp_word in *. cbn [c_sign c_exponent c_mantissa].
  pose proof (Z.div_mod w (2 ^ 23) ltac:(lia)) as E1. pose proof (Z.div_mod (w / 2 ^ 23) (2 ^ 8) ltac:(lia)) as E2.
  rewrite Z.div_div in E2 by lia. change (2 ^ 23 * 2 ^ 8) with (2 ^ 31) in E2.
  destruct (Z.leb_spec (2 ^ 31) w) as [L|L].
  - replace (w / 2 ^ 31) with 1 in E2; [lia|]. apply Z.div_unique with (w - 2 ^ 31); lia.
  - rewrite (Z.div_small w (2 ^ 31)) in E2 by lia. lia.
Qed.

(** ** The value of a bit pattern *)

Definition bit_sign (w : Z) : bool := 2 ^ 31 <=? w.
Definition bit_exp (w : Z) : Z := (w / 2 ^ 23) mod 2 ^ 8.
Definition bit_mant (w : Z) : Z := w mod 2 ^ 23.

Lemma from_bits_FF w : B2FF 24 128 (from_bits w) = binary_float_of_bits_aux 23 8 w.
Proof. unfold from_bits, b32_of_bits, binary_float_of_bits. apply B2FF_FF2B. Qed.

Lemma val_FF (x : f32) : val x = FF2R radix2 (B2FF 24 128 x).
Proof. unfold val. symmetry. apply FF2R_B2FF. Qed.

Lemma bits_finite w : is_u32 w -> bit_exp w < 255 ->
  fin (from_bits w) = true /\ sgn (from_bits w) = bit_sign w /\
  val (from_bits w) = ((if bit_sign w then -1 else 1) *
     (IZR (if bit_exp w =? 0 then bit_mant w else bit_mant w + 2 ^ 23) * pow2 (Z.max (bit_exp w) 1 - 150)))%R.
Proof.
  intros Hw He. pose proof (from_bits_FF w) as E. pose proof (val_FF (from_bits w)) as V. rewrite E in V.
  assert (F : fin (from_bits w) = is_finite_FF (binary_float_of_bits_aux 23 8 w)).
  { rewrite <- E. now destruct (from_bits w). }
  assert (S : sgn (from_bits w) = sign_FF (binary_float_of_bits_aux 23 8 w)).
  { rewrite <- E. now destruct (from_bits w). }
  rewrite V, F, S. clear E V F S.
  unfold binary_float_of_bits_aux, split_bits. 
  change (2 ^ 23 * 2 ^ 8) with (2 ^ 31). fold (bit_sign w). change (w mod 2 ^ 23) with (bit_mant w).
  change ((w / 2 ^ 23) mod 2 ^ 8) with (bit_exp w).
  assert (Bm : 0 <= bit_mant w < 2 ^ 23) by (apply Z.mod_pos_bound; lia).
  assert (Be : 0 <= bit_exp w) by (apply Z.mod_pos_bound; lia).
  assert (Es : Z.leb (2 ^ 31) w = bit_sign w) by reflexivity.
  generalize dependent (bit_mant w). intros m Bm. generalize dependent (bit_exp w). intros e He Be.
  unfold bit_sign. generalize (2 ^ 31 <=? w). intros s.
  replace (Zeq_bool e (2 ^ 8 - 1)) with false.
  2:{ symmetry. apply Zeq_is_eq_bool_false || idtac. unfold Zeq_bool. destruct (Z.compare_spec e (2 ^ 8 - 1)); [lia|reflexivity|reflexivity]. }
  destruct (Z.eqb_spec e 0) as [->|Ne].
  - cbn [Zeq_bool Z.compare]. destruct m as [|p|p]; [| |lia].
    + cbn [is_finite_FF sign_FF FF2R]. split; [reflexivity|]. split; [reflexivity|]. rewrite Rmult_0_l, Rmult_0_r. reflexivity.
    + cbn [is_finite_FF sign_FF FF2R]. split; [reflexivity|]. split; [reflexivity|].
      change (SpecFloat.emin (23 + 1) (2 ^ (8 - 1))) with (-149).
      unfold F2R. cbn [Fnum Fexp]. change (Z.max 0 1 - 150) with (-149). destruct s; cbn [cond_Zopp]; [rewrite opp_IZR|]; ring.
  - replace (Zeq_bool e 0) with false by (unfold Zeq_bool; destruct (Z.compare_spec e 0); [lia|reflexivity|reflexivity]).
    destruct (m + 2 ^ 23) as [|p|p] eqn:Em; [lia| |lia].
    cbn [is_finite_FF sign_FF FF2R]. split; [reflexivity|]. split; [reflexivity|].
    change (SpecFloat.emin (23 + 1) (2 ^ (8 - 1))) with (-149).
    unfold F2R. cbn [Fnum Fexp]. replace (e + -149 - 1) with (Z.max e 1 - 150) by lia.
    destruct s; cbn [cond_Zopp]; [rewrite opp_IZR|]; ring.
Qed.

Lemma bits_infinite w : is_u32 w -> bit_exp w = 255 -> bit_mant w = 0 ->
  from_bits w = B754_infinity 24 128 (bit_sign w).
Proof.
  intros Hw He Hm. apply inf_of_FF. rewrite from_bits_FF. unfold binary_float_of_bits_aux, split_bits.
  change (2 ^ 23 * 2 ^ 8) with (2 ^ 31). fold (bit_sign w). change (w mod 2 ^ 23) with (bit_mant w).
  change ((w / 2 ^ 23) mod 2 ^ 8) with (bit_exp w). rewrite He, Hm. reflexivity.
Qed.
Lemma bits_nan w : is_u32 w -> bit_exp w = 255 -> bit_mant w <> 0 -> isnan (from_bits w) = true.
Proof.
  intros Hw He Hm. assert (E : isnan (from_bits w) = is_nan_FF (B2FF 24 128 (from_bits w))) by now destruct (from_bits w).
  rewrite E, from_bits_FF. unfold binary_float_of_bits_aux, split_bits.
  change (2 ^ 23 * 2 ^ 8) with (2 ^ 31). fold (bit_sign w). change (w mod 2 ^ 23) with (bit_mant w).
  change ((w / 2 ^ 23) mod 2 ^ 8) with (bit_exp w). rewrite He. cbn [Zeq_bool Z.compare].
  assert (0 <= bit_mant w) by (apply Z.mod_pos_bound; lia).
  destruct (bit_mant w); [lia|reflexivity|lia].
Qed.

(** ** Linear bit reduction *)

Lemma repr_scale y k : repr y -> y = 0%R \/ (1 <= Rabs y)%R -> -120 <= k -> repr (y * pow2 k).
Proof.
  intros Hy H Hk. destruct H as [->|H]; [rewrite Rmult_0_l; apply repr_0|].
  apply mult_bpow_exact_FLT; [exact Hy|]. assert (1 <= mag radix2 y); [|lia].
  apply mag_ge_bpow. exact H.
Qed.
Lemma repr_up y k : repr y -> 0 <= k -> repr (y * pow2 k).
Proof.
  intros Hy Hk. destruct (repr_form y Hy) as (m & e & -> & Hm & He).
  rewrite Rmult_assoc, <- bpow_plus. apply repr_dy; lia.
Qed.

Lemma isv_max_range : isv max_range (pow2 31).
Proof.
  unfold max_range. destruct (of_int_spec 2147483647 ltac:(lia)) as [F V]. split; [exact F|]. rewrite V.
  assert (E : of_int 2147483647 = of_int 2147483648) by (apply bits_inj; vm_compute; reflexivity).
  rewrite <- V, E. destruct (of_int_spec 2147483648 ltac:(lia)) as [_ ->]. change (pow2 31) with (1 * pow2 31)%R || idtac.
  replace (IZR 2147483648) with (IZR 1 * pow2 31)%R by (cbn; lra). rewrite rnd_repr; [cbn; lra|]. apply repr_dy; lia.
Qed.

Lemma sgn_of_int z : 0 <= z < 2 ^ 127 -> sgn (of_int z) = false.
Proof.
  intros H. destruct (Z.eq_dec z 0) as [->|N]; [reflexivity|].
  destruct (of_int_spec z ltac:(lia)) as [F V]. apply sgn_pos_val; [exact F|]. rewrite V.
  apply Rlt_le_trans with 1%R; [lra|]. apply rnd_ge_repr; [apply (repr_int 1); lia|]. apply IZR_le. lia.
Qed.

Lemma trunc_scale x d : (0 <= x)%R -> 0 <= d -> Ztrunc (x * pow2 (31 - d)) = Ztrunc (x * pow2 31) / 2 ^ d.
Proof.
  intros Hx Hd. pose proof (bpow_gt_0 radix2 (31 - d)) as P1. pose proof (bpow_gt_0 radix2 31) as P2.
  rewrite !Ztrunc_floor by nra. 
  assert (E : (x * pow2 31 = x * pow2 (31 - d) * IZR (2 ^ d))%R).
  { rewrite Rmult_assoc. f_equal. change (2 ^ d) with (Zpower radix2 d). rewrite IZR_Zpower by exact Hd.
    rewrite <- bpow_plus. f_equal. lia. }
  rewrite E. set (u := (x * pow2 (31 - d))%R). 
  assert (Pd : 0 < 2 ^ d) by (apply Z.pow_pos_nonneg; lia).
  assert (Rd : (0 < IZR (2 ^ d))%R) by now apply (IZR_lt 0).
  pose proof (Zfloor_lb u). pose proof (Zfloor_ub u). pose proof (Zfloor_lb (u * IZR (2 ^ d))). pose proof (Zfloor_ub (u * IZR (2 ^ d))).
  set (n := Zfloor u) in *. set (T := Zfloor (u * IZR (2 ^ d))) in *.
  assert (n * 2 ^ d <= T).
  { unfold T. apply Zfloor_lub. rewrite mult_IZR. nra. }
  assert (T < (n + 1) * 2 ^ d).
  { apply lt_IZR. rewrite mult_IZR, plus_IZR. nra. }
  symmetry. symmetry. apply Z.div_unique with (T - n * 2 ^ d); nia.
Qed.

Lemma reduce_pos x d : fin x = true -> (0 <= val x <= 1)%R -> 1 <= d <= 30 ->
  let t := to_u32 (fmul x max_range) in
  is_u32 (t / 2 ^ d) /\ 
  u32_shl (t / 2 ^ d) d = Ret (t / 2 ^ d * 2 ^ d) /\
  (0 <= t / 2 ^ d * 2 ^ d < 2 ^ 32) /\
  isv (of_int (t / 2 ^ d * 2 ^ d)) (IZR (Ztrunc (val x * pow2 (31 - d))) * pow2 d) /\
  isv (fdiv (of_int (t / 2 ^ d * 2 ^ d)) max_range) (IZR (Ztrunc (val x * pow2 (31 - d))) * pow2 (d - 31)) /\
  isv (fdiv (fneg (of_int (t / 2 ^ d * 2 ^ d))) max_range) (- (IZR (Ztrunc (val x * pow2 (31 - d))) * pow2 (d - 31))).
Proof.
  intros F Hx Hd. destruct isv_max_range as [Fm Vm].
  assert (P : (pow2 31 = 2147483648)%R) by (cbn; lra).
  assert (I : isv (fmul x max_range) (val x * pow2 31)).
  { apply mul_exact; [now apply isv_self|now split| |].
    - apply repr_up; [apply repr_val|lia].
    - rewrite Rabs_right by (rewrite P; nra). apply Rle_lt_trans with (pow2 31); [rewrite P; nra|]. unfold big. apply bpow_lt. lia. }
  assert (Ht : to_u32 (fmul x max_range) = Ztrunc (val x * pow2 31)).
  { destruct I as [Fi Vi]. unfold to_u32. rewrite to_int_fin, Vi by exact Fi.
    assert (0 <= Ztrunc (val x * pow2 31) <= 2147483648); [|lia]. apply trunc_between. rewrite P. nra. }
  cbv zeta. assert (Bt : 0 <= Ztrunc (val x * pow2 31) <= 2147483648) by (apply trunc_between; rewrite P; nra).
  rewrite Ht. rewrite trunc_scale by (lra || lia). rewrite <- trunc_scale by (lra || lia).
  assert (Pd : 0 < 2 ^ d) by (apply Z.pow_pos_nonneg; lia).
  assert (Eq : Ztrunc (val x * pow2 (31 - d)) = Ztrunc (val x * pow2 31) / 2 ^ d) by (apply trunc_scale; lra || lia).
  assert (Bq : 0 <= Ztrunc (val x * pow2 (31 - d)) <= 2147483648).
  { rewrite Eq. split; [apply Z.div_pos; lia|]. apply Z.div_le_upper_bound; nia. }
  assert (Bqd : Ztrunc (val x * pow2 (31 - d)) * 2 ^ d <= 2147483648).
  { rewrite Eq. pose proof (Z.mul_div_le (Ztrunc (val x * pow2 31)) (2 ^ d) Pd). lia. }
  assert (Rq : repr (IZR (Ztrunc (val x * pow2 (31 - d))))).
  { apply repr_trunc. apply repr_up; [apply repr_val|lia]. }
  set (q := Ztrunc (val x * pow2 (31 - d))) in *. clearbody q.
  assert (Q0 : IZR q = 0%R \/ (1 <= Rabs (IZR q))%R).
  { destruct (Z.eq_dec q 0) as [->|N]; [now left|right]. rewrite <- abs_IZR. apply IZR_le. lia. }
  assert (Ei : IZR (q * 2 ^ d) = (IZR q * pow2 d)%R).
  { rewrite mult_IZR. change (2 ^ d) with (Zpower radix2 d). now rewrite IZR_Zpower by lia. }
  assert (I2 : isv (of_int (q * 2 ^ d)) (IZR q * pow2 d)).
  { destruct (of_int_spec (q * 2 ^ d) ltac:(nia)) as [Fo Vo]. split; [exact Fo|]. rewrite Vo, Ei.
    apply rnd_repr. apply repr_up; [exact Rq|lia]. }
  assert (Ed : (IZR q * pow2 d / pow2 31 = IZR q * pow2 (d - 31))%R).
  { unfold Rdiv. rewrite Rmult_assoc, <- bpow_opp, <- bpow_plus. reflexivity. }
  assert (Rd : repr (IZR q * pow2 (d - 31))) by (apply repr_scale; [exact Rq|exact Q0|lia]).
  assert (Bd : (Rabs (IZR q * pow2 (d - 31)) < big)%R).
  { apply Rle_lt_trans with 1%R.
    - rewrite <- Ed, <- Ei, P. assert (0 <= IZR (q * 2 ^ d) <= 2147483648)%R by (split; apply IZR_le; nia).
      rewrite Rabs_right by lra. lra.
    - pose proof big_ge. lra. }
  assert (Pm : pow2 31 <> 0%R) by (rewrite P; lra).
  split; [unfold is_u32; nia|]. split; [apply shl_ok; lia|]. split; [nia|]. split; [exact I2|].
  rewrite <- Ed in Rd, Bd. rewrite <- Ed. split.
  - apply (div_exact _ _ _ _ I2 (conj Fm Vm) Pm Rd Bd).
  - replace (- (IZR q * pow2 d / pow2 31))%R with ((- (IZR q * pow2 d)) / pow2 31)%R by (field; exact Pm).
    apply (div_exact _ _ _ _ (isv_neg _ _ I2) (conj Fm Vm) Pm);
    replace (- (IZR q * pow2 d) / pow2 31)%R with (- (IZR q * pow2 d / pow2 31))%R by (field; exact Pm).
    + now apply repr_opp.
    + now rewrite Rabs_Ropp.
Qed.

Lemma reduce_spec x d : fin x = true -> (-1 <= val x <= 1)%R -> 1 <= d <= 30 ->
  exists y, bit_reduce_unchecked x d = Ret y /\ fin y = true /\ sgn y = sgn x /\
    val y = (IZR (Ztrunc (val x * pow2 (31 - d))) * pow2 (d - 31))%R.
Proof.
  intros F Hx Hd. unfold bit_reduce_unchecked, is_sign_positive, is_sign_negative.
  destruct (Z.eqb_spec d 0) as [->|_]; [lia|]. cbn [negb].
  destruct isv_max_range as [Fm Vm]. assert (Sm : sgn max_range = false) by reflexivity.
  destruct (sgn x) eqn:S; cbn [negb].
  - assert (Fn : fin (fneg x) = true) by now rewrite fin_fneg.
    pose proof (sgn_val_le x S).
    destruct (reduce_pos (fneg x) d Fn) as (_ & E & R & I1 & _ & I2); [rewrite val_fneg; lra|exact Hd|].
    rewrite shr_ok by lia. cbn [bind]. rewrite E. cbn [bind]. eexists. split; [reflexivity|].
    destruct I2 as [F2 V2]. split; [exact F2|]. split.
    + rewrite fdiv_sgn by now apply fin_notnan. rewrite Sm.
      assert (Sg : forall z : f32, fin z = true -> sgn (fneg z) = negb (sgn z)) by (intros z; now destruct z).
      rewrite Sg by apply I1. rewrite sgn_of_int by lia. reflexivity.
    + rewrite V2, val_fneg. rewrite Ropp_mult_distr_l_reverse, Ztrunc_opp, opp_IZR. ring.
  - pose proof (sgn_val_ge x S).
    destruct (reduce_pos x d F) as (_ & E & R & I1 & I2 & _); [lra|exact Hd|].
    rewrite shr_ok by lia. cbn [bind]. rewrite E. cbn [bind]. eexists. split; [reflexivity|].
    destruct I2 as [F2 V2]. split; [exact F2|]. split; [|exact V2].
    rewrite fdiv_sgn by now apply fin_notnan. rewrite Sm, sgn_of_int by lia. reflexivity.
Qed.

Lemma reduce_nan x d : isnan x = true -> 1 <= d <= 30 ->
  exists s, bit_reduce_unchecked x d = Ret (B754_zero 24 128 s).
Proof.
  intros N Hd. unfold bit_reduce_unchecked, is_sign_positive, is_sign_negative.
  destruct (Z.eqb_spec d 0) as [->|_]; [lia|]. cbn [negb].
  assert (Z0 : forall y, isnan y = true -> to_u32 (fmul y max_range) = 0).
  { intros y Hy. apply to_u32_sgn. right. apply fmul_nan. now left. }
  assert (Nn : isnan (fneg x) = true) by (destruct x; try discriminate; reflexivity).
  destruct (sgn x) eqn:S; cbn [negb].
  - rewrite Z0 by exact Nn. rewrite shr_ok by lia. cbn [bind]. rewrite Z.div_0_l by lia. rewrite shl_ok by lia. cbn [bind].
    rewrite Z.mul_0_l. exists true. reflexivity.
  - rewrite Z0 by exact N. rewrite shr_ok by lia. cbn [bind]. rewrite Z.div_0_l by lia. rewrite shl_ok by lia. cbn [bind].
    rewrite Z.mul_0_l. exists false. reflexivity.
Qed.

(** ** Exponential bit reduction *)

Lemma reduce_exp_ok x d : 0 <= d <= 23 ->
  bit_reduce_exp_unchecked x d = Ret (from_bits (to_bits x - to_bits x mod 2 ^ d)).
Proof.
  intros Hd. pose proof (to_bits_range x) as R. unfold bit_reduce_exp_unchecked. destruct (Z.eqb_spec d 0) as [->|N]; cbn [negb].
  - rewrite Z.mod_1_r, Z.sub_0_r, from_to_bits. reflexivity.
  - unfold to_f32_components. rewrite raw_word_ok. cbn [bind]. rewrite to_components_ok by exact R. cbn [bind c_mantissa c_sign c_exponent].
    set (w := to_bits x) in *. assert (Pd : 0 < 2 ^ d) by (apply Z.pow_pos_nonneg; lia).
    assert (Bm : 0 <= w mod 2 ^ 23 < 2 ^ 23) by (apply Z.mod_pos_bound; lia).
    rewrite shr_ok by lia. cbn [bind].
    pose proof (Z.div_mod (w mod 2 ^ 23) (2 ^ d) ltac:(lia)) as E1.
    pose proof (Z.mod_pos_bound (w mod 2 ^ 23) (2 ^ d) Pd) as B1.
    assert (Bd : 0 <= w mod 2 ^ 23 / 2 ^ d) by (apply Z.div_pos; lia).
    rewrite shl_ok by nia. cbn [bind]. unfold from_f32_components.
    destruct (from_components_ok (Comp (2 ^ 31 <=? w) ((w / 2 ^ 23) mod 2 ^ 8) (w mod 2 ^ 23 / 2 ^ d * 2 ^ d))) as (E2 & R2 & _).
    + cbn. apply Z.mod_pos_bound. lia.
    + cbn [c_mantissa]. nia.
    + rewrite E2. cbn [bind]. rewrite from_raw_ok by exact R2. f_equal. f_equal.
      pose proof (comp_of_word w R) as E3. unfold comp_word in *. cbn [c_sign c_exponent c_mantissa] in *.
      assert (E4 : (w mod 2 ^ 23) mod 2 ^ d = w mod 2 ^ d).
      { assert (E5 : 2 ^ 23 = 2 ^ d * 2 ^ (23 - d)) by (rewrite <- Z.pow_add_r by lia; f_equal; lia).
        rewrite (Z.mod_eq w (2 ^ 23)) by lia. rewrite E5 at 1.
        replace (w - 2 ^ d * 2 ^ (23 - d) * (w / 2 ^ 23)) with (w + (- (2 ^ (23 - d) * (w / 2 ^ 23))) * 2 ^ d) by ring.
        apply Z.mod_add. lia. }
      lia.
Qed.

Lemma cleared w d : is_u32 w -> 0 <= d <= 23 ->
  is_u32 (w - w mod 2 ^ d) /\ bit_sign (w - w mod 2 ^ d) = bit_sign w /\
  bit_exp (w - w mod 2 ^ d) = bit_exp w /\ bit_mant (w - w mod 2 ^ d) = bit_mant w - bit_mant w mod 2 ^ d /\
  bit_mant w mod 2 ^ d = w mod 2 ^ d.
Proof.
  intros R Hd. unfold is_u32 in *. assert (Pd : 0 < 2 ^ d) by (apply Z.pow_pos_nonneg; lia).
  assert (E5 : 2 ^ 23 = 2 ^ d * 2 ^ (23 - d)) by (rewrite <- Z.pow_add_r by lia; f_equal; lia).
  assert (E4 : (w mod 2 ^ 23) mod 2 ^ d = w mod 2 ^ d).
  { rewrite (Z.mod_eq w (2 ^ 23)) by lia. rewrite E5 at 1.
    replace (w - 2 ^ d * 2 ^ (23 - d) * (w / 2 ^ 23)) with (w + (- (2 ^ (23 - d) * (w / 2 ^ 23))) * 2 ^ d) by ring.
    apply Z.mod_add. lia. }
  pose proof (Z.div_mod w (2 ^ 23) ltac:(lia)) as Ew. pose proof (Z.mod_pos_bound w (2 ^ 23) ltac:(lia)) as Bw.
  pose proof (Z.mod_pos_bound (w mod 2 ^ 23) (2 ^ d) Pd) as B1.
  pose proof (Z.mod_le (w mod 2 ^ 23) (2 ^ d) ltac:(lia) Pd) as L1.
  assert (Ed : (w - w mod 2 ^ d) / 2 ^ 23 = w / 2 ^ 23).
  { symmetry. apply Z.div_unique with (w mod 2 ^ 23 - w mod 2 ^ d); lia. }
  unfold bit_mant, bit_exp, bit_sign. rewrite E4, Ed. repeat split; try lia.
  symmetry. apply Z.mod_unique with (w / 2 ^ 23); lia.
Qed.
End Bits.
