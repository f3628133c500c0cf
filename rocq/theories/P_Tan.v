(** * The Taylor polynomial of the tangent against the tangent. *)

From Coq Require Import ZArith Reals Lia Lra Psatz.
From Coquelicot Require Import Coquelicot.
From Verif Require Import Base F32 Num M_FloatMath S_Biquad P_Butterworth.
Local Open Scope R_scope.

Definition dtan_poly (x : R) : R := 1 + 1 / 1 * x ^ 2 + 2 / 3 * x ^ 4 + 17 / 45 * x ^ 6 + 62 / 315 * x ^ 8 + 1382 / 14175 * x ^ 10 + 21844 / 467775 * x ^ 12 + 929569 / 42567525 * x ^ 14.

Lemma tan_poly_deriv x : derivable_pt_lim tan_poly x (dtan_poly x).
Proof. apply is_derive_Reals. unfold tan_poly, dtan_poly. auto_derive; [trivial|]. cbn [INR pred Init.Nat.pred]. field. Qed.

Lemma low_defect x : 1 + tan_poly x * tan_poly x - dtan_poly x =
  let z := x ^ 2 in x ^ 16 * (6404582 / 638512875 * z ^ 0 + 19328158 / 5746615875 * z ^ 1 + 33434188 / 28733079375 * z ^ 2 + 521443646 / 1327468267125 * z ^ 3 + 2535845252 / 19912024006875 * z ^ 4 + 16700628356 / 431427186815625 * z ^ 5 + 40611010472 / 3882844681340625 * z ^ 6 + 864098525761 / 407698691540765625 * z ^ 7).
Proof. unfold tan_poly, dtan_poly. cbv zeta. field. Qed.

Definition upper (x : R) : R := 6404582 / 10854718875 * x ^ 17 + 443861162 / 1856156927625 * x ^ 19 + 18888466084 / 194896477400625 * x ^ 21 + 739 / 10000000 * x ^ 23.
Definition dupper (x : R) : R := 6404582 / 638512875 * x ^ 16 + 443861162 / 97692469875 * x ^ 18 + 18888466084 / 9280784638125 * x ^ 20 + 16997 / 10000000 * x ^ 22.
Definition tan_up (x : R) : R := tan_poly x + upper x.

Lemma tan_up_deriv x : derivable_pt_lim tan_up x (dtan_poly x + dupper x).
Proof.
  apply (derivable_pt_lim_plus tan_poly upper); [apply tan_poly_deriv|].
  apply is_derive_Reals. unfold upper, dupper. auto_derive; [trivial|]. cbn [INR pred Init.Nat.pred]. field.
Qed.

Lemma up_defect x : dtan_poly x + dupper x - 1 - tan_up x * tan_up x =
  let z := x ^ 2 in x ^ 22 * (1606732806929191 / 2017751766030000000 - 24039509600270467 / 51452670033765000000 * z ^ 1 - 36886520495881519 / 222961570146315000000 * z ^ 2 - 6483707183783469491 / 105349341894133837500000 * z ^ 3 - 14419858559071366021 / 632096051364803025000000 * z ^ 4 - 126211632093323527 / 15049905984876262500000 * z ^ 5 - 81952865878680220789 / 26864082183004128562500000 * z ^ 6 - 926852631450193326523 / 846218588764630049718750000 * z ^ 7 - 373065108044762312562139 / 964689191191678256679375000000 * z ^ 8 - 193260961149744485310739 / 1447033786787517385019062500000 * z ^ 9 - 1359420740770928693081099 / 30387709522537865085400312500000 * z ^ 10 - 3489644109019 / 243620596750781250000 * z ^ 11 - 546121 / 100000000000000 * z ^ 12).
Proof. unfold tan_up, upper, dupper, tan_poly, dtan_poly. cbv zeta. field. Qed.

Lemma low_defect_pos x : 0 < x -> 0 < 1 + tan_poly x * tan_poly x - dtan_poly x.
Proof.
  intros H. rewrite low_defect. cbv zeta. assert (Z : 0 < x ^ 2) by (apply pow_lt; exact H).
  apply Rmult_lt_0_compat; [apply pow_lt; exact H|]. set (z := x ^ 2) in *. clearbody z.
  assert (P : forall n, 0 < z ^ n) by (intros; apply pow_lt; exact Z).
  pose proof (P 0%nat). pose proof (P 1%nat). pose proof (P 2%nat). pose proof (P 3%nat). pose proof (P 4%nat).
  pose proof (P 5%nat). pose proof (P 6%nat). pose proof (P 7%nat). lra.
Qed.

Lemma up_defect_nonneg x : 0 <= x <= 1 -> 0 <= dtan_poly x + dupper x - 1 - tan_up x * tan_up x.
Proof.
  intros H. rewrite up_defect. cbv zeta.
  apply Rmult_le_pos; [apply pow_le; tauto|].
  assert (Z : 0 <= x ^ 2 <= 1) by nra. set (z := x ^ 2) in *. clearbody z.
  assert (P : forall n, 0 <= z ^ n <= 1).
  { intros n. split; [apply pow_le; tauto|]. rewrite <- (pow1 n). apply pow_incr. exact Z. }
  pose proof (P 1%nat). pose proof (P 2%nat). pose proof (P 3%nat). pose proof (P 4%nat).
  pose proof (P 5%nat). pose proof (P 6%nat). pose proof (P 7%nat). pose proof (P 8%nat). pose proof (P 9%nat).
  pose proof (P 10%nat). pose proof (P 11%nat). pose proof (P 12%nat). lra.
Qed.

Lemma atan_gap (f f' : R -> R) x : 0 < x -> f 0 = 0 -> (forall c, derivable_pt_lim f c (f' c)) ->
  exists c, 0 < c < x /\ atan (f x) - x = (f' c - 1 - f c * f c) / (1 + f c * f c) * x.
Proof.
  intros Hx F0 D.
  destruct (MVT_cor2 (fun y => atan (f y) - y) (fun y => / (1 + (f y) ^ 2) * f' y - 1) 0 x Hx) as (c & E & Hc).
  - intros c _. apply (derivable_pt_lim_minus (fun y => atan (f y)) (fun y => y)); [|apply derivable_pt_lim_id].
    apply (derivable_pt_lim_comp f atan c (f' c) (/ (1 + (f c) ^ 2))); [apply D|apply derivable_pt_lim_atan].
  - exists c. split; [exact Hc|]. rewrite F0, atan_0 in E. 
    replace (atan (f x) - x) with (atan (f x) - x - (0 - 0)) by ring. rewrite E.
    assert (0 < 1 + f c * f c) by nra. field. lra.
Qed.

Lemma tan_poly_0 : tan_poly 0 = 0.
Proof. unfold tan_poly. field. Qed.

Lemma tan_poly_below x : 0 < x < PI / 2 -> tan_poly x < tan x.
Proof.
  intros H. destruct (atan_gap tan_poly dtan_poly x (proj1 H) tan_poly_0 tan_poly_deriv) as (c & Hc & E).
  pose proof (low_defect_pos c (proj1 Hc)) as P. set (t := tan_poly c) in *.
  assert (L : atan (tan_poly x) < x).
  { assert (0 < 1 + t * t) by nra. assert (0 < / (1 + t * t)) by now apply Rinv_0_lt_compat.
    assert (Q : (dtan_poly c - 1 - t * t) / (1 + t * t) * x < 0); [|lra]. unfold Rdiv.
    assert (0 < (1 + t * t - dtan_poly c) * / (1 + t * t)) by (apply Rmult_lt_0_compat; assumption). nra. }
  rewrite <- (tan_atan (tan_poly x)). pose proof (atan_bound (tan_poly x)). apply tan_increasing; lra.
Qed.

Lemma one_below_pi2 : 1 < PI / 2.
Proof. pose proof PI2_3_2. lra. Qed.

Lemma tan_up_above x : 0 < x <= 1 -> tan x <= tan_up x.
Proof.
  intros H. assert (T0 : tan_up 0 = 0) by (unfold tan_up, upper; rewrite tan_poly_0; field).
  destruct (atan_gap tan_up (fun y => dtan_poly y + dupper y) x (proj1 H) T0 tan_up_deriv) as (c & Hc & E).
  pose proof (up_defect_nonneg c ltac:(lra)) as P. set (t := tan_up c) in *.
  assert (L : x <= atan (tan_up x)).
  { assert (0 < 1 + t * t) by nra. assert (0 < / (1 + t * t)) by now apply Rinv_0_lt_compat.
    assert (Q : 0 <= (dtan_poly c + dupper c - 1 - t * t) / (1 + t * t) * x); [|lra]. unfold Rdiv.
    assert (0 <= (dtan_poly c + dupper c - 1 - t * t) * / (1 + t * t)) by (apply Rmult_le_pos; lra). nra. }
  rewrite <- (tan_atan (tan_up x)). pose proof (atan_bound (tan_up x)). pose proof one_below_pi2.
  destruct L as [L|L]; [left; apply tan_increasing; lra|right; now rewrite <- L].
Qed.

Lemma upper_small x : 0 <= x <= 1 -> upper x <= x ^ 17 / 1000.
Proof.
  intros H. unfold upper. assert (P : 0 <= x ^ 17) by (apply pow_le; tauto). assert (Z : 0 <= x ^ 2 <= 1) by nra.
  replace (x ^ 19) with (x ^ 17 * x ^ 2) by ring. replace (x ^ 21) with (x ^ 17 * (x ^ 2) ^ 2) by ring.
  replace (x ^ 23) with (x ^ 17 * (x ^ 2) ^ 3) by ring. set (y := x ^ 17) in *. set (z := x ^ 2) in *. clearbody y z.
  assert (0 <= z ^ 2 <= 1) by nra. assert (0 <= z ^ 3 <= 1) by nra.
  assert (y * z <= y) by nra. assert (y * z ^ 2 <= y) by nra. assert (y * z ^ 3 <= y) by nra. lra.
Qed.

Lemma odd_pow_lt x y n : x < y -> x ^ (2 * n + 1) < y ^ (2 * n + 1).
Proof.
  intros H. assert (E : forall a, a ^ (2 * n + 1) = a * (a * a) ^ n).
  { intros a. rewrite pow_add, pow_mult, pow_1. replace (a ^ 2) with (a * a) by ring. ring. }
  assert (M : forall a b, 0 <= a -> a < b -> a ^ (2 * n + 1) < b ^ (2 * n + 1)).
  { intros a b Ha Hb. 
    rewrite !E. assert (P : (a * a) ^ n <= (b * b) ^ n) by (apply pow_incr; nra). assert (0 < (b * b) ^ n) by (apply pow_lt; nra). nra. }
  destruct (Rle_lt_dec 0 x) as [Hx|Hx]; [now apply M|]. destruct (Rle_lt_dec y 0) as [Hy|Hy].
  - specialize (M (- y) (- x) ltac:(lra) ltac:(lra)). rewrite !E in *.
    replace (- y * - y) with (y * y) in M by ring. replace (- x * - x) with (x * x) in M by ring. lra.
  - rewrite !E. assert (0 < (x * x) ^ n) by (apply pow_lt; nra). assert (0 < (y * y) ^ n) by (apply pow_lt; nra). nra.
Qed.

Lemma tan_poly_incr x y : x < y -> tan_poly x < tan_poly y.
Proof.
  intros H. unfold tan_poly. pose proof (odd_pow_lt x y 1 H). pose proof (odd_pow_lt x y 2 H). pose proof (odd_pow_lt x y 3 H).
  pose proof (odd_pow_lt x y 4 H). pose proof (odd_pow_lt x y 5 H). pose proof (odd_pow_lt x y 6 H). pose proof (odd_pow_lt x y 7 H).
  change (2 * 1 + 1)%nat with 3%nat in *. change (2 * 2 + 1)%nat with 5%nat in *. change (2 * 3 + 1)%nat with 7%nat in *.
  change (2 * 4 + 1)%nat with 9%nat in *. change (2 * 5 + 1)%nat with 11%nat in *. change (2 * 6 + 1)%nat with 13%nat in *.
  change (2 * 7 + 1)%nat with 15%nat in *. lra.
Qed.
