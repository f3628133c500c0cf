(** * Theorems: how fast a biquad dies away once its input stops (C117). *)

From Coq Require Import ZArith List Reals Lia Lra Psatz.
From Flocq Require Import Core.
From Verif Require Import Base F32 F32Lemmas F32Range Num M_FloatMath M_Biquad S_Biquad S_BiquadF32 S_RingDown P_DelayNum P_Biquad P_Butterworth P_BiquadMore P_BiquadF32 P_EndToEnd P_Decay P_RingDown T_Biquad T_BiquadF32.
Import ListNotations.
Local Open Scope R_scope.

(** Whatever a filter holds when its input stops: if its poles lie within [r], every later pair of
    outputs is within [r] per sample of the first pair, up to the fixed factor [swing]. *)
Theorem C117_ring_down : forall (b : biquad R) (r : R) (n : nat),
  0 < r -> poles_within r (bq_coeffs b) ->
  let y := response b (fun _ => 0) in
  y (S n) * y (S n) + r * r * (y n * y n) <=
    swing r (bq_coeffs b) * ((r * r) ^ n * (y 1%nat * y 1%nat + r * r * (y 0%nat * y 0%nat))).
Proof.
  intros b r n Hr Hp y. destruct (within_coeffs r _ Hr Hp) as [H1 H2].
  exact (free_falls y (a1 (bq_coeffs b)) (a2 (bq_coeffs b)) (silent_rec b) r Hr H1 H2 n).
Qed.
Print Assumptions C117_ring_down.

(** The rate is exact: the energy of two successive outputs falls by the factor a2, the squared
    distance of a complex pair of poles, at every sample. *)
Theorem C117_energy : forall (b : biquad R) (n : nat),
  let c := bq_coeffs b in let y := response b (fun _ => 0) in
  held_energy c (y (S n)) (y n) = a2 c ^ n * held_energy c (y 1%nat) (y 0%nat).
Proof. intros b n c y. exact (energy_all y (a1 c) (a2 c) (silent_rec b) n). Qed.
Print Assumptions C117_energy.

(** A resonant filter (complex poles) therefore stays between two multiples of sqrt(a2)^n: each
    output is below, and of two successive outputs one is above. *)
Theorem C117_resonant : forall (b : biquad R) (n : nat),
  let c := bq_coeffs b in let y := response b (fun _ => 0) in
  a1 c * a1 c < 4 * a2 c ->
  (4 * a2 c - a1 c * a1 c) * (y (S n) * y (S n)) <= 4 * a2 c * (a2 c ^ n * held_energy c (y 1%nat) (y 0%nat)) /\
  a2 c ^ n * held_energy c (y 1%nat) (y 0%nat) <= (1 + Rabs (a1 c) + a2 c) * Rmax (y (S n) * y (S n)) (y n * y n) /\
  (y 1%nat <> 0 \/ y 0%nat <> 0 -> 0 < held_energy c (y 1%nat) (y 0%nat)).
Proof.
  intros b n c y H. pose proof (C117_energy b n) as E. cbv zeta in E. fold c y in E. rewrite <- E. unfold held_energy.
  set (u := y (S n)). set (v := y n). set (p := a1 c) in *. set (q := a2 c) in *. clearbody u v.
  assert (PQ : 0 < q) by (pose proof (Rle_0_sqr p); unfold Rsqr in *; lra).
  split; [|split].
  - pose proof (Rle_0_sqr (p * u + 2 * q * v)) as S. unfold Rsqr in S.
    replace (4 * q * (u * u + p * (u * v) + q * (v * v))) with ((p * u + 2 * q * v) * (p * u + 2 * q * v) + (4 * q - p * p) * (u * u)) by ring. lra.
  - pose proof (Rmax_l (u * u) (v * v)) as M1. pose proof (Rmax_r (u * u) (v * v)) as M2. set (m := Rmax _ _) in *. clearbody m.
    assert (C : p * (u * v) <= Rabs p * m).
    { eapply Rle_trans; [apply Rle_abs|]. rewrite Rabs_mult. apply Rmult_le_compat_l; [apply Rabs_pos|]. apply Rabs_le.
      pose proof (Rle_0_sqr (u - v)). pose proof (Rle_0_sqr (u + v)). unfold Rsqr in *. split; nra. }
    assert (q * (v * v) <= q * m) by (apply Rmult_le_compat_l; lra). lra.
  - intros N. set (u1 := y 1%nat) in *. set (v1 := y 0%nat) in *. clearbody u1 v1.
    assert (I : 4 * q * (u1 * u1 + p * (u1 * v1) + q * (v1 * v1)) = (p * u1 + 2 * q * v1) * (p * u1 + 2 * q * v1) + (4 * q - p * p) * (u1 * u1)) by ring.
    assert (P : 0 < (p * u1 + 2 * q * v1) * (p * u1 + 2 * q * v1) + (4 * q - p * p) * (u1 * u1)).
    { destruct (Req_dec u1 0) as [Z|Z].
      - rewrite Z. destruct N as [N|N]; [contradiction|]. assert (0 < v1 * v1) by (destruct (Rtotal_order v1 0) as [?|[?|?]]; nra).
        replace ((p * 0 + 2 * q * v1) * (p * 0 + 2 * q * v1) + (4 * q - p * p) * (0 * 0)) with (4 * (q * q) * (v1 * v1)) by ring. apply Rmult_lt_0_compat; nra.
      - assert (0 < u1 * u1) by (destruct (Rtotal_order u1 0) as [?|[?|?]]; nra). assert (0 < (4 * q - p * p) * (u1 * u1)) by (apply Rmult_lt_0_compat; lra).
        pose proof (Rle_0_sqr (p * u1 + 2 * q * v1)). unfold Rsqr in *. lra. }
    apply Rmult_lt_reg_l with (4 * q); [lra|]. rewrite Rmult_0_r. rewrite I. exact P.
Qed.
Print Assumptions C117_resonant.

(** Every design with a quality above 1/2 is resonant, and its rate follows from cut-off and
    quality alone. *)
Theorem C117_designs : forall (MO : MathOps R) fc q sr gain (c : coeffs R),
  exact_powi MO -> exact_sqrt MO -> 0 < fc -> 1 / 2 < q -> 0 < sr -> 0 <= gain ->
  In c [lowpass fc q sr; highpass fc q sr; allpass fc q sr; notch fc q sr; bell fc q gain sr; low_shelf fc q gain sr] ->
  let k := design_k fc sr in
  a1 c * a1 c < 4 * a2 c /\ a2 c = (1 - k / q + k * k) / (1 + k / q + k * k) /\ 0 < a2 c < 1.
Proof.
  intros MO fc q sr gain c Hp Hs H1 H2 H3 Hg Hc k.
  assert (Pk : 0 < k) by (apply design_k_pos; assumption). assert (Ps : 0 < k / q) by (apply Rdiv_lt_0_compat; lra). assert (PG : 0 < k * k) by nra.
  assert (Q : (k / q) * (k / q) < 4 * (k * k)).
  { assert (k / q < 2 * k) by (apply Rmult_lt_reg_r with q; [lra|]; replace (k / q * q) with k by (field; lra); nra). nra. }
  assert (A : a1 c = 2 * (k * k - 1) / (1 + k / q + k * k) /\ a2 c = (1 - k / q + k * k) / (1 + k / q + k * k)).
  { assert (Hq : 0 < q) by lra. cbn [In] in Hc. destruct Hc as [<-|[<-|[<-|[<-|[<-|[<-|[]]]]]]].
    - rewrite (lowpass_form MO Hp fc q sr H1 Hq H3). split; reflexivity.
    - rewrite (highpass_form MO Hp fc q sr H1 Hq H3). split; reflexivity.
    - rewrite (allpass_form MO Hp fc q sr H1 Hq H3). split; reflexivity.
    - rewrite (notch_form MO Hp fc q sr H1 Hq H3). split; reflexivity.
    - rewrite bell_pos by assumption. rewrite (bell_boost_form MO Hp fc q sr H1 Hq H3). split; reflexivity.
    - rewrite low_shelf_pos by assumption. rewrite (low_shelf_boost_form MO Hp Hs fc q sr H1 Hq H3) by assumption. split; reflexivity. }
  destruct A as [A1 A2]. pose proof (shape_resonant (k / q) (k * k) Ps PG Q) as R1. rewrite <- A1, <- A2 in R1.
  split; [exact R1|]. split; [exact A2|]. split; [pose proof (Rle_0_sqr (a1 c)); unfold Rsqr in *; lra|].
  rewrite A2. apply Rmult_lt_reg_r with (1 + k / q + k * k); [lra|]. unfold Rdiv at 1. rewrite Rmult_assoc, Rinv_l by lra. lra.
Qed.
Print Assumptions C117_designs.

(** From the level of the input: after inputs within [M] the output is within
    sqrt (swing (1 + r^2)) G B M, [G] being the ringing and [B] the weight of the forward
    coefficients, and then falls by [r] every sample. *)
Theorem C117_level : forall (c : coeffs R) (x : nat -> R) (G M r : R) (N n : nat),
  0 < r -> poles_within r c -> ringing c G -> 0 <= M ->
  (forall i, Rabs (x i) <= M) -> (forall i, (N <= i)%nat -> x i = 0) ->
  Rabs (response (bq_new c) x (N + S n)) <= sqrt (swing r c * (1 + r * r)) * (G * (forward_weight c * M)) * r ^ n.
Proof.
  intros c x G M r N n Hr Hp HG HM Hx HN. set (L := G * (forward_weight c * M)).
  assert (SZ : forall i, Rabs (response (bq_new c) x i) <= L).
  { intros i. unfold L. replace (G * (forward_weight c * M)) with (forward_weight c * M * G) by ring. apply output_size; assumption. }
  set (b := after (bq_new c) x N). assert (CB : bq_coeffs b = c) by (unfold b; now rewrite after_coeffs).
  assert (Sh : forall i, response (bq_new c) x (N + i) = response b (fun _ => 0) i).
  { intros i. rewrite response_shift. unfold response. rewrite HN by lia. f_equal. f_equal. apply after_ext. intros k _. apply HN. lia. }
  pose proof (C117_ring_down b r n Hr) as RD. rewrite CB in RD. specialize (RD Hp). cbv zeta in RD.
  destruct (within_coeffs r c Hr Hp) as [W1 W2].
  assert (PS : 0 <= swing r c).
  { unfold swing. pose proof (Rabs_pos (a1 c)). assert (0 <= Rabs (a1 c) * r) by (apply Rmult_le_pos; lra). apply Rmult_le_pos; [lra|left; apply Rinv_0_lt_compat; lra]. }
  assert (PL : 0 <= L) by (eapply Rle_trans; [apply Rabs_pos|apply (SZ 0%nat)]).
  rewrite Sh. set (y := response b (fun _ => 0)) in *.
  assert (Y0 : y 0%nat * y 0%nat <= L * L).
  { pose proof (SZ (N + 0)%nat) as Q. rewrite Sh in Q. fold y in Q. apply Rsqr_le_abs_1. now rewrite (Rabs_pos_eq L). }
  assert (Y1 : y 1%nat * y 1%nat <= L * L).
  { pose proof (SZ (N + 1)%nat) as Q. rewrite Sh in Q. fold y in Q. apply Rsqr_le_abs_1. now rewrite (Rabs_pos_eq L). }
  assert (RR : 0 < r * r) by nra.
  assert (B1 : y (S n) * y (S n) <= swing r c * ((r * r) ^ n * ((1 + r * r) * (L * L)))).
  { apply Rle_trans with (y (S n) * y (S n) + r * r * (y n * y n)); [pose proof (Rle_0_sqr (y n)); unfold Rsqr in *; nra|]. eapply Rle_trans; [exact RD|].
    apply Rmult_le_compat_l; [exact PS|]. apply Rmult_le_compat_l; [apply pow_le; lra|].
    assert (r * r * (y 0%nat * y 0%nat) <= r * r * (L * L)) by (apply Rmult_le_compat_l; lra). lra. }
  apply sq_le_abs in B1. eapply Rle_trans; [exact B1|]. right.
  replace (swing r c * ((r * r) ^ n * ((1 + r * r) * (L * L)))) with (swing r c * (1 + r * r) * ((L * r ^ n) * (L * r ^ n))) by (rewrite Rpow_mult_distr; ring).
  rewrite sqrt_mult_alt by (apply Rmult_le_pos; lra). rewrite sqrt_square by (apply Rmult_le_pos; [exact PL|apply pow_le; lra]). ring.
Qed.
Print Assumptions C117_level.

(** The same filter in f32: the same fall, down to the accuracy of the arithmetic (C95). *)
Theorem C117_f32_ring_down : forall (NP : NanPolicy) (c : coeffs f32) (x : nat -> f32) (G M r : R) (N n : nat),
  let e := exact_coeffs c in let L := G * (forward_weight e * M) in
  finite_coeffs c -> ringing e G -> feedback_weight e * G <= 524288 -> pow2 (-90) <= forward_weight e * M <= pow2 60 -> 0 <= M ->
  0 < r -> poles_within r e ->
  (forall i, fin (x i) = true /\ Rabs (val (x i)) <= M) -> (forall i, (N <= i)%nat -> val (x i) = 0) ->
  fin (response (bq_new c) x (N + S n)) = true /\
  Rabs (val (response (bq_new c) x (N + S n))) <= sqrt (swing r e * (1 + r * r)) * L * r ^ n + feedback_weight e * G * L / 500000.
Proof.
  intros NP c x G M r N n e L Fc HG HA HM PM Hr Hp Hx HN.
  destruct (C95_biquad_tracks NP c G M x Fc HG HA HM Hx (N + S n)) as (F & D & _). split; [exact F|].
  pose proof (C117_level e (fun k => val (x k)) G M r N n Hr Hp HG PM (fun i => proj2 (Hx i)) HN) as Y. fold L in Y. fold e in D.
  change (G * (forward_weight e * M)) with L in D.
  set (u := val (response (bq_new c) x (N + S n))) in *. set (v := response (bq_new e) _ _) in *.
  replace u with ((u - v) + v) by ring. eapply Rle_trans; [apply Rabs_triang|]. lra.
Qed.
Print Assumptions C117_f32_ring_down.

(** The low-pass of [C95_met] rings by less than 130 and has its poles within 15/16 of 0: its
    tail falls by 15/16 every sample, to 1/1000 in 112 samples. *)
Example C117_met (NP : NanPolicy) :
  let c := BC (lit 1 (-8)) (lit 2 (-8)) (lit 1 (-8)) (lit (-1859) (-10)) (lit 851 (-10)) in
  poles_within (15 / 16) (exact_coeffs c).
Proof.
  cbv zeta. unfold poles_within, exact_coeffs. cbn [a1 a2].
  rewrite (proj2 (lit_exact (-1859) (-10) ltac:(lia) ltac:(lia))), (proj2 (lit_exact 851 (-10) ltac:(lia) ltac:(lia))).
  change (pow2 (-10)) with (/ 1024). intros u v E1 E2. destruct (Req_dec v 0) as [->|Nv].
  - exfalso. pose proof (Rle_0_sqr (u - 1859 / 2048)). unfold Rsqr in *. lra.
  - assert (E : u = 1859 / 2048) by (apply Rmult_eq_reg_r with v; [lra|exact Nv]). rewrite E in *. lra.
Qed.

(** Ten samples at full level, then silence, through that filter. *)
Example C117_f32_met (NP : NanPolicy) (n : nat) :
  let c := BC (lit 1 (-8)) (lit 2 (-8)) (lit 1 (-8)) (lit (-1859) (-10)) (lit 851 (-10)) in
  let e := exact_coeffs c in let L := 130 * (forward_weight e * 1) in let r := 15 / 16 in
  let x := fun i => if (i <? 10)%nat then of_int 1 else of_int 0 in
  fin (response (bq_new c) x (10 + S n)) = true /\
  Rabs (val (response (bq_new c) x (10 + S n))) <= sqrt (swing r e * (1 + r * r)) * L * r ^ n + feedback_weight e * 130 * L / 500000.
Proof.
  intros c e L r x. destruct (C95_met NP) as (Fc & HG & HA & HM). fold c in Fc, HG, HA, HM. fold e in HG, HA, HM.
  destruct (of_int_exact 0 ltac:(lia)) as [F0 V0]. destruct (of_int_exact 1 ltac:(lia)) as [F1 V1].
  apply (C117_f32_ring_down NP c x 130 1 r 10 n Fc HG HA HM); [lra|unfold r; lra|exact (C117_met NP)| |].
  - intros i. unfold x. destruct (i <? 10)%nat; [split; [exact F1|rewrite V1, Rabs_R1; lra]|split; [exact F0|rewrite V0, Rabs_R0; lra]].
  - intros i Hi. unfold x. destruct (Nat.ltb_spec i 10); [lia|exact V0].
Qed.

(** A low-pass at 1 kHz with quality 1 is such a design. *)
Example C117_designs_met : a1 (@lowpass R num_R powi_math 1000 1 48000) * a1 (@lowpass R num_R powi_math 1000 1 48000) < 4 * a2 (@lowpass R num_R powi_math 1000 1 48000).
Proof. apply (C117_designs powi_math 1000 1 48000 0); try lra; [apply powi_math_exact|apply powi_math_sqrt|now left]. Qed.
