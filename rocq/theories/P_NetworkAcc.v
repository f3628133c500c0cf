(** * Lemmas for C111: accuracy of f32 networks. *)

From Coq Require Import ZArith List Bool Reals Lia Lra Psatz.
From Flocq Require Import Core.
From Verif Require Import Base F32 F32Lemmas F32Exact F32Range Num M_Memory M_Delay M_Biquad S_Memory S_Delay S_Biquad S_BiquadF32 S_Comb S_Network S_NetworkF32 S_NetworkLin S_NetworkAcc
  P_Delay P_DelayNum P_Comb P_Biquad P_BiquadF32 P_EndToEnd P_NetworkLin T_BiquadF32 T_Network.
Import ListNotations.
Local Open Scope R_scope.

Lemma close_refl D : 0 <= D -> forall l, close D l l.
Proof. intros H. induction l; constructor; auto. now rewrite Rminus_eq_0, Rabs_R0. Qed.
Lemma close_trans D1 D2 : forall u v w, close D1 u v -> close D2 v w -> close (D1 + D2) u w.
Proof.
  intros u v w H. revert w. induction H as [|a b u v H1 _ IH]; intros w K; inversion K; subst; constructor; [|apply IH; assumption].
  match goal with |- Rabs (a - ?c) <= _ => replace (a - c) with ((a - b) + (b - c)) by ring end.
  eapply Rle_trans; [apply Rabs_triang|]. lra.
Qed.
Lemma close_le D1 D2 u v : D1 <= D2 -> close D1 u v -> close D2 u v.
Proof. intros H. induction 1; constructor; auto. lra. Qed.
Lemma close_length D u v : close D u v -> length u = length v.
Proof. induction 1; cbn; congruence. Qed.
Lemma close_nth D u v : 0 <= D -> close D u v -> forall m, Rabs (nth m u 0 - nth m v 0) <= D.
Proof. intros P H. induction H as [|a b u v H1 _ IH]; intros [|m]; cbn [nth]; auto; rewrite Rminus_eq_0, Rabs_R0; exact P. Qed.
Lemma close_app D u v u' v' : close D u v -> close D u' v' -> close D (u ++ u') (v ++ v').
Proof. apply Forall2_app. Qed.

(** ** Enlarging an error *)
Lemma delay_lip D l : 0 <= D -> forall u v, close D u v -> close D (firstn (length u) (l ++ u)) (firstn (length v) (l ++ v)).
Proof.
  intros P u v H. rewrite (close_length _ _ _ H). assert (K : close D (l ++ u) (l ++ v)) by (apply close_app; [now apply close_refl|exact H]).
  revert K. generalize (l ++ u), (l ++ v). clear H. generalize (length v). induction n as [|n IH]; intros x y K; cbn [firstn]; [constructor|].
  inversion K; subst; constructor; [assumption|]. apply IH. assumption.
Qed.

Lemma comb_lip D K f damp fb : 0 <= D -> D <= K * (1 - f) -> 0 <= damp <= 1 -> Rabs fb <= f -> f < 1 -> forall u v d d' m s s', close D u v -> close K d d' -> Rabs (s - s') <= K ->
  close K (combR d m s damp fb (map CTick u)) (combR d' m s' damp fb (map CTick v)).
Proof.
  intros P HK Hd Hf Hf1. assert (PK : 0 <= K). { destruct (Rle_or_lt 0 K); [assumption|]. nra. }
  intros u v d d' m s s' H. revert d d' m s s'. induction H as [|a b u v H1 _ IH]; intros d d' m s s' Cd Cs; cbn [map comb_spec]; [constructor|].
  rewrite nint_0. pose proof (close_nth K d d' PK Cd m) as Cy. cbv zeta. constructor; [exact Cy|].
  set (y := nth m d 0) in *. set (y' := nth m d' 0) in *. replace (nint 1 : R) with 1 by (now rewrite nint_R). cbn [nadd nsub nmul num_R].
  assert (S : Rabs ((y * (1 - damp) + s * damp) - (y' * (1 - damp) + s' * damp)) <= K).
  { replace ((y * (1 - damp) + s * damp) - (y' * (1 - damp) + s' * damp)) with ((y - y') * (1 - damp) + (s - s') * damp) by ring.
    eapply Rle_trans; [apply Rabs_triang|]. rewrite !Rabs_mult, (Rabs_pos_eq damp), (Rabs_pos_eq (1 - damp)) by lra. nra. }
  apply IH; [|exact S]. apply close_app; [exact Cd|]. constructor; [|constructor].
  set (t := y * (1 - damp) + s * damp) in *. set (t' := y' * (1 - damp) + s' * damp) in *.
  replace (a + t * fb - (b + t' * fb)) with ((a - b) + (t - t') * fb) by ring. eapply Rle_trans; [apply Rabs_triang|]. rewrite Rabs_mult.
  assert (Rabs (t - t') * Rabs fb <= K * f) by (apply Rmult_le_compat; auto using Rabs_pos). lra.
Qed.

Lemma pass_lip D : 0 <= D -> forall u v d d' m, close D u v -> close (2 * D) d d' -> close (3 * D) (apR d m u) (apR d' m v).
Proof.
  intros P u v d d' m H. revert d d' m. induction H as [|a b u v H1 _ IH]; intros d d' m Cd; cbn [ap_spec]; [constructor|].
  rewrite nint_0. pose proof (close_nth (2 * D) d d' ltac:(lra) Cd m) as Cy. cbv zeta. set (y := nth m d 0) in *. set (y' := nth m d' 0) in *. cbn [nadd nneg nmul num_R].
  constructor.
  - replace (- a + y - (- b + y')) with ((b - a) + (y - y')) by ring. eapply Rle_trans; [apply Rabs_triang|]. rewrite (Rabs_minus_sym b a). lra.
  - apply IH. apply close_app; [exact Cd|]. constructor; [|constructor].
    assert (E : (ndy 1 (-1) : R) = / 2) by (cbn; lra). rewrite E.
    replace (a + y * / 2 - (b + y' * / 2)) with ((a - b) + (y - y') * / 2) by ring. eapply Rle_trans; [apply Rabs_triang|]. rewrite Rabs_mult, (Rabs_pos_eq (/ 2)) by lra. lra.
Qed.

Lemma filtered_map {F} {NF : Num F} (b : biquad F) : forall xs x0, filtered b xs = map (response b (fun n => nth n xs x0)) (seq 0 (length xs)).
Proof.
  intros xs x0. set (f := fun n => nth n xs x0).
  assert (H : forall ys k, (forall i, nth i ys x0 = f (k + i)%nat) -> filtered (after b f k) ys = map (response b f) (seq k (length ys))).
  { induction ys as [|y ys IH]; intros k Hk; cbn [filtered length seq map]; [reflexivity|].
    assert (E : y = f k) by (specialize (Hk 0%nat); cbn in Hk; now rewrite Nat.add_0_r in Hk). subst y. f_equal.
    change (fst (bq_process (after b f k) (f k))) with (after b f (S k)). apply IH. intros i. specialize (Hk (S i)). cbn [nth] in Hk. rewrite Hk. f_equal. lia. }
  apply (H xs 0%nat). reflexivity.
Qed.

Lemma close_blend D : forall u v, close D u v -> Forall (fun x => Rabs x <= D) (blend 1 u (-1) v).
Proof. induction 1; cbn [blend]; constructor; auto. match goal with H : Rabs (?a - ?b) <= _ |- _ => replace (1 * a + -1 * b) with (a - b) by ring; exact H end. Qed.
Lemma blend_close D : forall u v, length u = length v -> Forall (fun x => Rabs x <= D) (blend 1 u (-1) v) -> close D u v.
Proof.
  induction u as [|a u IH]; intros [|b v] E H; cbn in E; try discriminate; constructor; cbn [blend] in H; inversion H; subst.
  - replace (a - b) with (1 * a + -1 * b) by ring. assumption.
  - apply IH; auto.
Qed.

Lemma filter_lip (c : coeffs R) G D : ringing c G -> 0 <= D -> forall u v, close D u v -> close (forward_weight c * G * D) (filtered (bq_new c) u) (filtered (bq_new c) v).
Proof.
  intros HG P u v H. apply blend_close; [rewrite !filtered_len; now apply close_length in H|].
  rewrite <- (lti_lin _ (filtered_lti c)) by now apply close_length in H.
  pose proof (close_blend D u v H) as K. set (w := blend 1 u (-1) v) in *. rewrite (filtered_map _ w 0).
  apply Forall_forall. intros y Hy. apply in_map_iff in Hy. destruct Hy as (n & <- & _).
  replace (forward_weight c * G * D) with (forward_weight c * D * G) by ring. apply output_size; [exact HG|exact P|].
  intros k. destruct (Nat.lt_ge_cases k (length w)) as [L|L]; [rewrite Forall_forall in K; exact (K _ (nth_In w 0 L))|]. rewrite nth_overflow by exact L. rewrite Rabs_R0. exact P.
Qed.

(** ** Adding an error *)
Section Acc.
Context {NP : NanPolicy}.

Lemma ringing_pos c G : ringing c G -> 0 <= G.
Proof. intros H. pose proof (ringing_1 c G H). lra. Qed.
Lemma forward_pos c : 0 <= forward_weight c.
Proof. unfold forward_weight. pose proof (Rabs_pos (b0 c)). pose proof (Rabs_pos (b1 c)). pose proof (Rabs_pos (b2 c)). lra. Qed.

Lemma round_mid x e : mid e -> Rabs x <= pow2 e -> Rabs (rnd x - x) <= pow2 (e - 23).
Proof.
  intros He Hx. eapply Rle_trans; [apply rnd_err|]. assert (E : pow2 (e - 23) = pow2 e * pow2 (-24) + pow2 (e - 24)).
  { replace (e - 24)%Z with (e + -24)%Z by lia. replace (e - 23)%Z with (1 + (e + -24))%Z by lia. rewrite !bpow_plus. cbn [bpow]. change (Z.pow_pos radix2 1) with 2%Z. lra. }
  rewrite E. assert (pow2 (-150) <= pow2 (e - 24)) by (apply bpow_le; unfold mid in He; lia). pose proof (bpow_ge_0 radix2 (-24)). nra.
Qed.

Lemma acc_pos p e E G : accuracy p e E G -> 0 <= E /\ 0 <= G.
Proof.
  induction 1 as [l e|l damp fb e j|l e|c e G Fc HG HA HB|g e k|p q e e1 E1 G1 E2 G2 L A1 [I1 J1] A2 [I2 J2]|p q e e1 E1 G1 E2 G2 M L1 L2 A1 [I1 J1] A2 [I2 J2]];
    try (split; [|try apply bpow_ge_0; try lra]); try apply bpow_ge_0; try lra; try (apply Rmult_le_pos; [apply bpow_ge_0|lra]).
  - pose proof (ringing_pos _ _ HG). pose proof (forward_pos (exact_coeffs c)). assert (0 <= feedback_weight (exact_coeffs c)) by (unfold feedback_weight; pose proof (Rabs_pos (a1 (exact_coeffs c))); pose proof (Rabs_pos (a2 (exact_coeffs c))); lra).
    apply Rmult_le_pos; [|lra]. repeat apply Rmult_le_pos; auto using bpow_ge_0.
  - apply Rmult_le_pos; [apply forward_pos|now apply ringing_pos in HG].
  - apply Rplus_le_le_0_compat; [assumption|]. now apply Rmult_le_pos.
  - now apply Rmult_le_pos.
  - pose proof (bpow_ge_0 radix2 (e1 - 22)). lra.
Qed.

Lemma acc_lip p e E G : accuracy p e E G -> forall D u v, 0 <= D -> close D u v -> close (G * D) (signal (exact_plan p) u) (signal (exact_plan p) v).
Proof.
  induction 1 as [l e|l damp fb e j Hj He He' Ne Hl Hd Hf|l e Ne He Hl|c e G Fc HG HA HB|g e k He Fg Hg|p q e e1 E1 G1 E2 G2 L A1 I1 A2 I2|p q e e1 E1 G1 E2 G2 M L1 L2 A1 I1 A2 I2]; intros D u v P H; cbn [exact_plan signal].
  - rewrite Rmult_1_l. now apply delay_lip.
  - rewrite nint_0. assert (PJ := bpow_gt_0 radix2 j). destruct Hd as [_ Hd]. destruct Hf as [_ Hf].
    assert (PD : 0 <= pow2 j * D) by (apply Rmult_le_pos; lra).
    apply comb_lip with D (1 - pow2 (- j)); auto; try lra.
    + replace (pow2 j * D * (1 - (1 - pow2 (- j)))) with (pow2 j * pow2 (- j) * D) by ring. rewrite <- bpow_plus. replace (j + - j)%Z with 0%Z by lia. cbn. lra.
    + assert (0 < pow2 (- j)) by apply bpow_gt_0. lra.
    + now apply close_refl.
    + now rewrite Rminus_eq_0, Rabs_R0.
  - apply pass_lip; auto. apply close_refl. lra.
  - now apply filter_lip.
  - clear - P H Hg. induction H as [|a b u v H1 _ IH]; cbn [map]; constructor; [|exact IH]. cbn [nmul num_R].
    replace (a * val g - b * val g) with (val g * (a - b)) by ring. rewrite Rabs_mult. apply Rmult_le_compat; auto using Rabs_pos.
  - rewrite Rmult_assoc. apply I2; [|now apply I1]. apply Rmult_le_pos; [|exact P]. now apply acc_pos in A1.
  - specialize (I1 D u v P H). specialize (I2 D u v P H). rewrite !added_blend. rewrite Rmult_plus_distr_r. revert I1 I2.
    generalize (signal (exact_plan p) u), (signal (exact_plan p) v), (signal (exact_plan q) u), (signal (exact_plan q) v). clear.
    induction l as [|a l IH]; intros l1 l2 l3 K1 K2; inversion K1; subst; cbn [blend]; [destruct l3; constructor|]. inversion K2; subst; cbn [blend]; constructor; [|apply IH; assumption].
    match goal with |- Rabs (1 * ?a + 1 * ?b - (1 * ?c + 1 * ?d)) <= _ => replace (1 * a + 1 * b - (1 * c + 1 * d)) with ((a - c) + (b - d)) by ring end.
    eapply Rle_trans; [apply Rabs_triang|]. lra.
Qed.

Lemma Forall2_val (P : f32 -> R -> Prop) D ys zs : (forall y z, P y z -> Rabs (val y - z) <= D) -> Forall2 P ys zs -> close D (map val ys) zs.
Proof. intros H. induction 1; cbn [map]; constructor; auto. Qed.

Lemma acc_sound p e E G : accuracy p e E G -> forall xs, Forall (bounded (pow2 e)) xs -> close E (map val (signal p xs)) (signal (exact_plan p) (map val xs)).
Proof.
  induction 1 as [l e|l damp fb e j Hj He He' Ne Hl Hd Hf|l e Ne He Hl|c e G Fc HG HA HB|g e k He Fg Hg|p q e e1 E1 G1 E2 G2 L A1 I1 A2 I2|p q e e1 E1 G1 E2 G2 M L1 L2 A1 I1 A2 I2]; intros xs Hx; cbn [exact_plan signal].
  - rewrite map_length, <- map_app, firstn_map. apply close_refl. lra.
  - set (f := 1 - pow2 (- j)) in *. set (K := pow2 (e + j + 1)) in *. set (M := pow2 e).
    assert (Pj : pow2 (-10) <= pow2 (- j) <= pow2 (-1)) by (split; apply bpow_le; lia).
    replace (pow2 (-10)) with (/ 1024) in Pj by (cbn; lra). replace (pow2 (-1)) with (/ 2) in Pj by (cbn; lra).
    assert (HK : pow2 (-90) <= K <= pow2 100) by (unfold mid in *; split; apply bpow_le; lia).
    assert (Hf1 : 0 <= f <= 1023 / 1024) by (unfold f; lra).
    assert (M0 : 0 < M) by apply bpow_gt_0.
    assert (EK : K * (1 - f) = 2 * M). { unfold K, f, M. replace (1 - (1 - pow2 (- j))) with (pow2 (- j)) by ring. rewrite <- bpow_plus. replace (e + j + 1 + - j)%Z with (1 + e)%Z by lia. rewrite bpow_plus. reflexivity. }
    assert (HM : 101 / 100 * M <= K * (1 - f)) by lra.
    set (E := K / (131072 * (1 - f))). assert (HE : E * (1 - f) = K / 131072) by (unfold E; field; lra).
    pose proof (K_pos K HK) as PK. assert (PE : 0 <= E) by (unfold E; apply Rmult_le_pos; [lra|left; apply Rinv_0_lt_compat; lra]).
    assert (EE : E = pow2 (e + 2 * j + 1) / 131072).
    { unfold E, f, K. replace (1 - (1 - pow2 (- j))) with (pow2 (- j)) by ring. replace (e + 2 * j + 1)%Z with ((e + j + 1) + j)%Z by lia. rewrite (bpow_plus _ (e + j + 1) j).
      assert (X : pow2 j * pow2 (- j) = 1) by (rewrite <- bpow_plus; replace (j + - j)%Z with 0%Z by lia; reflexivity). pose proof (bpow_gt_0 radix2 (- j)). replace (pow2 j) with (/ pow2 (- j)) by (apply Rmult_eq_reg_r with (pow2 (- j)); [rewrite X; field; lra|lra]). field. lra. }
    rewrite <- EE.
    destruct (of_int_exact 0 ltac:(lia)) as [F0 V0].
    assert (T : Forall2 (near_y K E) (comb_spec l 0 (of_int 0) damp fb (map CTick xs)) (comb_spec (map val l) 0 (val (of_int 0)) (val damp) (val fb) (map real_op (map CTick xs)))).
    { apply comb_tracks with M f; try assumption.
      - clear - Hl PE. induction Hl as [|y l [Fy By] _ IH]; cbn [map]; constructor; [|exact IH]. split; [exact Fy|]. split; [exact By|]. rewrite Rminus_eq_0, Rabs_R0. exact PE.
      - split; [exact F0|]. rewrite V0, Rminus_0_r, Rabs_R0. split; lra.
      - clear - Hx. induction Hx; constructor; auto. }
    rewrite V0 in T. replace (map real_op (map CTick xs)) with (map (@CTick R) (map val xs)) in T by (rewrite !map_map; reflexivity). rewrite nint_0. change (nint 0 : f32) with (of_int 0).
    eapply Forall2_val; [|exact T]. intros y z (_ & _ & Q). exact Q.
  - assert (PM := bpow_gt_0 radix2 e). eapply Forall2_val; [|apply (ap_tracks (pow2 e))].
    + intros y z [_ Q]. exact Q.
    + unfold mid in He. split; apply bpow_le; lia.
    + assert (E2 : pow2 (e + 1) <= 201 / 100 * pow2 e) by (rewrite bpow_plus; change (pow2 1) with 2; lra).
      clear - Hl PM E2. induction Hl as [|y l [Fy By] _ IH]; cbn [map]; constructor; [|exact IH]. split; [exact Fy|]. split; [lra|]. rewrite Rminus_eq_0, Rabs_R0. lra.
    + exact Hx.
  - rewrite (filtered_map _ xs (of_int 0)), (filtered_map _ (map val xs) (val (of_int 0))), map_length, map_map.
    pose proof (C95_biquad_tracks NP c G (pow2 e) (fun n => nth n xs (of_int 0)) Fc HG HA HB) as T.
    assert (Hn : forall k, fin (nth k xs (of_int 0)) = true /\ Rabs (val (nth k xs (of_int 0))) <= pow2 e).
    { intros k. destruct (Nat.lt_ge_cases k (length xs)) as [L|L].
      * rewrite Forall_forall in Hx. exact (Hx _ (nth_In xs (of_int 0) L)).
      * rewrite nth_overflow by lia. destruct (of_int_exact 0 ltac:(lia)) as [F0 V0]. split; [exact F0|]. rewrite V0, Rabs_R0. apply bpow_ge_0. }
    specialize (T Hn). generalize (seq 0 (length xs)). intros s. induction s as [|n s IH]; cbn [map]; constructor; [|exact IH]. destruct (T n) as (_ & Q & _).
    rewrite (response_ext _ _ (fun k => val (nth k xs (of_int 0)))); [exact Q|]. intros k _. apply map_nth.
  - assert (E : pow2 (e + k) = pow2 e * pow2 k) by apply bpow_plus. clear - Hx He Fg Hg E. induction Hx as [|x xs [Fx Bx] _ IH]; cbn [map]; constructor; [|exact IH]. clear IH.
    assert (A : Rabs (val x * val g) <= pow2 (e + k)) by (rewrite E, Rabs_mult; apply Rmult_le_compat; auto using Rabs_pos).
    assert (A' : Rabs (rnd (val x * val g)) <= pow2 (e + k)) by (apply rnd_abs_le; [now apply mid_repr|exact A]).
    destruct (fmul_spec x g Fx Fg) as [F V].
    + eapply Rle_lt_trans; [exact A'|]. apply mid_big. unfold mid in He. lia.
    + cbn [nmul num_f32 num_R]. rewrite V. now apply round_mid.
  - pose proof (level_signal p e e1 L xs Hx) as Hy. eapply close_trans; [exact (I2 _ Hy)|]. apply (acc_lip q e1 E2 G2 A2); [now apply acc_pos in A1|]. now apply I1.
  - pose proof (level_signal p e e1 L1 xs Hx) as Hy. pose proof (level_signal q e e1 L2 xs Hx) as Hz. specialize (I1 xs Hx). specialize (I2 xs Hx).
    pose proof (acc_pos _ _ _ _ A1) as [P1 _]. pose proof (acc_pos _ _ _ _ A2) as [P2 _]. revert I1 I2 Hy Hz.
    generalize (signal p xs), (signal q xs), (signal (exact_plan p) (map val xs)), (signal (exact_plan q) (map val xs)). clear - M P1 P2.
    assert (EE : pow2 (e1 + 1) = pow2 e1 + pow2 e1) by (rewrite bpow_plus; change (pow2 1) with 2; lra).
    induction l as [|a l IH]; intros l1 l2 l3 K1 K2 Hy Hz; cbn [map] in K1; inversion K1; subst; cbn [added]; [constructor|].
    destruct l1 as [|b l1]; cbn [map] in K2; inversion K2; subst; cbn [added]; [constructor|]. inversion Hy as [|? ? [Fa Ba]]; subst. inversion Hz as [|? ? [Fb Bb]]; subst. cbn [map]. constructor; [|now apply IH].
    cbn [nadd num_f32 num_R].
    assert (S : Rabs (val a + val b) <= pow2 (e1 + 1)) by (rewrite EE; eapply Rle_trans; [apply Rabs_triang|]; lra).
    assert (R : Rabs (rnd (val a + val b)) <= pow2 (e1 + 1)) by (apply rnd_abs_le; [apply repr_bpow; unfold mid in M; lia|exact S]).
    destruct (fadd_spec a b Fa Fb) as [F V]; [eapply Rle_lt_trans; [exact R|]; apply mid_big; unfold mid in M; lia|]. rewrite V.
    assert (Q : Rabs (rnd (val a + val b) - (val a + val b)) <= pow2 (e1 - 22)).
    { eapply Rle_trans; [apply rnd_err|]. assert (X : pow2 (e1 - 22) = pow2 (e1 + 1) * pow2 (-24) + pow2 (e1 - 23)).
      { replace (e1 - 23)%Z with (e1 + -23)%Z by lia. rewrite <- bpow_plus. replace (e1 + 1 + -24)%Z with (e1 + -23)%Z by lia. replace (e1 - 22)%Z with (1 + (e1 + -23))%Z by lia. rewrite (bpow_plus _ 1). change (pow2 1) with 2. lra. }
      rewrite X. assert (pow2 (-150) <= pow2 (e1 - 23)) by (apply bpow_le; unfold mid in M; lia). pose proof (bpow_ge_0 radix2 (-24)). nra. }
    match goal with H1 : Rabs (val a - ?u) <= _, H2 : Rabs (val b - ?v) <= _ |- Rabs (?r - _) <= _ => replace (r - (u + v)) with ((r - (val a + val b)) + ((val a - u) + (val b - v))) by ring end.
    eapply Rle_trans; [apply Rabs_triang|]. eapply Rle_trans; [apply Rplus_le_compat_l, Rabs_triang|]. lra.
Qed.
End Acc.
