(** * Envelope: proofs. *)

From Coq Require Import ZArith List Bool Reals Lia Lra.
From Flocq Require Import Core IEEE754.BinarySingleNaN IEEE754.Binary.
From Verif Require Import Base F32 F32Lemmas F32Exact F32Range F32Over Num P_Interp P_SineFloat P_Levels M_Envelope S_Envelope.
Import ListNotations.
Local Open Scope R_scope.

Lemma fmax_val : fin f_max = true /\ val f_max = 16777215 * pow2 104.
Proof. apply lit_exact; lia. Qed.
Lemma val_le_fmax x : fin x = true -> - val f_max <= val x <= val f_max.
Proof.
  intros F. destruct fmax_val as [_ V]. pose proof (Binary.abs_B2R_le_emax_minus_prec 24 128 eq_refl x) as H.
  fold (val x) in H. apply Rabs_le_inv in H. rewrite V.
  replace (16777215 * pow2 104) with (pow2 128 - pow2 (128 - 24)); [exact H|].
  change (128 - 24)%Z with 104%Z. replace (pow2 128) with (pow2 24 * pow2 104) by (now rewrite <- bpow_plus).
  replace (pow2 24) with 16777216 by (cbn; lra). ring.
Qed.
Lemma fmax_ge : 16777216 <= val f_max < big.
Proof.
  destruct fmax_val as [F V]. split; [|pose proof (val_lt_big f_max) as H; apply Rabs_lt_inv in H; lra].
  rewrite V. assert (1 <= pow2 104) by (change 1 with (pow2 0); apply bpow_le; lia). 
  assert (2 <= pow2 104) by (change 2 with (pow2 1); apply bpow_le; lia). lra.
Qed.

Lemma sgn_ext_le (x : f32) : isnan x = false -> sgn x = true -> ext x <= 0.
Proof.
  intros N S. destruct (fin_or_inf x N) as [F|[s E]].
  - rewrite ext_fin by exact F. now apply sgn_val_le.
  - subst x. rewrite ext_inf. cbn in S. subst s. pose proof big_pos. lra.
Qed.
Lemma sgn_ext_ge (x : f32) : isnan x = false -> sgn x = false -> 0 <= ext x.
Proof.
  intros N S. destruct (fin_or_inf x N) as [F|[s E]].
  - rewrite ext_fin by exact F. now apply sgn_val_ge.
  - subst x. rewrite ext_inf. cbn in S. subst s. pose proof big_pos. lra.
Qed.

Lemma fclamp_num x lo hi : isnan x = false -> fin lo = true -> fin hi = true -> val lo <= val hi ->
  exists r, fclamp x lo hi = Ret r /\ fin r = true /\ val r = Rmax (val lo) (Rmin (val hi) (ext x)).
Proof.
  intros N Fl Fh H. unfold fclamp, fgt. rewrite (proj2 (fle_true_fin lo hi Fl Fh) H).
  destruct (flt x lo) eqn:L.
  - apply flt_true in L. destruct L as (_ & _ & L). rewrite (ext_fin lo Fl) in L.
    rewrite (flt_fin_false hi lo Fh Fl H). exists lo. split; [reflexivity|]. split; [exact Fl|].
    rewrite Rmin_right by lra. rewrite Rmax_left by lra. reflexivity.
  - apply flt_false in L; auto using fin_notnan. rewrite (ext_fin lo Fl) in L. destruct (flt hi x) eqn:U.
    + apply flt_true in U. destruct U as (_ & _ & U). rewrite (ext_fin hi Fh) in U.
      exists hi. split; [reflexivity|]. split; [exact Fh|]. rewrite Rmin_left by lra. rewrite Rmax_right by lra. reflexivity.
    + apply flt_false in U; auto using fin_notnan. rewrite (ext_fin hi Fh) in U.
      assert (F : fin x = true).
      { apply ext_fin_of_bounds; [exact N|]. pose proof (val_lt_big lo) as A. pose proof (val_lt_big hi) as B.
        apply Rabs_lt_inv in A. apply Rabs_lt_inv in B. lra. }
      exists x. split; [reflexivity|]. split; [exact F|]. rewrite (ext_fin x F) in *. rewrite Rmin_right by lra. rewrite Rmax_right by lra. reflexivity.
Qed.
Lemma fclamp_nan x lo hi : isnan x = true -> fle lo hi = true -> fclamp x lo hi = Ret x.
Proof.
  intros N H. unfold fclamp, fgt. rewrite H. rewrite (flt_nan x lo) by auto. cbv iota zeta. rewrite (flt_nan hi x) by auto. reflexivity.
Qed.

Section Envelope.
Context {NP : NanPolicy} {MO : MathOps f32}.

(** ** The timing parameter *)

Lemma one_over (y : f32) : isnan y = false -> isnan (fdiv (of_int 1) y) = false /\ sgn (fdiv (of_int 1) y) = sgn y /\
  (fin y = true -> 0 < val y -> ext (fdiv (of_int 1) y) = clampb (rnd (1 / val y))) /\
  (fin y = true -> val y = 0 -> fdiv (of_int 1) y = B754_infinity 24 128 (sgn y)) /\
  (fin y = false -> val (fdiv (of_int 1) y) = 0 /\ fin (fdiv (of_int 1) y) = true).
Proof.
  intros N. destruct (of_int_exact 1 ltac:(lia)) as [F1 V1].
  assert (G : isnan (fdiv (of_int 1) y) = false).
  { destruct (fin_or_inf y N) as [F|[s E]]; [|subst y; destruct s; reflexivity].
    destruct (Req_dec (val y) 0) as [Z|Z].
    - destruct y as [s|s|s pl H|s m e H]; try discriminate F; [destruct s; reflexivity|].
      exfalso. unfold val, Binary.B2R in Z. apply eq_0_F2R in Z. destruct s; discriminate Z.
    - destruct (fdiv_cases (of_int 1) y F1 F Z) as [(_ & Q & _ & _)|[_ Q]]; [now apply fin_notnan|]. rewrite Q. reflexivity. }
  split; [exact G|]. split; [rewrite fdiv_sgn by exact G; rewrite (sgn_pos_val (of_int 1) F1) by lra; now destruct (sgn y)|]. split; [|split].
  - intros F P. destruct (ext_div (of_int 1) y F1 F P) as [_ E]. rewrite E, V1. reflexivity.
  - intros F Z. destruct y as [s|s|s pl H|s m e H]; try discriminate F; [destruct s; reflexivity|].
    exfalso. unfold val, Binary.B2R in Z. apply eq_0_F2R in Z. destruct s; discriminate Z.
  - intros F. destruct (fin_or_inf y N) as [F'|[s E]]; [congruence|]. subst y. destruct s; split; reflexivity.
Qed.

Lemma half_lit : fin (lit 1 (-1)) = true /\ val (lit 1 (-1)) = 1 / 2.
Proof. destruct (lit_exact 1 (-1) ltac:(lia) ltac:(lia)) as [F V]. split; [exact F|]. rewrite V. cbn. lra. Qed.

Lemma floor_rate sr : good_sr sr -> fin (fdiv (lit 1 (-1)) sr) = true /\
  val (fdiv (lit 1 (-1)) sr) = rnd (1 / 2 / val sr) /\ pow2 (-23) <= val (fdiv (lit 1 (-1)) sr) <= 1 / 2.
Proof.
  intros [F H]. destruct half_lit as [F5 V5]. pose proof big_ge.
  assert (R5 : repr (1 / 2)) by (replace (1/2) with (pow2 (-1)) by (cbn; lra); apply repr_bpow; lia).
  assert (R23 : repr (pow2 (-23))) by (apply repr_bpow; lia). pose proof (bpow_gt_0 radix2 (-23)).
  assert (E22 : pow2 22 = 4194304) by (cbn; lra). assert (E23 : pow2 (-23) = 1 / 8388608) by (cbn; lra).
  assert (B : pow2 (-23) <= val (lit 1 (-1)) / val sr <= 1 / 2).
  { rewrite V5, E23. split.
    - apply Rmult_le_reg_r with (val sr); [lra|]. unfold Rdiv at 2. rewrite Rmult_assoc, Rinv_l by lra. lra.
    - apply Rmult_le_reg_r with (val sr); [lra|]. unfold Rdiv at 1. rewrite Rmult_assoc, Rinv_l by lra. lra. }
  destruct (div_within (lit 1 (-1)) sr (pow2 (-23)) (1 / 2) F5 ltac:(lra) R23 R5 ltac:(lra) ltac:(lra) B) as [[Fd Bd] Vd].
  rewrite V5 in Vd. repeat split; tauto.
Qed.

Definition raw_rate (secs sr : f32) : f32 := fdiv (of_int 1) (fmul secs sr).

Lemma scaled_notnan secs sr : isnan secs = false -> fin sr = true -> 0 < val sr ->
  isnan (fmul secs sr) = false /\ sgn (fmul secs sr) = sgn secs.
Proof.
  intros N F P. assert (G : isnan (fmul secs sr) = false).
  { destruct (fin_or_inf secs N) as [Fs|[s E]]; [now apply ext_mul|]. subst secs. now rewrite inf_mul. }
  split; [exact G|]. rewrite fmul_sgn by exact G. rewrite (sgn_pos_val sr F P). now destruct (sgn secs).
Qed.

Lemma rate_num secs sr : isnan secs = false -> good_sr sr -> exists r, set_time_parameter secs sr = Ret r /\ fin r = true /\
  isnan (raw_rate secs sr) = false /\ sgn (raw_rate secs sr) = sgn secs /\
  val r = Rmax (val (fdiv (lit 1 (-1)) sr)) (Rmin (val f_max) (ext (raw_rate secs sr))).
Proof.
  intros N G. destruct (floor_rate sr G) as (Fl & Vl & Bl). destruct G as [F H].
  destruct (scaled_notnan secs sr N F ltac:(lra)) as [Nm Sm]. destruct (one_over _ Nm) as (Nx & Sx & _).
  destruct fmax_val as [Fm _]. pose proof fmax_ge.
  destruct (fclamp_num (raw_rate secs sr) (fdiv (lit 1 (-1)) sr) f_max Nx Fl Fm ltac:(lra)) as (r & E & Fr & V).
  exists r. split; [exact E|]. split; [exact Fr|]. split; [exact Nx|]. split; [unfold raw_rate; congruence|]. exact V.
Qed.

Definition rate_ok (r : f32) : Prop := fin r = true /\ pow2 (-23) <= val r <= 1.

Lemma rate_good secs sr : good_sr sr -> good_time secs sr -> exists r, set_time_parameter secs sr = Ret r /\
  rate_ok r /\ rnd (1 / 2 / val sr) <= val r.
Proof.
  intros G [N T]. destruct (rate_num secs sr N G) as (r & E & F & Nx & Sx & V). exists r. split; [exact E|].
  destruct (floor_rate sr G) as (Fl & Vl & Bl). pose proof fmax_ge. destruct G as [Fs Hs].
  assert (X : ext (raw_rate secs sr) <= 1).
  { destruct T as [T|T].
    - apply Rle_trans with 0; [|lra]. apply sgn_ext_le; [exact Nx|]. rewrite Sx.
      destruct (sgn secs) eqn:S; [reflexivity|]. pose proof (sgn_ext_ge secs N S). lra.
    - destruct (scaled_notnan secs sr N Fs ltac:(lra)) as [Nm Sm]. destruct (one_over _ Nm) as (_ & _ & P & _ & I).
      unfold raw_rate. destruct (fin (fmul secs sr)) eqn:Fm.
      + destruct (fin_or_inf secs N) as [Fp|[s Es]]; [|subst secs; rewrite inf_mul in Fm by (auto; lra); discriminate].
        destruct (ext_mul secs sr Fp Fs ltac:(lra)) as [_ Em]. rewrite (ext_fin _ Fm) in Em. rewrite (ext_fin _ Fp) in T.
        assert (1 <= rnd (val secs * val sr)) by (apply rnd_ge_repr; [apply (repr_int 1); lia|exact T]).
        assert (L : 1 <= val (fmul secs sr)).
        { rewrite Em. unfold clampb. pose proof big_ge. apply Rle_trans with (2 := Rmax_r _ _). apply Rmin_glb; lra. }
        rewrite P by (auto; lra). pose proof big_ge. unfold clampb. apply Rmax_lub; [lra|]. apply Rle_trans with (1 := Rmin_r _ _).
        apply rnd_le_repr; [apply (repr_int 1); lia|]. unfold Rdiv. rewrite Rmult_1_l, <- Rinv_1. apply Rinv_le; lra.
      + destruct (I eq_refl) as [Z Fz]. rewrite (ext_fin _ Fz), Z. lra. }
  rewrite V. pose proof (Rmin_r (val f_max) (ext (raw_rate secs sr))).
  pose proof (Rmax_l (val (fdiv (lit 1 (-1)) sr)) (Rmin (val f_max) (ext (raw_rate secs sr)))).
  split; [|rewrite <- Vl; assumption]. split; [exact F|]. rewrite V. split; [lra|]. apply Rmax_lub; lra.
Qed.

(** ** Stage formulas *)

Definition decay_value (s p : f32) : f32 := fadd (fmul (fsub (of_int 1) p) (fsub (of_int 1) s)) s.
Definition release_value (r p : f32) : f32 := fmul (fsub (of_int 1) p) r.

Lemma one_minus p : fin p = true -> 0 <= val p -> fin (fsub (of_int 1) p) = true /\ val (fsub (of_int 1) p) = rnd (1 - val p) /\ val (fsub (of_int 1) p) <= 1.
Proof.
  intros F H. destruct (of_int_exact 1 ltac:(lia)) as [F1 V1]. destruct fmax_val as [Fm Vm]. pose proof fmax_ge.
  pose proof (val_le_fmax p F). pose proof big_ge.
  destruct (sub_within (of_int 1) p (- val f_max) 1 F1 F) as [[Fd Bd] Vd];
    [apply repr_opp, repr_val|apply (repr_int 1); lia|lra|lra|rewrite V1; lra|].
  rewrite V1 in Vd. repeat split; tauto.
Qed.

Lemma rnd_one_plus x : x <= 1 + pow2 (-25) -> rnd x <= 1.
Proof.
  intros H. apply Rle_trans with (rnd (1 + pow2 (-25))); [now apply rnd_le|].
  assert (E : fadd (of_int 1) (lit 1 (-25)) = of_int 1) by (apply bits_inj; vm_compute; reflexivity).
  destruct (of_int_exact 1 ltac:(lia)) as [F1 V1]. destruct (lit_exact 1 (-25) ltac:(lia) ltac:(lia)) as [F2 V2].
  rewrite Rmult_1_l in V2. assert (E25 : pow2 (-25) = 1 / 33554432) by (cbn; lra). pose proof big_ge.
  destruct (add_within (of_int 1) (lit 1 (-25)) 1 2 F1 F2) as [_ V];
    [apply (repr_int 1); lia|apply (repr_int 2); lia|lra|lra|rewrite V1, V2; lra|].
  rewrite E, V1, V2 in V. rewrite <- V. lra.
Qed.

Lemma decay_spec s p : within s 0 1 -> fin p = true -> 0 <= val p ->
  fin (decay_value s p) = true /\ val (decay_value s p) <= 1 /\
  val (decay_value s p) = rnd (rnd (rnd (1 - val p) * rnd (1 - val s)) + val s) /\
  (1 <= val p -> val (decay_value s p) <= val s) /\ (val p <= 1 -> val s <= val (decay_value s p)).
Proof.
  intros [Fs Hs] Fp Hp. destruct (one_minus p Fp Hp) as (Fq & Vq & Bq). destruct (one_minus s Fs (proj1 Hs)) as (Fu & Vu & Bu).
  assert (U0 : 0 <= rnd (1 - val s)) by (apply rnd_pos; lra).
  destruct (gain_mul (fsub (of_int 1) p) (fsub (of_int 1) s) Fq Fu ltac:(rewrite Vu; rewrite Vu in Bu; lra)) as (Fg & Vg & Bg).
  pose proof (val_le_fmax _ Fg) as M. pose proof fmax_ge. pose proof big_ge. destruct fmax_val as [Fm _].
  rewrite Vq, Vu in Vg. rewrite Vq in Bq. rewrite Vu in Bu.
  assert (G1 : rnd (rnd (1 - val p) * rnd (1 - val s)) <= rnd (1 - val s)).
  { apply rnd_le_repr; [apply repr_rnd|]. rewrite <- (Rmult_1_l (rnd (1 - val s))) at 2. apply Rmult_le_compat_r; lra. }
  assert (E1 : rnd (1 - val s) <= 1 - val s + pow2 (-25)).
  { pose proof (rnd_err_bpow (1 - val s) 0 ltac:(lia)) as E. assert (Rabs (1 - val s) <= pow2 0) by (apply Rabs_le; cbn; lra).
    specialize (E H1). apply Rabs_le_inv in E. change (0 - 25)%Z with (-25)%Z in E. lra. }
  destruct (add_within (fmul (fsub (of_int 1) p) (fsub (of_int 1) s)) s (- val f_max) (val f_max) Fg Fs) as [[F B] V];
    [apply repr_opp, repr_val|apply repr_val|lra|lra|rewrite Vg in *; lra|].
  rewrite Vg in V. unfold decay_value. split; [exact F|]. split; [rewrite V; apply rnd_one_plus; lra|]. split; [exact V|]. rewrite V. split.
  - intros H1. apply rnd_le_repr; [apply repr_val|]. assert (rnd (1 - val p) <= 0) by (apply rnd_neg; lra).
    assert (rnd (rnd (1 - val p) * rnd (1 - val s)) <= 0); [|lra]. apply rnd_neg. nra.
  - intros H1. apply rnd_ge_repr; [apply repr_val|]. assert (0 <= rnd (1 - val p)) by (apply rnd_pos; lra).
    assert (0 <= rnd (rnd (1 - val p) * rnd (1 - val s))); [|lra]. apply rnd_pos. nra.
Qed.

Lemma release_spec r p : within r 0 1 -> fin p = true -> 0 <= val p ->
  fin (release_value r p) = true /\ val (release_value r p) <= val r /\
  val (release_value r p) = rnd (rnd (1 - val p) * val r) /\
  (1 <= val p -> val (release_value r p) <= 0).
Proof.
  intros [Fr Hr] Fp Hp. destruct (one_minus p Fp Hp) as (Fq & Vq & Bq).
  destruct (gain_mul (fsub (of_int 1) p) r Fq Fr Hr) as (Fg & Vg & _). rewrite Vq in Vg, Bq.
  split; [exact Fg|]. unfold release_value. rewrite Vg. split; [|split; [reflexivity|]].
  - apply rnd_le_repr; [apply repr_val|]. rewrite <- (Rmult_1_l (val r)) at 2. apply Rmult_le_compat_r; lra.
  - intros H1. apply rnd_neg. assert (rnd (1 - val p) <= 0) by (apply rnd_neg; lra). nra.
Qed.

(** ** The stage clock *)

Lemma clock t r : fin t = true -> 0 <= val t <= 2 -> rate_ok r ->
  fin (fadd t r) = true /\ val t <= val (fadd t r) <= 3 /\ (val t <= 1 -> val (fadd t r) <= 2) /\
  (1 <= val (fadd t r) \/ val t + (val r - pow2 (-25)) <= val (fadd t r)).
Proof.
  intros Ft Ht [Fr Hr]. pose proof big_ge. pose proof (bpow_gt_0 radix2 (-23)).
  destruct (add_within t r 0 3 Ft Fr) as [[F B] V]; [apply repr_0|apply (repr_int 3); lia|lra|lra|lra|].
  split; [exact F|]. rewrite V. split; [split; [apply rnd_ge_repr; [apply repr_val|lra]|rewrite <- V; tauto]|].
  split; [intros; apply rnd_le_repr; [apply (repr_int 2); lia|lra]|].
  destruct (Rle_lt_dec 1 (val t + val r)) as [L|L].
  - left. apply rnd_ge_repr; [apply (repr_int 1); lia|exact L].
  - right. pose proof (rnd_err_bpow (val t + val r) 0 ltac:(lia)) as E.
    assert (A : Rabs (val t + val r) <= pow2 0) by (apply Rabs_le; cbn; lra).
    specialize (E A). apply Rabs_le_inv in E. change (0 - 25)%Z with (-25)%Z in E. lra.
Qed.

(** ** The invariant *)

Definition slope_ok (s : f32) : Prop := fin s = true /\ val (fdiv (of_int 1) (of_int 20)) <= val s <= 20.

Lemma twentieth : fin (fdiv (of_int 1) (of_int 20)) = true /\ val (fdiv (of_int 1) (of_int 20)) = rnd (1 / 20) /\
  1 / 20 <= val (fdiv (of_int 1) (of_int 20)) <= 1.
Proof.
  assert (E : fdiv (of_int 1) (of_int 20) = lit 13421773 (-28)) by (apply bits_inj; vm_compute; reflexivity).
  destruct (of_int_exact 1 ltac:(lia)) as [F1 V1]. destruct (of_int_exact 20 ltac:(lia)) as [F2 V2]. pose proof big_ge.
  destruct (div_within (of_int 1) (of_int 20) 0 1 F1 ltac:(lra)) as [[F B] V]; [apply repr_0|apply (repr_int 1); lia|lra|lra|rewrite V1, V2; lra|].
  rewrite V1, V2 in V. split; [exact F|]. split; [exact V|]. split; [|tauto].
  rewrite E. destruct (lit_exact 13421773 (-28) ltac:(lia) ltac:(lia)) as [_ ->]. cbn. lra.
Qed.

Lemma slope_inv s : slope_ok s -> slope_ok (fdiv (of_int 1) s).
Proof.
  intros [F H]. destruct twentieth as (F20 & V20 & B20). destruct (of_int_exact 1 ltac:(lia)) as [F1 V1]. pose proof big_ge.
  assert (B : 1 / 20 <= 1 / val s <= 20).
  { split; apply Rmult_le_reg_r with (val s); try lra.
    - unfold Rdiv at 2. rewrite Rmult_assoc, Rinv_l by lra. lra.
    - unfold Rdiv. rewrite Rmult_assoc, Rinv_l by lra. lra. }
  destruct (div_within (of_int 1) s 0 20 F1 ltac:(lra)) as [[Fd Bd] Vd]; [apply repr_0|apply (repr_int 20); lia|lra|lra|rewrite V1; lra|].
  split; [exact Fd|]. split; [|tauto]. rewrite Vd, V1, V20. apply rnd_le. lra.
Qed.

Record inv (e : adsr) : Prop := {
  i_a : rate_ok (e_attack e); i_d : rate_ok (e_decay e); i_r : rate_ok (e_release e);
  i_s : within (e_sustain e) 0 1; i_slope : slope_ok (e_slope e);
  i_v : within (e_value e) 0 1; i_rv : within (e_release_val e) 0 1;
  i_t : within (e_t e) 0 2; i_t1 : e_state e = Decay \/ e_state e = Release -> val (e_t e) < 1;
  i_sr : good_sr (e_sr e) }.

Lemma zero_within : within (of_int 0) 0 1.
Proof. destruct (of_int_exact 0 ltac:(lia)) as [F V]. split; [exact F|]. rewrite V. lra. Qed.
Lemma one_within : within (of_int 1) 0 1.
Proof. destruct (of_int_exact 1 ltac:(lia)) as [F V]. split; [exact F|]. rewrite V. lra. Qed.
Lemma zero_within2 : within (of_int 0) 0 2.
Proof. destruct (of_int_exact 0 ltac:(lia)) as [F V]. split; [exact F|]. rewrite V. lra. Qed.
Lemma zero_lt1 : val (of_int 0) < 1.
Proof. destruct (of_int_exact 0 ltac:(lia)) as [F V]. rewrite V. lra. Qed.

(** What one tick does in each stage, in terms of the next clock value and its power. *)
Lemma attack_tick e : power_ok -> inv e ->
  let t := fadd (e_t e) (e_attack e) in let v := m_powf t (fdiv (of_int 1) (e_slope e)) in
  fin v = true /\ 0 <= val v /\ (1 <= val t -> 1 <= val v) /\
  (1 <= val v /\ next_attack e = (of_int 1, with_tsv e (of_int 0) Decay (of_int 1)) \/
   val v < 1 /\ val t < 1 /\ next_attack e = (v, with_tsv e t Attack v)).
Proof.
  intros P I t v. destruct (i_t e I) as [Ft Ht]. destruct (clock (e_t e) (e_attack e) Ft Ht (i_a e I)) as (F & B & _ & _).
  fold t in F, B. destruct (slope_inv _ (i_slope e I)) as [Fs Hs]. destruct (P t _ F ltac:(lra) Fs Hs) as (Fv & V0 & V1).
  fold v in Fv, V0, V1. split; [exact Fv|]. split; [exact V0|]. split; [exact V1|].
  destruct (of_int_exact 1 ltac:(lia)) as [F1 E1]. unfold next_attack. fold t. fold v. unfold fge.
  rewrite fle_fin by assumption. rewrite E1. destruct (Rle_bool_spec 1 (val v)) as [L|L]; [left; auto|].
  right. split; [exact L|]. split; [|reflexivity]. apply Rnot_le_lt. intros C. specialize (V1 C). lra.
Qed.

Lemma decay_tick e : power_ok -> inv e -> val (e_t e) < 1 ->
  let t := fadd (e_t e) (e_decay e) in let v := decay_value (e_sustain e) (m_powf t (e_slope e)) in
  within t 0 2 /\ fin (m_powf t (e_slope e)) = true /\ 0 <= val (m_powf t (e_slope e)) /\ fin v = true /\
  (val v <= val (e_sustain e) /\ next_decay e = (e_sustain e, with_tsv e t Sustain (e_sustain e)) \/
   val (e_sustain e) < val v <= 1 /\ val t < 1 /\ next_decay e = (v, with_tsv e t Decay v)).
Proof.
  intros P I T1 t v. destruct (i_t e I) as [Ft Ht]. destruct (clock (e_t e) (e_decay e) Ft Ht (i_d e I)) as (F & B & B2 & _).
  fold t in F, B, B2. specialize (B2 ltac:(lra)). destruct (i_slope e I) as [Fs Hs]. destruct (P t _ F ltac:(lra) Fs Hs) as (Fp & P0 & P1).
  destruct (decay_spec (e_sustain e) _ (i_s e I) Fp P0) as (Fv & V1 & _ & V2 & _). fold v in Fv, V1, V2.
  split; [split; [exact F|lra]|]. split; [exact Fp|]. split; [exact P0|]. split; [exact Fv|].
  unfold next_decay. fold t. fold (decay_value (e_sustain e) (m_powf t (e_slope e))). fold v.
  rewrite fle_fin by (auto; apply (i_s e I)). destruct (Rle_bool_spec (val v) (val (e_sustain e))) as [L|L]; [left; auto|].
  right. split; [lra|]. split; [|reflexivity]. apply Rnot_le_lt. intros C. specialize (V2 (P1 C)). lra.
Qed.

Lemma eps_val : fin f_epsilon = true /\ val f_epsilon = pow2 (-23).
Proof. destruct (lit_exact 1 (-23) ltac:(lia) ltac:(lia)) as [F V]. split; [exact F|]. unfold f_epsilon. rewrite V. ring. Qed.

Lemma release_tick e : power_ok -> inv e -> val (e_t e) < 1 ->
  let t := fadd (e_t e) (e_release e) in let v := release_value (e_release_val e) (m_powf t (e_slope e)) in
  within t 0 2 /\ fin (m_powf t (e_slope e)) = true /\ 0 <= val (m_powf t (e_slope e)) /\ fin v = true /\
  (val v <= pow2 (-23) /\ next_release e = (of_int 0, with_tsv e (of_int 0) Idle (of_int 0)) \/
   pow2 (-23) < val v <= val (e_release_val e) /\ val t < 1 /\ next_release e = (v, with_tsv e t Release v)).
Proof.
  intros P I T1 t v. destruct (i_t e I) as [Ft Ht]. destruct (clock (e_t e) (e_release e) Ft Ht (i_r e I)) as (F & B & B2 & _).
  fold t in F, B, B2. specialize (B2 ltac:(lra)). destruct (i_slope e I) as [Fs Hs]. destruct (P t _ F ltac:(lra) Fs Hs) as (Fp & P0 & P1).
  destruct (release_spec (e_release_val e) _ (i_rv e I) Fp P0) as (Fv & V1 & _ & V2). fold v in Fv, V1, V2.
  split; [split; [exact F|lra]|]. split; [exact Fp|]. split; [exact P0|]. split; [exact Fv|].
  unfold next_release. fold t. fold (release_value (e_release_val e) (m_powf t (e_slope e))). fold v.
  destruct eps_val as [Fe Ve]. rewrite fle_fin, Ve by assumption. destruct (Rle_bool_spec (val v) (pow2 (-23))) as [L|L]; [left; auto|].
  right. split; [lra|]. split; [|reflexivity]. apply Rnot_le_lt. intros C. specialize (V2 (P1 C)).
  pose proof (bpow_gt_0 radix2 (-23)). lra.
Qed.

Lemma inv_tsv e t s v : inv e -> within t 0 2 -> (s = Decay \/ s = Release -> val t < 1) -> within v 0 1 -> inv (with_tsv e t s v).
Proof. intros [] ? ? ?. constructor; auto. Qed.

Lemma tick_inv e : power_ok -> inv e -> within (fst (tick e)) 0 1 /\ inv (snd (tick e)).
Proof.
  intros P I. unfold tick. destruct (e_state e) eqn:S.
  - split; [apply zero_within|exact I].
  - destruct (attack_tick e P I) as (Fv & V0 & _ & [(L & ->)|(L & T & ->)]); cbn [fst snd].
    + split; [apply one_within|]. apply inv_tsv; auto using zero_within2, one_within. intros; apply zero_lt1.
    + split; [split; [exact Fv|lra]|]. destruct (i_t e I) as [Ft Ht]. destruct (clock (e_t e) (e_attack e) Ft Ht (i_a e I)) as (F & B & _ & _).
      apply inv_tsv; auto; [split; [exact F|lra]|split; [exact Fv|lra]].
  - destruct (decay_tick e P I (i_t1 e I (or_introl S))) as (T & _ & _ & Fv & [(L & ->)|(L & T1 & ->)]); cbn [fst snd]; destruct (i_s e I) as [Fs Hs].
    + split; [split; assumption|]. apply inv_tsv; auto; [intros [?|?]; discriminate|split; assumption].
    + split; [split; [exact Fv|lra]|]. apply inv_tsv; auto. split; [exact Fv|lra].
  - destruct (release_tick e P I (i_t1 e I (or_intror S))) as (T & _ & _ & Fv & [(L & ->)|(L & T1 & ->)]); cbn [fst snd]; destruct (i_rv e I) as [Fs Hs].
    + split; [apply zero_within|]. apply inv_tsv; auto using zero_within2, zero_within. intros; apply zero_lt1.
    + pose proof (bpow_gt_0 radix2 (-23)). split; [split; [exact Fv|lra]|]. apply inv_tsv; auto. split; [exact Fv|lra].
  - split; [apply (i_s e I)|exact I].
Qed.

Lemma clamp01 v : isnan v = false -> exists r, fclamp v (of_int 0) (of_int 1) = Ret r /\ within r 0 1 /\ val r = Rmax 0 (Rmin 1 (ext v)).
Proof.
  intros N. destruct (of_int_exact 0 ltac:(lia)) as [F0 V0]. destruct (of_int_exact 1 ltac:(lia)) as [F1 V1].
  destruct (fclamp_num v _ _ N F0 F1 ltac:(lra)) as (r & E & F & V). exists r. split; [exact E|]. rewrite V0, V1 in V.
  split; [|exact V]. split; [exact F|]. rewrite V. split; [apply Rmax_l|]. apply Rmax_lub; [lra|apply Rmin_l].
Qed.
Lemma clamp_slope v : isnan v = false -> exists r, fclamp v (fdiv (of_int 1) (of_int 20)) (of_int 20) = Ret r /\ slope_ok r.
Proof.
  intros N. destruct twentieth as (F0 & _ & B0). destruct (of_int_exact 20 ltac:(lia)) as [F1 V1].
  destruct (fclamp_num v _ _ N F0 F1 ltac:(lra)) as (r & E & F & V). exists r. split; [exact E|]. rewrite V1 in V.
  split; [exact F|]. rewrite V. split; [apply Rmax_l|]. apply Rmax_lub; [lra|apply Rmin_l].
Qed.

Lemma call_inv e c : power_ok -> inv e -> good_call (e_sr e) c -> exists o e', do_call c e = Ret (o, e') /\
  inv e' /\ e_sr e' = sr_after (e_sr e) c /\ Forall (fun v => within v 0 1) o.
Proof.
  intros P I G. destruct c as [| | | |v|v|v|v|v|v]; cbn [do_call good_call sr_after] in *.
  - destruct (tick_inv e P I) as [W I']. eexists _, _. split; [reflexivity|]. split; [exact I'|]. split.
    + unfold tick, next_attack, next_decay, next_release. destruct (e_state e); try reflexivity; destruct (fle _ _) || destruct (fge _ _); reflexivity.
    + constructor; [exact W|constructor].
  - eexists _, _. split; [reflexivity|]. split; [|split; [unfold trigger_on; destruct (e_state e); reflexivity|constructor]].
    destruct (i_t e I) as [Ft Ht]. unfold trigger_on. destruct (e_state e) eqn:S; apply inv_tsv; auto using zero_within2; try (apply (i_v e I));
      try (apply (i_t e I)); try (intros [?|?]; discriminate).
  - eexists _, _. split; [reflexivity|]. split; [|split; [unfold trigger_off; destruct (e_state e); reflexivity|constructor]].
    unfold trigger_off. destruct (e_state e) eqn:S; try exact I; destruct I; constructor; auto using zero_within2; intros; apply zero_lt1.
  - eexists _, _. split; [reflexivity|]. split; [|split; [reflexivity|constructor]].
    apply inv_tsv; auto using zero_within; [apply (i_t e I)|intros [?|?]; discriminate].
  - destruct (rate_good v (e_sr e) (i_sr e I) G) as (r & E & R & _). unfold set_attack. rewrite E. cbn [bind].
    eexists _, _. split; [reflexivity|]. split; [destruct I; constructor; auto|split; [reflexivity|constructor]].
  - destruct (rate_good v (e_sr e) (i_sr e I) G) as (r & E & R & _). unfold set_decay. rewrite E. cbn [bind].
    eexists _, _. split; [reflexivity|]. split; [destruct I; constructor; auto|split; [reflexivity|constructor]].
  - destruct (rate_good v (e_sr e) (i_sr e I) G) as (r & E & R & _). unfold set_release. rewrite E. cbn [bind].
    eexists _, _. split; [reflexivity|]. split; [destruct I; constructor; auto|split; [reflexivity|constructor]].
  - destruct (clamp01 v G) as (r & E & R & _). unfold set_sustain. rewrite E. cbn [bind].
    eexists _, _. split; [reflexivity|]. split; [destruct I; constructor; auto|split; [reflexivity|constructor]].
  - destruct (clamp_slope v G) as (r & E & R). unfold set_slope. rewrite E. cbn [bind].
    eexists _, _. split; [reflexivity|]. split; [destruct I; constructor; auto|split; [reflexivity|constructor]].
  - eexists _, _. split; [reflexivity|]. split; [destruct I; constructor; auto|split; [reflexivity|constructor]].
Qed.

Lemma run_inv cs : forall e, power_ok -> inv e -> good_calls (e_sr e) cs -> exists o e', run cs e = Ret (o, e') /\
  inv e' /\ Forall (fun v => within v 0 1) o.
Proof.
  induction cs as [|c r IH]; intros e P I G; cbn [run good_calls] in *.
  - eexists _, _. split; [reflexivity|]. split; [exact I|constructor].
  - destruct G as [G1 G2]. destruct (call_inv e c P I G1) as (o & e1 & E & I1 & S1 & W). rewrite E. cbn [bind snd fst].
    rewrite <- S1 in G2. destruct (IH e1 P I1 G2) as (o2 & e2 & E2 & I2 & W2). rewrite E2. cbn [bind snd fst].
    eexists _, _. split; [reflexivity|]. split; [exact I2|]. now apply Forall_app.
Qed.

Lemma new_inv a d s r slope sr : good_new a d s r slope sr -> exists e, adsr_new a d s r slope sr = Ret e /\ inv e /\
  e_sr e = sr /\ e_state e = Idle /\ rnd (1 / 2 / val sr) <= val (e_attack e) /\ rnd (1 / 2 / val sr) <= val (e_decay e) /\
  rnd (1 / 2 / val sr) <= val (e_release e).
Proof.
  intros (G & Ga & Gd & Gr & Ns & Fl & Hl). destruct (clamp01 s Ns) as (s' & Es & Ws & _).
  destruct (rate_good a sr G Ga) as (a' & Ea & Ra & La). destruct (rate_good d sr G Gd) as (d' & Ed & Rd & Ld).
  destruct (rate_good r sr G Gr) as (r' & Er & Rr & Lr). unfold adsr_new. rewrite Es, Ed, Ea, Er. cbn [bind].
  eexists. split; [reflexivity|]. cbn. split; [|tauto].
  constructor; cbn; auto using zero_within, zero_within2; [split; assumption|intros [?|?]; discriminate].
Qed.

Lemma reachable_inv e : power_ok -> reachable e -> inv e.
Proof.
  intros P (a & d & s & r & slope & sr & e0 & cs & outs & G & E & C & R).
  destruct (new_inv a d s r slope sr G) as (e1 & E1 & I1 & S1 & _). rewrite E in E1. injection E1 as <-.
  rewrite <- S1 in C. destruct (run_inv cs e0 P I1 C) as (o & e' & E' & I' & _). rewrite R in E'. now injection E' as <- <-.
Qed.

(** ** Liveness *)

Lemma ticks_S n e : ticks (S n) e = ticks n (snd (tick e)).
Proof. reflexivity. Qed.
Lemma ticks_add m n e : ticks (m + n) e = ticks n (ticks m e).
Proof. revert e. induction m as [|m IH]; intros e; [reflexivity|]. cbn [Nat.add ticks]. apply IH. Qed.
Lemma ticks_inv n : forall e, power_ok -> inv e -> inv (ticks n e).
Proof. induction n as [|n IH]; intros e P I; [exact I|]. cbn [ticks]. apply IH; [exact P|]. now apply tick_inv. Qed.

Lemma same_params e t s v : e_attack (with_tsv e t s v) = e_attack e /\ e_decay (with_tsv e t s v) = e_decay e /\
  e_release (with_tsv e t s v) = e_release e /\ e_sustain (with_tsv e t s v) = e_sustain e.
Proof. repeat split. Qed.

Lemma attack_ends n : forall e, power_ok -> inv e -> e_state e = Attack -> (1 <= n)%nat ->
  1 <= val (e_t e) + INR n * (val (e_attack e) - pow2 (-25)) ->
  exists m, (1 <= m <= n)%nat /\ e_state (ticks m e) = Decay /\ e_decay (ticks m e) = e_decay e /\ e_sustain (ticks m e) = e_sustain e.
Proof.
  induction n as [|n IH]; intros e P I S N H; [lia|].
  destruct (i_t e I) as [Ft Ht]. destruct (clock (e_t e) (e_attack e) Ft Ht (i_a e I)) as (F & B & _ & C).
  assert (T : tick e = next_attack e) by (unfold tick; now rewrite S).
  destruct (attack_tick e P I) as (_ & _ & _ & [(L & E)|(L & T1 & E)]).
  - exists 1%nat. split; [lia|]. cbn [ticks]. rewrite T, E. cbn. auto.
  - destruct C as [C|C]; [lra|]. destruct (tick_inv e P I) as [_ I']. rewrite T, E in I'. cbn [snd] in I'.
    assert (K : 1 <= val (fadd (e_t e) (e_attack e)) + INR n * (val (e_attack e) - pow2 (-25))).
    { rewrite S_INR in H. lra. }
    destruct n as [|n]; [cbn [INR] in K; lra|].
    destruct (IH _ P I' eq_refl ltac:(lia) K) as (m & M & Q). exists (Datatypes.S m). split; [lia|].
    rewrite ticks_S, T, E. exact Q.
Qed.

Lemma decay_ends n : forall e, power_ok -> inv e -> e_state e = Decay ->
  1 <= val (e_t e) + INR n * (val (e_decay e) - pow2 (-25)) ->
  exists m, (1 <= m <= n)%nat /\ e_state (ticks m e) = Sustain /\ e_sustain (ticks m e) = e_sustain e.
Proof.
  induction n as [|n IH]; intros e P I S H.
  - pose proof (i_t1 e I (or_introl S)). cbn [INR] in H. lra.
  - destruct (i_t e I) as [Ft Ht]. destruct (clock (e_t e) (e_decay e) Ft Ht (i_d e I)) as (F & B & _ & C).
    assert (T : tick e = next_decay e) by (unfold tick; now rewrite S).
    destruct (decay_tick e P I (i_t1 e I (or_introl S))) as (_ & _ & _ & _ & [(L & E)|(L & T1 & E)]).
    + exists 1%nat. split; [lia|]. cbn [ticks]. rewrite T, E. cbn. auto.
    + destruct C as [C|C]; [lra|]. destruct (tick_inv e P I) as [_ I']. rewrite T, E in I'. cbn [snd] in I'.
      assert (K : 1 <= val (fadd (e_t e) (e_decay e)) + INR n * (val (e_decay e) - pow2 (-25))).
      { rewrite S_INR in H. lra. }
      destruct (IH _ P I' eq_refl K) as (m & M & Q). exists (Datatypes.S m). split; [lia|].
      rewrite ticks_S, T, E. exact Q.
Qed.

Lemma release_ends n : forall e, power_ok -> inv e -> e_state e = Release ->
  1 <= val (e_t e) + INR n * (val (e_release e) - pow2 (-25)) ->
  exists m, (1 <= m <= n)%nat /\ e_state (ticks m e) = Idle.
Proof.
  induction n as [|n IH]; intros e P I S H.
  - pose proof (i_t1 e I (or_intror S)). cbn [INR] in H. lra.
  - destruct (i_t e I) as [Ft Ht]. destruct (clock (e_t e) (e_release e) Ft Ht (i_r e I)) as (F & B & _ & C).
    assert (T : tick e = next_release e) by (unfold tick; now rewrite S).
    destruct (release_tick e P I (i_t1 e I (or_intror S))) as (_ & _ & _ & _ & [(L & E)|(L & T1 & E)]).
    + exists 1%nat. split; [lia|]. cbn [ticks]. rewrite T, E. reflexivity.
    + destruct C as [C|C]; [lra|]. destruct (tick_inv e P I) as [_ I']. rewrite T, E in I'. cbn [snd] in I'.
      assert (K : 1 <= val (fadd (e_t e) (e_release e)) + INR n * (val (e_release e) - pow2 (-25))).
      { rewrite S_INR in H. lra. }
      destruct (IH _ P I' eq_refl K) as (m & M & Q). exists (Datatypes.S m). split; [lia|].
      rewrite ticks_S, T, E. exact Q.
Qed.

Lemma sustain_stays n : forall e, e_state e = Sustain -> ticks n e = e.
Proof. induction n as [|n IH]; intros e S; [reflexivity|]. cbn [ticks]. unfold tick. rewrite S. cbn [snd]. now apply IH. Qed.
Lemma idle_stays n : forall e, e_state e = Idle -> ticks n e = e.
Proof. induction n as [|n IH]; intros e S; [reflexivity|]. cbn [ticks]. unfold tick. rewrite S. cbn [snd]. now apply IH. Qed.
End Envelope.
