(** * Theorems: the panning laws in single precision (C86). *)

From Coq Require Import ZArith List Bool Reals Lia Lra.
From Flocq Require Import Core IEEE754.BinarySingleNaN IEEE754.Binary IEEE754.Bits.
From Verif Require Import Base F32 F32Lemmas F32Exact F32Ints F32Range F32Over Num M_Levels P_Interp P_SineFloat P_Bits P_Levels T_Levels Examples.
Import ListNotations.
Local Open Scope R_scope.

(** What is asked of the square root routine on [0, 1]: an absolute error of at most e (the crate's
    routine is an approximation), ... *)
Definition sqrt_within (e : R) (MO : MathOps f32) : Prop := forall x, fin x = true -> 0 <= val x <= 1 ->
  fin (m_sqrt x) = true /\ Rabs (val (m_sqrt x) - sqrt (val x)) <= e.
(** ... or that it increases and stays in [0, 1]. *)
Definition sqrt_monotone (MO : MathOps f32) : Prop :=
  (forall x, fin x = true -> 0 <= val x <= 1 -> fin (m_sqrt x) = true /\ 0 <= val (m_sqrt x) <= 1) /\
  (forall x y, fin x = true -> fin y = true -> 0 <= val x -> val x <= val y -> val y <= 1 -> val (m_sqrt x) <= val (m_sqrt y)).

Lemma sqrt_rel u r d : 0 <= u -> 0 <= d <= 1 -> Rabs (r - u) <= d * u -> Rabs (sqrt r - sqrt u) <= d * sqrt u.
Proof.
  intros Hu Hd H. apply Rabs_le_inv in H. pose proof (sqrt_pos u) as P. pose proof (sqrt_sqrt u Hu) as S.
  assert (R0 : 0 <= r) by nra. pose proof (sqrt_pos r) as Q. pose proof (sqrt_sqrt r R0) as T.
  apply Rabs_le. split.
  - assert ((1 - d) * sqrt u <= sqrt r); [|lra]. apply Rsqr_incr_0_var; [|exact Q]. unfold Rsqr. rewrite T.
    replace ((1 - d) * sqrt u * ((1 - d) * sqrt u)) with ((1 - d) * (1 - d) * u) by (rewrite <- S at 1; ring). nra.
  - assert (sqrt r <= (1 + d) * sqrt u); [|lra]. apply Rsqr_incr_0_var; [|nra]. unfold Rsqr. rewrite T.
    replace ((1 + d) * sqrt u * ((1 + d) * sqrt u)) with ((1 + d) * (1 + d) * u) by (rewrite <- S at 1; ring). nra.
Qed.

Lemma pan_rel v : repr v -> -1 <= v <= 1 -> Rabs (rnd (1 + v) / 2 - (1 + v) / 2) <= pow2 (-24) * ((1 + v) / 2).
Proof.
  intros R H. destruct (pan_sum_spec v R H) as [B [[E ->]|C]].
  - rewrite E. replace (0 / 2 - (1 + -1) / 2) with 0 by field. rewrite Rabs_R0. lra.
  - assert (Rabs (rnd (1 + v) - (1 + v)) <= pow2 (-24) * (1 + v)); [|replace (rnd (1 + v) / 2 - (1 + v) / 2) with ((rnd (1 + v) - (1 + v)) * / 2) by field; rewrite Rabs_mult, (Rabs_pos_eq (/ 2)) by lra; lra].
    assert (P : pow2 (-126) <= Rabs (1 + v)).
    { rewrite Rabs_pos_eq by lra. destruct (Rle_lt_dec (pow2 (-126)) (1 + v)) as [|L]; [assumption|exfalso].
      assert (rnd (1 + v) <= pow2 (-126)) by (apply rnd_le_repr; [apply repr_bpow; lia|lra]).
      pose proof (bpow_lt radix2 (-126) (-24) ltac:(lia)). lra. }
    pose proof (rnd_err_rel _ P) as E. rewrite (Rabs_pos_eq (1 + v)) in E by lra. exact E.
Qed.

Lemma stereo_gains (NP : NanPolicy) (MO : MathOps f32) a ss : fin a = true -> -1 <= val a <= 1 ->
  stereo_pan a ss = Ok (fmul (fst ss) (m_sqrt (pan_l a)), fmul (snd ss) (m_sqrt (pan_r a))).
Proof.
  intros Fa Ha. destruct (pan_check_cases NP a) as (_ & _ & H3).
  assert (E : check_pan_error a = Ok a) by (apply H3; right; now rewrite ext_fin). unfold stereo_pan. rewrite E. reflexivity.
Qed.

(** C86: the gains [stereo_pan] applies are the equal-power gains sqrt((1 - a)/2) and sqrt((1 + a)/2)
    up to the square root's error e and one rounding, so the sum of their squares stays within about
    3e of 1. *)
Theorem C86_stereo_gains : forall (NP : NanPolicy) (MO : MathOps f32) (e : R) (a : f32), sqrt_within e MO ->
  fin a = true -> -1 <= val a <= 1 -> let d := e + pow2 (-24) in
  exists gl gr, (forall ss, stereo_pan a ss = Ok (fmul (fst ss) gl, fmul (snd ss) gr)) /\ fin gl = true /\ fin gr = true /\
    Rabs (val gl - sqrt ((1 - val a) / 2)) <= d /\ Rabs (val gr - sqrt ((1 + val a) / 2)) <= d /\
    Rabs (val gl * val gl + val gr * val gr - 1) <= 3 * d + 2 * (d * d).
Proof.
  intros NP MO e a Hs Fa Ha d. exists (m_sqrt (pan_l a)), (m_sqrt (pan_r a)). split; [intros; now apply stereo_gains|].
  destruct (pan_l_spec a Fa Ha) as (Fl & Vl & Bl). destruct (pan_r_spec a Fa Ha) as (Fr & Vr & Br).
  destruct (Hs _ Fl Bl) as [F1 E1]. destruct (Hs _ Fr Br) as [F2 E2]. split; [exact F1|]. split; [exact F2|].
  assert (P24 : 0 <= pow2 (-24) <= 1) by (cbn; lra).
  assert (G : forall v g, repr v -> -1 <= v <= 1 -> Rabs (g - sqrt (rnd (1 + v) / 2)) <= e -> Rabs (g - sqrt ((1 + v) / 2)) <= d).
  { intros v g R H E. pose proof (sqrt_rel ((1 + v) / 2) (rnd (1 + v) / 2) (pow2 (-24)) ltac:(lra) P24 (pan_rel v R H)) as S.
    pose proof (sqrt_le_1_alt ((1 + v) / 2) 1 ltac:(lra)) as L1. rewrite sqrt_1 in L1. pose proof (sqrt_pos ((1 + v) / 2)).
    assert (pow2 (-24) * sqrt ((1 + v) / 2) <= pow2 (-24) * 1) by (apply Rmult_le_compat_l; lra).
    apply Rabs_le_inv in E. apply Rabs_le_inv in S. apply Rabs_le. unfold d. lra. }
  assert (D1 : Rabs (val (m_sqrt (pan_l a)) - sqrt ((1 - val a) / 2)) <= d).
  { apply (G (- val a)); [apply repr_opp, repr_val|lra|]. unfold Rminus at 1 in Vl. rewrite <- Vl. exact E1. }
  assert (D2 : Rabs (val (m_sqrt (pan_r a)) - sqrt ((1 + val a) / 2)) <= d).
  { apply (G (val a)); [apply repr_val|lra|]. rewrite <- Vr. exact E2. }
  split; [exact D1|]. split; [exact D2|].
  set (x := val (m_sqrt (pan_l a))) in *. set (y := val (m_sqrt (pan_r a))) in *.
  pose proof (sqrt_sqrt ((1 - val a) / 2) ltac:(lra)) as S1. pose proof (sqrt_sqrt ((1 + val a) / 2) ltac:(lra)) as S2.
  pose proof (sqrt_pos ((1 - val a) / 2)) as P1. pose proof (sqrt_pos ((1 + val a) / 2)) as P2.
  set (u := sqrt ((1 - val a) / 2)) in *. set (w := sqrt ((1 + val a) / 2)) in *.
  assert (SU : u * u + w * w = 1) by lra. assert (UW : u + w <= 3 / 2) by (assert (0 <= (u - w) * (u - w)) by apply Rle_0_sqr; nra).
  assert (Dp : 0 <= d) by (pose proof (Rabs_pos (x - u)); lra).
  assert (Q : forall x u, 0 <= u -> Rabs (x - u) <= d -> Rabs (x * x - u * u) <= d * (2 * u + d)).
  { intros x0 u0 U0 H. replace (x0 * x0 - u0 * u0) with ((x0 - u0) * (2 * u0 + (x0 - u0))) by ring. rewrite Rabs_mult.
    apply Rmult_le_compat; try apply Rabs_pos; [exact H|]. apply Rle_trans with (1 := Rabs_triang _ _). rewrite (Rabs_pos_eq (2 * u0)) by lra. lra. }
  pose proof (Q x u P1 D1) as A1. pose proof (Q y w P2 D2) as A2.
  replace (x * x + y * y - 1) with ((x * x - u * u) + (y * y - w * w)) by lra.
  apply Rle_trans with (1 := Rabs_triang _ _). nra.
Qed.
Print Assumptions C86_stereo_gains.

(** C86: which side is louder. With an increasing square root, moving to the right never makes the
    left channel louder nor the right one quieter, and equal samples come out no quieter on the side
    panned to; the same for [mono_pan] without any condition. *)
Theorem C86_louder_side : forall (NP : NanPolicy) (MO : MathOps f32) (a b s : f32), sqrt_monotone MO ->
  fin a = true -> fin b = true -> fin s = true -> -1 <= val a -> val a <= val b -> val b <= 1 ->
  (exists la ra lb rb, stereo_pan a (s, s) = Ok (la, ra) /\ stereo_pan b (s, s) = Ok (lb, rb) /\
    Rabs (val lb) <= Rabs (val la) /\ Rabs (val ra) <= Rabs (val rb) /\
    (val a <= 0 -> Rabs (val ra) <= Rabs (val la)) /\ (0 <= val a -> Rabs (val la) <= Rabs (val ra))) /\
  (exists l r, mono_pan a s = Ok (l, r) /\ (val a <= 0 -> Rabs (val r) <= Rabs (val l)) /\ (0 <= val a -> Rabs (val l) <= Rabs (val r))).
Proof.
  intros NP MO a b s [Hr Hm] Fa Fb Fs H1 H2 H3.
  destruct (pan_l_spec a Fa ltac:(lra)) as (Fla & Vla & Bla). destruct (pan_r_spec a Fa ltac:(lra)) as (Fra & Vra & Bra).
  destruct (pan_l_spec b Fb ltac:(lra)) as (Flb & Vlb & Blb). destruct (pan_r_spec b Fb ltac:(lra)) as (Frb & Vrb & Brb).
  assert (L : rnd (1 - val b) <= rnd (1 - val a)) by (apply rnd_le; lra). assert (R : rnd (1 + val a) <= rnd (1 + val b)) by (apply rnd_le; lra).
  assert (N : val a <= 0 -> rnd (1 + val a) <= rnd (1 - val a)) by (intros; apply rnd_le; lra).
  assert (P : 0 <= val a -> rnd (1 - val a) <= rnd (1 + val a)) by (intros; apply rnd_le; lra).
  assert (SG : forall g g', fin g = true -> fin g' = true -> 0 <= val g <= 1 -> 0 <= val g' <= 1 -> val g <= val g' ->
    Rabs (val (fmul s (m_sqrt g))) <= Rabs (val (fmul s (m_sqrt g')))).
  { intros g g' Fg Fg' Bg Bg' H. destruct (Hr _ Fg Bg). destruct (Hr _ Fg' Bg'). apply gain_mono; try assumption; try lra. apply Hm; auto; lra. }
  split.
  - do 4 eexists. split; [apply stereo_gains; auto; lra|]. split; [apply stereo_gains; auto; lra|]. cbn [fst snd].
    split; [apply SG; auto; lra|]. split; [apply SG; auto; lra|]. split; intros Z; apply SG; auto.
    + specialize (N Z). lra.
    + specialize (P Z). lra.
  - destruct (pan_check_cases NP a) as (_ & _ & K). assert (E : check_pan_error a = Ok a) by (apply K; right; rewrite ext_fin by exact Fa; lra).
    exists (fmul s (pan_l a)), (fmul s (pan_r a)). split; [unfold mono_pan; rewrite E; reflexivity|].
    split; intros Z; [specialize (N Z)|specialize (P Z)]; apply gain_mono; auto; lra.
Qed.
Print Assumptions C86_louder_side.

Lemma gain_err (NP : NanPolicy) (s g : f32) (t : R) : fin s = true -> fin g = true -> 0 <= val g <= 1 -> 0 <= t <= 1 -> Rabs (val g - t) <= pow2 (-24) ->
  fin (fmul s g) = true /\ Rabs (val (fmul s g)) <= Rabs (val s) /\ Rabs (val (fmul s g) - val s * t) <= pow2 (-23) * Rabs (val s) + pow2 (-150).
Proof.
  intros Fs Fg Bg Ht E. destruct (gain_mul s g Fs Fg Bg) as (F & V & B). split; [exact F|]. split; [exact B|]. rewrite V.
  pose proof (rnd_err (val s * val g)) as R. rewrite (Rabs_mult (val s) (val g)), (Rabs_pos_eq (val g)) in R by lra.
  replace (rnd (val s * val g) - val s * t) with ((rnd (val s * val g) - val s * val g) + val s * (val g - t)) by ring.
  apply Rle_trans with (1 := Rabs_triang _ _). rewrite (Rabs_mult (val s) (val g - t)).
  pose proof (Rabs_pos (val s)). assert (Rabs (val s) * Rabs (val g - t) <= Rabs (val s) * pow2 (-24)) by (apply Rmult_le_compat_l; assumption).
  assert (Rabs (val s) * val g <= Rabs (val s)) by nra. assert (0 < pow2 (-24)) by apply bpow_gt_0.
  replace (pow2 (-23)) with (2 * pow2 (-24)) by (cbn; lra). nra.
Qed.
Lemma pan_abs (NP : NanPolicy) (a : f32) : fin a = true -> -1 <= val a <= 1 ->
  Rabs (val (pan_l a) - (1 - val a) / 2) <= pow2 (-24) /\ Rabs (val (pan_r a) - (1 + val a) / 2) <= pow2 (-24).
Proof.
  intros Fa Ha. destruct (pan_l_spec a Fa Ha) as (_ & Vl & _). destruct (pan_r_spec a Fa Ha) as (_ & Vr & _). assert (0 < pow2 (-24)) by apply bpow_gt_0.
  split; [rewrite Vl; pose proof (pan_rel (- val a) (repr_opp _ (repr_val a)) ltac:(lra)) as E|rewrite Vr; pose proof (pan_rel (val a) (repr_val a) Ha) as E].
  - change (1 + - val a) with (1 - val a) in E. nra.
  - nra.
Qed.

(** C86: in single precision the two channels of [mono_pan] still add up to the sample, to within
    2^-22 of it. *)
Theorem C86_mono_sum : forall (NP : NanPolicy) (a s : f32), fin a = true -> -1 <= val a <= 1 -> fin s = true ->
  exists l r, mono_pan a s = Ok (l, r) /\ fin l = true /\ fin r = true /\
    Rabs (val l - val s * ((1 - val a) / 2)) <= pow2 (-23) * Rabs (val s) + pow2 (-150) /\
    Rabs (val r - val s * ((1 + val a) / 2)) <= pow2 (-23) * Rabs (val s) + pow2 (-150) /\
    Rabs (val l + val r - val s) <= pow2 (-22) * Rabs (val s) + pow2 (-149).
Proof.
  intros NP a s Fa Ha Fs. destruct (pan_check_cases NP a) as (_ & _ & K). assert (E : check_pan_error a = Ok a) by (apply K; right; now rewrite ext_fin).
  exists (fmul s (pan_l a)), (fmul s (pan_r a)). split; [unfold mono_pan; rewrite E; reflexivity|].
  destruct (pan_l_spec a Fa Ha) as (Fl & _ & Bl). destruct (pan_r_spec a Fa Ha) as (Fr & _ & Br). destruct (pan_abs NP a Fa Ha) as [Al Ar].
  destruct (gain_err NP s (pan_l a) ((1 - val a) / 2) Fs Fl Bl ltac:(lra) Al) as (F1 & _ & E1).
  destruct (gain_err NP s (pan_r a) ((1 + val a) / 2) Fs Fr Br ltac:(lra) Ar) as (F2 & _ & E2).
  split; [exact F1|]. split; [exact F2|]. split; [exact E1|]. split; [exact E2|].
  apply Rabs_le_inv in E1. apply Rabs_le_inv in E2. apply Rabs_le.
  replace (pow2 (-22)) with (2 * pow2 (-23)) by (cbn; lra). replace (pow2 (-149)) with (2 * pow2 (-150)) by (change (-149)%Z with (1 + -150)%Z; rewrite bpow_plus; reflexivity). lra.
Qed.
Print Assumptions C86_mono_sum.

(** C86: in single precision the crossfade is within 2^-21 of the larger input of the exact mix
    ((1 - a) x + (1 + a) y) / 2. *)
Theorem C86_crossfade : forall (NP : NanPolicy) (a x y : f32), fin a = true -> -1 <= val a <= 1 -> fin x = true -> fin y = true ->
  Rabs (val x) <= pow2 126 -> Rabs (val y) <= pow2 126 ->
  let v := crossfade_correlated_unchecked a (x, y) in let M := Rmax (Rabs (val x)) (Rabs (val y)) in
  fin v = true /\ Rabs (val v - ((1 - val a) * val x + (1 + val a) * val y) / 2) <= pow2 (-21) * M + pow2 (-148).
Proof.
  intros NP a x y Fa Ha Fx Fy Bx By v M.
  destruct (pan_l_spec a Fa Ha) as (Fl & _ & Bl). destruct (pan_r_spec a Fa Ha) as (Fr & _ & Br). destruct (pan_abs NP a Fa Ha) as [Al Ar].
  destruct (gain_err NP x (pan_l a) ((1 - val a) / 2) Fx Fl Bl ltac:(lra) Al) as (F1 & B1 & E1).
  destruct (gain_err NP y (pan_r a) ((1 + val a) / 2) Fy Fr Br ltac:(lra) Ar) as (F2 & B2 & E2).
  assert (S : Rabs (val (fmul x (pan_l a)) + val (fmul y (pan_r a))) <= pow2 127).
  { apply Rle_trans with (1 := Rabs_triang _ _). change 127%Z with (1 + 126)%Z. rewrite bpow_plus. change (pow2 1) with 2. lra. }
  destruct (fadd_bnd _ _ (pow2 127) F1 F2) as (F & V & _); [apply repr_bpow; lia|apply bpow_lt; lia|exact S|].
  change (fadd (fmul x (pan_l a)) (fmul y (pan_r a))) with v in F, V. split; [exact F|]. rewrite V.
  set (p := val (fmul x (pan_l a))) in *. set (q := val (fmul y (pan_r a))) in *.
  pose proof (rnd_err (p + q)) as R. pose proof (Rabs_triang p q) as T.
  assert (MX : Rabs (val x) <= M) by apply Rmax_l. assert (MY : Rabs (val y) <= M) by apply Rmax_r.
  assert (P24 : 0 < pow2 (-24)) by apply bpow_gt_0. assert (P150 : 0 < pow2 (-150)) by apply bpow_gt_0.
  replace (pow2 (-23)) with (2 * pow2 (-24)) in E1, E2 by (cbn; lra). replace (pow2 (-21)) with (8 * pow2 (-24)) by (cbn; lra).
  replace (pow2 (-148)) with (4 * pow2 (-150)) by (change (-148)%Z with (2 + -150)%Z; rewrite bpow_plus; reflexivity).
  apply Rabs_le_inv in E1. apply Rabs_le_inv in E2. apply Rabs_le_inv in R. apply Rabs_le.
  assert (pow2 (-24) * Rabs (p + q) <= pow2 (-24) * (2 * M)) by (apply Rmult_le_compat_l; lra).
  assert (pow2 (-24) * Rabs (val x) <= pow2 (-24) * M) by (apply Rmult_le_compat_l; lra).
  assert (pow2 (-24) * Rabs (val y) <= pow2 (-24) * M) by (apply Rmult_le_compat_l; lra). lra.
Qed.
Print Assumptions C86_crossfade.

(** The correctly rounded square root meets both contracts. *)
Definition sqrt_math : MathOps f32 := {|
  m_floor := ref_floor (NP := default_policy); m_sqrt := Binary.Bsqrt 24 128 prec_pos prec_emax (fun x => binop_nan_pl32 x x) mode_NE; m_exp := fun x => x;
  m_log10 := fun x => x; m_powf := fun x _ => x; m_powi := fun x _ => x |}.
Lemma sqrt_math_val x : fin x = true -> 0 <= val x <= 1 -> fin (@m_sqrt _ sqrt_math x) = true /\ val (@m_sqrt _ sqrt_math x) = rnd (sqrt (val x)).
Proof.
  intros F H. cbn [m_sqrt sqrt_math].
  destruct (Binary.Bsqrt_correct 24 128 prec_pos prec_emax (fun x => binop_nan_pl32 x x) mode_NE x) as (V & Fi & _).
  split; [|exact V]. unfold fin. rewrite Fi. destruct x as [[]|[]|[]|[] m e B]; try reflexivity; try discriminate F.
  exfalso. unfold val in H. cbn in H. assert (Core.Defs.F2R (Core.Defs.Float radix2 (Z.neg m) e) < 0) by (apply F2R_lt_0; reflexivity). cbn in H0. lra.
Qed.
Example C86_met : sqrt_within (pow2 (-25)) sqrt_math /\ sqrt_monotone sqrt_math /\
  (let a := lit (-1) (-2) in fin a = true /\ -1 <= val a <= 1 /\ 
    match @stereo_pan f32 (num_f32 (NP := default_policy)) sqrt_math a (of_int 1, of_int 1) with Ok (l, r) => (to_bits l, to_bits r) = (1061839554, 1058849905)%Z | Err _ => False end).
Proof.
  assert (Q : forall x, 0 <= x <= 1 -> 0 <= sqrt x <= 1).
  { intros x H. split; [apply sqrt_pos|]. rewrite <- sqrt_1. apply sqrt_le_1_alt. lra. }
  split; [|split; [split|]].
  - intros x F H. destruct (sqrt_math_val x F H) as [F' V]. split; [exact F'|]. rewrite V. apply (rnd_err_bpow _ 0); [lia|].
    rewrite Rabs_pos_eq; apply Q; exact H.
  - intros x F H. destruct (sqrt_math_val x F H) as [F' V]. split; [exact F'|]. rewrite V. apply repr_between; [apply repr_0|apply (repr_int 1); lia|auto].
  - intros x y Fx Fy H0 H H1. destruct (sqrt_math_val x Fx ltac:(lra)) as [_ ->]. destruct (sqrt_math_val y Fy ltac:(lra)) as [_ ->].
    apply rnd_le. now apply sqrt_le_1_alt.
  - cbv zeta. destruct (lit_exact (-1) (-2) ltac:(lia) ltac:(lia)) as [F V]. split; [exact F|]. split; [rewrite V; cbn; lra|].
    vm_compute. reflexivity.
Qed.
