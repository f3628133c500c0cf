(** * Lemmas for C110: settings that are held for a while. *)

From Coq Require Import ZArith Reals Lra Lia Psatz Arith Bool List.
From Flocq Require Import Core.
From Verif Require Import Base F32 Num M_Biquad S_Biquad S_BiquadF32 S_Sweep P_Biquad P_Butterworth P_Sweep.
Local Open Scope R_scope.

Lemma poles_jury c : poles_inside c -> jury c.
Proof.
  intros H. unfold jury, poles_inside in *. set (A := a1 c) in *. set (D := a2 c) in *. clearbody A D.
  destruct (Rle_or_lt (A * A) (4 * D)) as [K|K].
  - assert (0 <= D - A * A / 4) as N by lra. pose proof (sqrt_sqrt _ N) as S. set (v := sqrt (D - A * A / 4)) in *. clearbody v.
    specialize (H (- A / 2) v). assert (D1 : D < 1).
    { apply Rle_lt_trans with (- A / 2 * (- A / 2) + v * v); [right; lra|]. apply H; [|field]. apply Rmult_eq_reg_l with 4; [|lra]. nra. }
    pose proof (Rle_0_sqr A) as Q. unfold Rsqr in Q. split; [lra|]. split; nra.
  - assert (0 <= A * A - 4 * D) as N by lra. pose proof (sqrt_sqrt _ N) as S. set (v := sqrt (A * A - 4 * D)) in *. clearbody v.
    pose proof (H ((- A + v) / 2) 0 ltac:(nra) ltac:(ring)) as H1. pose proof (H ((- A - v) / 2) 0 ltac:(nra) ltac:(ring)) as H2.
    set (p := (- A + v) / 2) in *. set (q := (- A - v) / 2) in *.
    assert (EA : A = - (p + q)) by (unfold p, q; field). assert (ED : D = p * q) by (unfold p, q; nra). clearbody p q. subst A D.
    assert (-1 < p < 1) by (split; nra). assert (-1 < q < 1) by (split; nra). split; split; nra.
Qed.

Definition norm2 (b : biquad R) : R := z1 b * z1 b + z2 b * z2 b.
Lemma norm2_pos b : 0 <= norm2 b.
Proof. unfold norm2. pose proof (Rle_0_sqr (z1 b)). pose proof (Rle_0_sqr (z2 b)). unfold Rsqr in *. lra. Qed.

(** With the setting [c] in force for [n] samples. *)
Definition tamed (c : coeffs R) (N : nat) (C : R) : Prop :=
  forall b (e : nat -> coeffs R) x M s n, (forall i, Rabs (x i) <= M) -> (forall i, (s <= i < s + n)%nat -> e i = c) ->
  let w := after_var b e x in
  norm2 (w (s + n)%nat) <= C * norm2 (w s) + C * (M * M) /\ ((N <= n)%nat -> norm2 (w (s + n)%nat) <= norm2 (w s) / 2 + C * (M * M)).

Lemma tamed_more c N C N' C' : (N <= N')%nat -> C <= C' -> tamed c N C -> tamed c N' C'.
Proof.
  intros HN HC T b e x M s n Hx He w. destruct (T b e x M s n Hx He) as [T1 T2]. fold w in T1, T2.
  pose proof (norm2_pos (w s)) as P. pose proof (Rle_0_sqr M) as Q. unfold Rsqr in Q.
  assert (C * (M * M) <= C' * (M * M)) by (apply Rmult_le_compat_r; assumption).
  assert (C * norm2 (w s) <= C' * norm2 (w s)) by (apply Rmult_le_compat_r; assumption).
  split; [lra|]. intros Hn. assert (N <= n)%nat by lia. specialize (T2 H1). lra.
Qed.

Lemma jury_tamed c : jury c -> exists N C, 1 <= C /\ tamed c N C.
Proof.
  intros [H1 H2]. destruct (lyap_const (a1 c) (a2 c) H1 H2) as (L & d & HL & Hd & Vle & _ & Vf).
  set (V := lyap (a1 c) (a2 c)) in *.
  assert (Vge : forall s t, s * s + t * t <= V s t) by (apply lyap_ge; auto).
  assert (Vsc : forall u w x, V (u * x) (w * x) = V u w * (x * x)) by (intros; unfold V, lyap; ring).
  clearbody V. set (u := b1 c - a1 c * b0 c). set (v := b2 c - a2 c * b0 c).
  set (G := (1 + / (d / 2)) * V u v).
  assert (Vuw : 0 <= V u v) by (pose proof (Vge u v); pose proof (Rle_0_sqr u); pose proof (Rle_0_sqr v); unfold Rsqr in *; lra).
  assert (Hi : 0 < / (d / 2)) by (apply Rinv_0_lt_compat; lra).
  assert (HG : 0 <= G) by (unfold G; apply Rmult_le_pos; lra).
  set (C := G * (2 / d)). assert (HC : 0 <= C) by (unfold C; apply Rmult_le_pos; [exact HG|]; apply Rlt_le, Rdiv_lt_0_compat; lra).
  set (mu := 1 - d / 2). assert (Hmu : 0 <= mu < 1) by (unfold mu; lra).
  assert (Seg : forall b (e : nat -> coeffs R) x M s n, (forall i, Rabs (x i) <= M) -> (forall i, (s <= i < s + n)%nat -> e i = c) ->
    let w := after_var b e x in norm2 (w (s + n)%nat) <= L * mu ^ n * norm2 (w s) + C * (M * M)).
  { intros b e x M s n Hx He w. assert (HM : 0 <= M) by (pose proof (Rabs_pos (x O)); pose proof (Hx O); lra).
    assert (I : V (z1 (w (s + n)%nat)) (z2 (w (s + n)%nat)) <= mu ^ n * V (z1 (w s)) (z2 (w s)) + C * (M * M)).
    { induction n as [|n I].
      - rewrite Nat.add_0_r. cbn [pow]. assert (0 <= C * (M * M)) by (apply Rmult_le_pos; nra). lra.
      - replace (s + S n)%nat with (S (s + n)) by lia. unfold w at 1 2. rewrite var_z1, var_z2, var_out. fold w. rewrite (He (s + n)%nat) by lia.
        specialize (I ltac:(intros i Hj; apply He; lia)). set (m := (s + n)%nat) in *. clearbody m.
        set (p := z1 (w m)) in *. set (t := z2 (w m)) in *.
        replace (b1 c * x m + t - a1 c * (b0 c * x m + p)) with (- a1 c * p + t + u * x m) by (unfold u; ring).
        replace (b2 c * x m - a2 c * (b0 c * x m + p)) with (- a2 c * p + v * x m) by (unfold v; ring).
        eapply Rle_trans; [apply Vf|]. rewrite Vsc.
        assert (Hxx : x m * x m <= M * M) by (pose proof (Hx m) as Hn; apply Rabs_le_inv in Hn; nra).
        assert (J : (1 + / (d / 2)) * (V u v * (x m * x m)) <= G * (M * M)) by (rewrite <- Rmult_assoc; fold G; apply Rmult_le_compat_l; auto).
        fold mu. assert (K : mu * V p t <= mu * (mu ^ n * V (z1 (w s)) (z2 (w s)) + C * (M * M))) by (apply Rmult_le_compat_l; lra).
        assert (E : G = C * (1 - mu)) by (unfold C, mu; field; lra). rewrite E in J. cbn [pow]. lra. }
    unfold norm2 at 1. eapply Rle_trans; [apply Vge|]. eapply Rle_trans; [exact I|]. apply Rplus_le_compat_r.
    rewrite (Rmult_comm L), Rmult_assoc. apply Rmult_le_compat_l; [apply pow_le; lra|]. apply Vle. }
  destruct (pow_lt_1_zero mu ltac:(rewrite Rabs_pos_eq; lra) (/ (2 * L)) ltac:(apply Rinv_0_lt_compat; lra)) as [N HN].
  exists N, (L + C). split; [lra|]. intros b e x M s n Hx He w. pose proof (Seg b e x M s n Hx He) as S. cbv zeta in S. fold w in S.
  pose proof (norm2_pos (w s)) as P. pose proof (Rle_0_sqr M) as Q. unfold Rsqr in Q.
  assert (C * (M * M) <= (L + C) * (M * M)) by (apply Rmult_le_compat_r; lra).
  split.
  - assert (mu ^ n <= 1) by (rewrite <- (pow1 n); apply pow_incr; lra). assert (0 <= mu ^ n) by (apply pow_le; lra).
    assert (L * mu ^ n * norm2 (w s) <= (L + C) * norm2 (w s)) by (apply Rmult_le_compat_r; nra). lra.
  - intros Hn. specialize (HN n Hn). rewrite Rabs_pos_eq in HN by (apply pow_le; lra).
    assert (L * mu ^ n <= / 2). { apply Rle_trans with (L * / (2 * L)); [apply Rmult_le_compat_l; lra|right; field; lra]. }
    assert (L * mu ^ n * norm2 (w s) <= / 2 * norm2 (w s)) by (apply Rmult_le_compat_r; assumption). lra.
Qed.

Lemma list_tamed (l : list (coeffs R)) : (forall c, In c l -> jury c) ->
  exists N C, 1 <= C /\ forall c, In c l -> tamed c N C /\ Rabs (b0 c) <= C.
Proof.
  induction l as [|c l IH]; intros H; [exists O, 1; split; [lra|intros c []]|].
  destruct IH as (N & C & HC & HT); [intros d Hd; apply H; now right|]. destruct (jury_tamed c (H c (or_introl eq_refl))) as (N' & C' & HC' & HT').
  exists (Nat.max N N'), (C + C' + Rabs (b0 c)). pose proof (Rabs_pos (b0 c)). split; [lra|]. intros d [<-|Hd].
  - split; [|lra]. apply (tamed_more c N' C'); [lia|lra|exact HT'].
  - destruct (HT d Hd) as [T B]. split; [|lra]. apply (tamed_more d N C); [lia|lra|exact T].
Qed.

Lemma coeffs_eq_dec (c d : coeffs R) : c = d \/ c <> d.
Proof.
  destruct c as [p q r s t], d as [p' q' r' s' t'].
  destruct (Req_dec p p') as [->|N]; [|right; intros E; apply N; now inversion E].
  destruct (Req_dec q q') as [->|N]; [|right; intros E; apply N; now inversion E].
  destruct (Req_dec r r') as [->|N]; [|right; intros E; apply N; now inversion E].
  destruct (Req_dec s s') as [->|N]; [|right; intros E; apply N; now inversion E].
  destruct (Req_dec t t') as [->|N]; [|right; intros E; apply N; now inversion E]. now left.
Qed.

Section Held.
Variables (N : nat) (C : R) (c : nat -> coeffs R) (x : nat -> R) (M : R).
Hypothesis HC : 1 <= C.
Hypothesis HT : forall n, tamed (c n) N C.
Hypothesis HH : held N c.
Hypothesis Hx : forall n, Rabs (x n) <= M.
Let w := after_var (bq_new (c 0%nat)) c x.

Lemma held_segment n : exists s, (s <= n)%nat /\ (forall i, (s <= i <= n)%nat -> c i = c s) /\
  norm2 (w s) <= 2 * C * (M * M) /\ (s = 0%nat \/ exists p, s = S p /\ c (S p) <> c p).
Proof.
  pose proof (Rle_0_sqr M) as Q. unfold Rsqr in Q. assert (CM : 0 <= C * (M * M)) by (apply Rmult_le_pos; lra).
  assert (W0 : norm2 (w 0%nat) = 0) by (change (w 0%nat) with (bq_new (c 0%nat)); unfold norm2; destruct (z_rest (c 0%nat)) as [E1 E2]; rewrite E1, E2; ring).
  induction n as [|n (s & L & E & B & D)].
  - exists 0%nat. split; [lia|]. split; [intros i Hi; now replace i with 0%nat by lia|]. split; [rewrite W0; lra|now left].
  - destruct (coeffs_eq_dec (c (S n)) (c n)) as [Eq|Ne].
    + exists s. split; [lia|]. split; [|tauto]. intros i Hi. destruct (Nat.eq_dec i (S n)) as [->|]; [rewrite Eq; apply E; lia|apply E; lia].
    + exists (S n). split; [lia|]. split; [intros i Hi; now replace i with (S n) by lia|]. split; [|right; exists n; auto].
      destruct (HT s (bq_new (c 0%nat)) c x M s (S n - s)%nat Hx) as [T1 T2]; [intros i Hi; apply E; lia|]. fold w in T1, T2. replace (s + (S n - s))%nat with (S n) in * by lia.
      destruct D as [->|(p & -> & Np)]; [rewrite W0 in T1; lra|].
      assert (N <= S n - S p)%nat.
      { destruct (Nat.le_gt_cases N (S n - S p)) as [K|K]; [exact K|]. exfalso. apply Ne.
        pose proof (HH p Np (S n - S p)%nat K) as F. replace (S p + (S n - S p))%nat with (S n) in F by lia. rewrite F. symmetry. apply E. lia. }
      specialize (T2 H). lra.
Qed.

Lemma held_state n : norm2 (w n) <= 3 * C * C * (M * M).
Proof.
  pose proof (Rle_0_sqr M) as Q. unfold Rsqr in Q.
  destruct (held_segment n) as (s & L & E & B & _). destruct (HT s (bq_new (c 0%nat)) c x M s (n - s)%nat Hx) as [T1 _]; [intros i Hi; apply E; lia|].
  fold w in T1. replace (s + (n - s))%nat with n in T1 by lia.
  assert (C * norm2 (w s) <= C * (2 * C * (M * M))) by (apply Rmult_le_compat_l; lra).
  assert (C * (M * M) <= C * C * (M * M)) by (apply Rmult_le_compat_r; nra). lra.
Qed.
End Held.
