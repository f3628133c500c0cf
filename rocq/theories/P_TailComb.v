(** * Proofs: how quiet a comb becomes once the input has stopped (C113). *)

From Coq Require Import ZArith List Bool Reals Lia Lra Psatz.
From Flocq Require Import Core.
From Verif Require Import Base F32 F32Lemmas Num M_Memory M_Delay S_Memory S_Delay S_Comb S_Tail P_Delay P_DelayNum P_Comb P_BiquadMore P_Tail P_TailBiquad.
Import ListNotations.
Local Open Scope R_scope.

(** ** The comb as two sequences, in any arithmetic *)
Section Seq.
Context {F : Type} {NF : Num F}.
Variables (d0 : list F) (m0 : nat) (s0 damp g : F) (x : nat -> F).
Local Open Scope num_scope.

Fixpoint fst_k (k : nat) : list F * F :=
  match k with
  | O => (d0, s0)
  | S j => let '(d, s) := fst_k j in
      let s' := nth (m0 + j) d (nint 0) * (nint 1 - damp) + s * damp in (d ++ [x j + s' * g], s')
  end.
Definition fy (k : nat) : F := nth (m0 + k) (fst (fst_k k)) (nint 0).
Definition fs (k : nat) : F := snd (fst_k k).

Lemma fs_S k : fs (S k) = fy k * (nint 1 - damp) + fs k * damp.
Proof. unfold fs, fy. cbn [fst_k]. destruct (fst_k k) as [d s]. reflexivity. Qed.
Lemma fst_S k : fst (fst_k (S k)) = fst (fst_k k) ++ [x k + fs (S k) * g].
Proof. unfold fs. cbn [fst_k]. destruct (fst_k k) as [d s]. reflexivity. Qed.
Lemma fst_len k : length (fst (fst_k k)) = (length d0 + k)%nat.
Proof. induction k as [|k IH]; [cbn; lia|]. rewrite fst_S, app_length, IH. cbn. lia. Qed.
Lemma fst_stable k j i : (i < length d0 + k)%nat -> nth i (fst (fst_k (k + j))) (nint 0) = nth i (fst (fst_k k)) (nint 0).
Proof.
  intros Hi. induction j as [|j IH]; [now rewrite Nat.add_0_r|]. rewrite Nat.add_succ_r, fst_S, app_nth1, IH; [reflexivity|].
  rewrite fst_len. lia.
Qed.
Lemma fy_next n k : (length d0 = m0 + n)%nat -> (0 < n)%nat -> fy (k + n) = x k + fs (S k) * g.
Proof.
  intros L Hn. unfold fy. replace (k + n)%nat with (S k + (n - 1))%nat at 2 by lia.
  rewrite fst_stable by lia. rewrite fst_S, app_nth2 by (rewrite fst_len; lia). rewrite fst_len.
  replace (m0 + (k + n) - (length d0 + k))%nat with 0%nat by lia. reflexivity.
Qed.
Lemma spec_seq N : forall k, comb_spec (fst (fst_k k)) (m0 + k) (fs k) damp g (map CTick (map x (seq k N))) = map fy (seq k N).
Proof.
  induction N as [|N IH]; intros k; [reflexivity|]. cbn [seq map comb_spec]. f_equal.
  rewrite <- IH, fst_S, fs_S. now rewrite Nat.add_succ_r.
Qed.
End Seq.

Lemma spec_app {F} {NF : Num F} (ops : list (comb_op F)) : forall d m s damp g, exists d' m' s' damp' g',
  (length d' + m = length d + m')%nat /\ forall r, comb_spec d m s damp g (ops ++ r) = comb_spec d m s damp g ops ++ comb_spec d' m' s' damp' g' r.
Proof.
  induction ops as [|op ops IH]; intros d m s damp g.
  - exists d, m, s, damp, g. split; [lia|reflexivity].
  - destruct op as [x|v|v]; cbn [app comb_spec]; [|apply IH|apply IH].
    destruct (IH (d ++ [nadd x (nmul (nadd (nmul (nth m d (nint 0)) (nsub (nint 1) damp)) (nmul s damp)) g)]) (S m)
      (nadd (nmul (nth m d (nint 0)) (nsub (nint 1) damp)) (nmul s damp)) damp g) as (d' & m' & s' & damp' & g' & L & E).
    exists d', m', s', damp', g'. rewrite app_length in L. cbn [length] in L. split; [lia|]. intros r. cbv zeta. cbn [app]. f_equal. apply E.
Qed.

(** ** Repeated improvement of an eventual bound *)
Lemma improve (P : R -> Prop) lam c T0 : 0 <= lam < 1 -> 0 <= c -> (forall T T', P T -> T <= T' -> P T') ->
  (forall T, 0 <= T -> P T -> P (lam * T + c)) -> P T0 -> forall eps, 0 < eps -> P (c / (1 - lam) + eps).
Proof.
  intros Hl Hc Up St H0 eps He. set (m := c / (1 - lam)). assert (Hm : c = m * (1 - lam)) by (unfold m; field; lra).
  assert (Pm : 0 <= m) by (unfold m, Rdiv; apply Rmult_le_pos; [exact Hc|left; apply Rinv_0_lt_compat; lra]).
  set (T1 := Rmax 0 T0). assert (P1 : 0 <= T1) by apply Rmax_l. assert (H1 : P T1) by (apply Up with T0; [exact H0|apply Rmax_r]).
  assert (I : forall j, P (lam ^ j * T1 + m)).
  { induction j as [|j IH]; [apply Up with T1; [exact H1|rewrite pow_O; lra]|].
    apply Up with (lam * (lam ^ j * T1 + m) + c); [|rewrite Hm; cbn [pow]; right; ring]. apply St; [|exact IH].
    pose proof (pow_le lam j (proj1 Hl)). pose proof (Rmult_le_pos _ _ H P1). lra. }
  destruct (pow_lt_1_zero lam ltac:(rewrite Rabs_pos_eq; lra) (eps / (1 + T1))) as [J HJ]; [apply Rdiv_lt_0_compat; lra|].
  pose proof (HJ J (le_n _)) as Q. rewrite Rabs_pos_eq in Q by (apply pow_le; lra).
  apply Up with (lam ^ J * T1 + m); [apply I|]. assert (lam ^ J * T1 <= eps); [|lra].
  apply Rle_trans with (eps / (1 + T1) * (1 + T1)); [|right; field; lra].
  apply Rmult_le_compat; [apply pow_le; lra|exact P1|lra|lra].
Qed.

Definition ev (y : nat -> R) (T : R) : Prop := exists N, forall n, (N <= n)%nat -> Rabs (y n) <= T.
Lemma ev_up y T T' : ev y T -> T <= T' -> ev y T'.
Proof. intros [N H] L. exists N. intros n Hn. specialize (H n Hn). lra. Qed.

Section Quiet.
Variables (y s x : nat -> R) (n : nat) (D d g f delta : R).
Hypothesis Hd : 0 <= d <= 15 / 16.
Hypothesis HD : 0 <= D <= 1 - d + pow2 (-25).
Hypothesis Hg : Rabs g <= f.
Hypothesis Hf : 1 / 2 <= f <= 1023 / 1024.
Hypothesis Hs : forall k, s (S k) = rnd (rnd (y k * D) + rnd (s k * d)).
Hypothesis Hy : forall k, y (k + n)%nat = rnd (x k + rnd (s (S k) * g)).
Hypothesis Hdel : 0 <= delta.
Hypothesis Hx : ev x delta.

Let de := pow2 (-24).
Lemma de_val : de = 1 / 16777216. Proof. unfold de. cbn. lra. Qed.
Lemma e25 : pow2 (-25) = de / 2.
Proof. unfold de. replace (-24)%Z with (-25 + 1)%Z by lia. rewrite bpow_plus. change (pow2 1) with 2. field. Qed.

Lemma rnd_size v : Rabs (rnd v) <= (1 + de) * Rabs v + tiny / 2.
Proof.
  pose proof (rnd_err v) as E. fold de in E. replace (pow2 (-150)) with (tiny / 2) in E by (unfold tiny; replace (-149)%Z with (-150 + 1)%Z by lia; rewrite bpow_plus; change (pow2 1) with 2; field).
  replace (rnd v) with (rnd v - v + v) by ring. eapply Rle_trans; [apply Rabs_triang|]. lra.
Qed.

Lemma s_step T : 0 <= T -> ev y T -> forall t, 0 <= t -> ev s t -> ev s ((1 + 3 * de) * d * t + ((1 + 3 * de) * D * T + 2 * tiny)).
Proof.
  intros PT [N1 H1] t Pt [N2 H2]. exists (S (N1 + N2)). intros [|k] Hk; [lia|]. rewrite Hs. specialize (H1 k ltac:(lia)). specialize (H2 k ltac:(lia)).
  pose proof (rnd_size (y k * D)) as R1. pose proof (rnd_size (s k * d)) as R2. set (a := rnd (y k * D)) in *. set (b := rnd (s k * d)) in *.
  pose proof (rnd_size (a + b)) as R3. set (c := rnd (a + b)) in *. clearbody a b c.
  rewrite Rabs_mult, (Rabs_pos_eq D) in R1 by lra. rewrite Rabs_mult, (Rabs_pos_eq d) in R2 by lra.
  assert (M1 : Rabs (y k) * D <= D * T) by (rewrite Rmult_comm; apply Rmult_le_compat_l; lra).
  assert (M2 : Rabs (s k) * d <= d * t) by (rewrite Rmult_comm; apply Rmult_le_compat_l; lra).
  pose proof (Rabs_triang a b) as TR. pose proof (Rmult_le_pos D T (proj1 HD) PT) as Q1. pose proof (Rmult_le_pos d t (proj1 Hd) Pt) as Q2.
  pose proof tiny_pos as PP. rewrite de_val in *. replace ((1 + 3 * (1 / 16777216)) * d * t) with ((1 + 3 * (1 / 16777216)) * (d * t)) by ring.
  replace ((1 + 3 * (1 / 16777216)) * D * T) with ((1 + 3 * (1 / 16777216)) * (D * T)) by ring.
  set (u := D * T) in *. set (v := d * t) in *. set (ya := Rabs (y k) * D) in *. set (sb := Rabs (s k) * d) in *. clearbody u v ya sb. lra.
Qed.

Lemma y_step T : 0 <= T -> ev y T -> (exists t, ev s t) -> ev y ((f + 82 * de) * T + (38 * tiny + (1 + de) * delta)).
Proof.
  intros PT HT [t0 Ht0]. pose proof tiny_pos as PP. pose proof de_val as DV. set (a := (1 + 3 * de) * d). set (b := (1 + 3 * de) * D * T + 2 * tiny).
  assert (Ha : 0 <= a < 1) by (unfold a; rewrite DV; split; [apply Rmult_le_pos; lra|lra]).
  assert (Hb : 0 <= b). { unfold b. rewrite DV. pose proof (Rmult_le_pos D T (proj1 HD) PT). replace ((1 + 3 * (1 / 16777216)) * D * T) with ((1 + 3 * (1 / 16777216)) * (D * T)) by ring. lra. }
  assert (IS : ev s (b / (1 - a) + tiny)).
  { apply (improve (ev s) a b t0 Ha Hb); [intros ? ? A B; exact (ev_up _ _ _ A B)| |exact Ht0|exact PP]. intros t Pt Ht. apply (s_step T PT HT t Pt Ht). }
  assert (SB : b / (1 - a) <= (1 + 64 * de) * T + 33 * tiny).
  { apply Rmult_le_reg_r with (1 - a); [lra|]. unfold Rdiv. rewrite Rmult_assoc, Rinv_l, Rmult_1_r by lra. unfold b.
    pose proof e25 as E25. rewrite E25 in HD. unfold a. rewrite DV in *.
    assert (X1 : (1 + 3 * (1 / 16777216)) * D * T <= (1 + 3 * (1 / 16777216)) * (1 - d + 1 / 16777216 / 2) * T) by (apply Rmult_le_compat_r; [exact PT|]; apply Rmult_le_compat_l; lra).
    assert (X2 : 0 <= T * ((1 + 64 * (1 / 16777216)) * (1 - (1 + 3 * (1 / 16777216)) * d) - (1 + 3 * (1 / 16777216)) * (1 - d + 1 / 16777216 / 2))) by (apply Rmult_le_pos; [exact PT|lra]).
    assert (X3 : 0 <= tiny * (33 * (1 - (1 + 3 * (1 / 16777216)) * d) - 2)) by (apply Rmult_le_pos; [lra|lra]).
    lra. }
  destruct IS as [N1 IS]. destruct Hx as [N2 HX]. exists (N1 + N2 + n)%nat. intros k Hk. replace k with ((k - n) + n)%nat by lia. rewrite Hy.
  specialize (IS (S (k - n)) ltac:(lia)). specialize (HX (k - n)%nat ltac:(lia)). pose proof (rnd_size (s (S (k - n)) * g)) as R1. rewrite Rabs_mult in R1.
  assert (M1 : Rabs (s (S (k - n))) * Rabs g <= ((1 + 64 * de) * T + 34 * tiny) * f) by (apply Rmult_le_compat; try apply Rabs_pos; [lra|exact Hg]).
  set (w := rnd (s (S (k - n)) * g)) in *. set (xv := x (k - n)%nat) in *.
  pose proof (rnd_size (xv + w)) as R2. pose proof (Rabs_triang xv w) as TR. rewrite DV in *.
  assert (X : (1 + 1 / 16777216) * (((1 + 64 * (1 / 16777216)) * T + 34 * tiny) * f) <= (f + 80 * (1 / 16777216)) * T + 36 * tiny).
  { assert (Q1 : 0 <= T * (f + 80 * (1 / 16777216) - (1 + 1 / 16777216) * (1 + 64 * (1 / 16777216)) * f)) by (apply Rmult_le_pos; [exact PT|lra]).
    assert (Q2 : 0 <= tiny * (36 - (1 + 1 / 16777216) * 34 * f)) by (apply Rmult_le_pos; lra). lra. }
  assert (W : Rabs w <= (f + 80 * (1 / 16777216)) * T + 73 / 2 * tiny) by lra.
  assert (Q3 : 0 <= T * (f + 82 * (1 / 16777216) - (1 + 1 / 16777216) * (f + 80 * (1 / 16777216)))) by (apply Rmult_le_pos; [exact PT|lra]).
  clearbody w xv. lra.
Qed.

Lemma y_fades T0 t0 : ev y T0 -> ev s t0 -> ev y (40 * (tiny / (1 - f)) + 101 / 100 * (delta / (1 - f))).
Proof.
  intros HT Ht. pose proof tiny_pos as PP. pose proof de_val as DV.
  assert (L : 0 <= f + 82 * de < 1) by (rewrite DV; lra).
  assert (PE : 0 < tiny / (1 - f)) by (apply Rdiv_lt_0_compat; lra).
  assert (PC : 0 <= 38 * tiny + (1 + de) * delta) by (rewrite DV; lra).
  apply ev_up with ((38 * tiny + (1 + de) * delta) / (1 - (f + 82 * de)) + tiny / (1 - f)).
  - apply (improve (ev y) (f + 82 * de) (38 * tiny + (1 + de) * delta) T0 L PC); [intros ? ? A B; exact (ev_up _ _ _ A B)| |exact HT|exact PE].
    intros T PT H. apply y_step; [exact PT|exact H|now exists t0].
  - assert ((38 * tiny + (1 + de) * delta) / (1 - (f + 82 * de)) <= 39 * (tiny / (1 - f)) + 101 / 100 * (delta / (1 - f))); [|lra].
    apply Rmult_le_reg_r with ((1 - (f + 82 * de)) * (1 - f)); [apply Rmult_lt_0_compat; lra|].
    replace ((38 * tiny + (1 + de) * delta) / (1 - (f + 82 * de)) * ((1 - (f + 82 * de)) * (1 - f))) with ((38 * tiny + (1 + de) * delta) * (1 - f)) by (field; lra).
    replace ((39 * (tiny / (1 - f)) + 101 / 100 * (delta / (1 - f))) * ((1 - (f + 82 * de)) * (1 - f))) with ((39 * tiny + 101 / 100 * delta) * (1 - (f + 82 * de))) by (field; lra).
    rewrite DV. assert (0 <= tiny * (39 * (1 - (f + 82 * (1 / 16777216))) - 38 * (1 - f))) by (apply Rmult_le_pos; lra).
    assert (0 <= delta * (101 / 100 * (1 - (f + 82 * (1 / 16777216))) - (1 + 1 / 16777216) * (1 - f))) by (apply Rmult_le_pos; lra). lra.
Qed.
End Quiet.

(** ** The f32 comb *)
Section F32.
Context {NP : NanPolicy}.
Lemma fadd_fin_val x y : fin (fadd x y) = true -> val (fadd x y) = rnd (val x + val y).
Proof.
  intros F. destruct (fadd_fin_inv x y F) as [Fx Fy].
  destruct (Rlt_le_dec (Rabs (rnd (val x + val y))) big) as [L|L]; [now apply fadd_spec|].
  pose proof (Binary.Bplus_correct 24 128 prec_pos prec_emax (nan_result OpAdd) BinarySingleNaN.mode_NE x y Fx Fy) as H.
  change (round radix2 _ _ _) with (rnd (val x + val y)) in H. rewrite Rlt_bool_false in H by exact L. destruct H as [H _].
  change (Binary.Bplus 24 128 _ _ _ BinarySingleNaN.mode_NE x y) with (fadd x y) in H. destruct (fadd x y); cbn in H, F; try discriminate.
Qed.

Lemma comb_fades d m s0 damp g x n f delta : (length d = m + n)%nat -> (0 < n)%nat -> damp_ok damp -> fb_ok f g -> 1 / 2 <= f <= 1023 / 1024 ->
  0 <= delta -> ev (fun k => val (x k)) delta -> (forall k, fin (fy d m s0 damp g x k) = true) ->
  ev (fun k => val (fy d m s0 damp g x k)) (40 * (tiny / (1 - f)) + 101 / 100 * (delta / (1 - f))).
Proof.
  intros L Hn [Fd Hd] [Fg Hg] Hf Hdel Hx Hy. set (y := fy d m s0 damp g x) in *. set (s := fs d m s0 damp g x).
  assert (Ey : forall k, y (k + n)%nat = fadd (x k) (fmul (s (S k)) g)) by (intros k; exact (fy_next d m s0 damp g x n k L Hn)).
  assert (Es : forall k, s (S k) = fadd (fmul (y k) (fsub (of_int 1) damp)) (fmul (s k) damp)) by (intros k; exact (fs_S d m s0 damp g x k)).
  assert (Fw : forall k, fin (fmul (s (S k)) g) = true) by (intros k; pose proof (Hy (k + n)%nat) as F; rewrite Ey in F; apply fadd_fin_inv in F; tauto).
  assert (Fs : forall k, fin (s (S k)) = true) by (intros k; pose proof (Fw k) as F; apply fmul_fin_inv in F; tauto).
  destruct (of_int_exact 1 ltac:(lia)) as [F1 V1]. destruct (complement (val damp) ltac:(lra)) as [C1 C2].
  destruct (fsub_spec (of_int 1) damp F1 Fd) as [FD VD].
  { rewrite V1. rewrite Rabs_pos_eq by lra. apply Rle_lt_trans with 1; [lra|]. change 1 with (pow2 0). apply bpow_lt. lia. }
  rewrite V1 in VD.
  apply (y_fades (fun k => val (y k)) (fun k => val (s k)) (fun k => val (x k)) n (val (fsub (of_int 1) damp)) (val damp) (val g) f) with (T0 := big) (t0 := big).
  - exact Hd.
  - rewrite VD. lra.
  - exact Hg.
  - exact Hf.
  - intros k. pose proof (Fs k) as F. rewrite Es in F |- *. rewrite (fadd_fin_val _ _ F). apply fadd_fin_inv in F as [Fa Fb].
    rewrite (fmul_fin_val _ _ Fa), (fmul_fin_val _ _ Fb). reflexivity.
  - intros k. pose proof (Hy (k + n)%nat) as F. cbn beta. rewrite Ey in F |- *. rewrite (fadd_fin_val _ _ F), (fmul_fin_val _ _ (Fw k)). reflexivity.
  - exact Hdel.
  - exact Hx.
  - exists 0%nat. intros k _. left. apply val_lt_big.
  - exists 0%nat. intros k _. left. apply val_lt_big.
Qed.

Lemma comb_quiet d m s0 damp g x n f : (length d = m + n)%nat -> (0 < n)%nat -> damp_ok damp -> fb_ok f g -> 1 / 2 <= f <= 1023 / 1024 ->
  (forall k, silent (x k)) -> (forall k, fin (fy d m s0 damp g x k) = true) ->
  ev (fun k => val (fy d m s0 damp g x k)) (40 * (tiny / (1 - f))).
Proof.
  intros L Hn Hd Hg Hf Hx Hy. apply ev_up with (40 * (tiny / (1 - f)) + 101 / 100 * (0 / (1 - f))); [|right; field; lra].
  apply comb_fades with n; try assumption; [lra|]. exists 0%nat. intros k _. destruct (Hx k) as [_ ->]. rewrite Rabs_R0. lra.
Qed.
End F32.
