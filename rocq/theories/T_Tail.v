(** * C113: what remains once the input has stopped. *)

From Coq Require Import ZArith List Bool Reals Lia Lra.
From Flocq Require Import Core.
From Verif Require Import Base F32 F32Lemmas Num M_Memory M_Delay M_FloatMath M_Biquad S_Memory S_Delay S_Biquad S_BiquadF32 S_Tail
  P_Memory P_Delay P_DelayNum P_Comb P_Tail P_TailBiquad T_Comb T_BiquadF32 T_DesignF32 T_SweepF32 Examples.
Import ListNotations.
Local Open Scope R_scope.

Lemma zero_silent : silent (of_int 0).
Proof. apply of_int_exact. lia. Qed.

Lemma undamped_run {NP : NanPolicy} {B : Build} (h : heap f32) s l g xs : covers h s l -> (0 < ms_len s)%Z ->
  exists h' c', comb_run h (cb_new s) (CDamp (of_int 0) :: CFeedback g :: map CTick xs) =
    Ret (h', c', comb_spec l 0 (of_int 0) (of_int 0) g (map CTick xs)).
Proof.
  intros C Hn. destruct (comb_run_ok (CDamp (of_int 0) :: CFeedback g :: map CTick xs) h (cb_new s) l 0 (of_int 0) (lit 1 (-1)) (lit 1 (-1))) as (h' & c' & E & _).
  { split; [exact (dl_new_rel h s l C Hn)|]. split; [reflexivity|]. split; [reflexivity|]. split; [symmetry; apply one_minus_half|reflexivity]. }
  exists h', c'. exact E.
Qed.

(** An undamped comb left to itself: the content of its buffer goes round, multiplied by the feedback and rounded at
    every pass. *)
Theorem C113_comb_circulates : forall (NP : NanPolicy) (B : Build) (h : heap f32) s l g xs,
  covers h s l -> (0 < ms_len s)%Z -> Forall (fun x => fin x = true) l -> fin g = true -> Rabs (val g) <= 1 -> Forall silent xs ->
  exists h' c' ys, comb_run h (cb_new s) (CDamp (of_int 0) :: CFeedback g :: map CTick xs) = Ret (h', c', ys) /\
    length ys = length xs /\ circulates (val g) l ys /\
    (Rabs (val g) <= 1 / 2 -> forall i, (278 * length l <= i < length xs)%nat -> val (nth i ys (of_int 0)) = 0) /\
    (1 / 2 < Rabs (val g) -> forall i, (i < length xs)%nat -> val (nth (i mod length l) l (of_int 0)) <> 0 -> val (nth i ys (of_int 0)) <> 0).
Proof.
  intros NP B h s l g xs C Hn Hl Fg Hg Hx. destruct (undamped_run h s l g xs C Hn) as (h' & c' & E).
  assert (Ln : (0 < length l)%nat) by (destruct C as (L & _); lia).
  destruct (comb_circulates g l Ln (of_int 0) zero_silent Fg Hg xs l 0 (of_int 0) Hx (holds_start _ l Ln Hl) (proj1 zero_silent)) as (ys & Ey & Ly & Y).
  cbn [Nat.add] in Y. rewrite Ey in E. exists h', c', ys. split; [exact E|]. split; [exact Ly|]. split; [intros i Hi; apply Y; lia|]. split.
  - intros G i [Hi1 Hi2]. rewrite Y by exact Hi2. apply echo_half; [apply val_lt_big|exact G|].
    assert (278 <= i / length l)%nat; [|lia]. apply Nat.div_le_lower_bound; lia.
  - intros G i Hi N. rewrite Y by exact Hi. apply echo_never; [apply repr_val|exact N|exact G].
Qed.
Print Assumptions C113_comb_circulates.

(** An all-pass left to itself: its content is halved at every pass and is exactly zero after 278 passes. *)
Theorem C113_allpass_silent : forall (NP : NanPolicy) (B : Build) (h : heap f32) s l xs,
  covers h s l -> (0 < ms_len s)%Z -> Forall (fun x => fin x = true) l -> Forall silent xs ->
  exists h' a' ys, ap_run h (ap_new s) xs = Ret (h', a', ys) /\ length ys = length xs /\ circulates (1 / 2) l ys /\
    forall i, (278 * length l <= i < length xs)%nat -> val (nth i ys (of_int 0)) = 0.
Proof.
  intros NP B h s l xs C Hn Hl Hx. assert (Ln : (0 < length l)%nat) by (destruct C as (L & _); lia).
  destruct (ap_run_ok xs h (ap_new s) l 0 (dl_new_rel h s l C Hn)) as (h' & a' & E & _).
  destruct (ap_circulates l Ln xs l 0 Hx (holds_start _ l Ln Hl)) as (ys & Ey & Ly & Y).
  cbn [Nat.add] in Y. rewrite Ey in E. exists h', a', ys. split; [exact E|]. split; [exact Ly|]. split; [intros i Hi; apply Y; lia|].
  intros i [Hi1 Hi2]. rewrite Y by exact Hi2. apply echo_half; [apply val_lt_big|rewrite Rabs_pos_eq; lra|].
  assert (278 <= i / length l)%nat; [|lia]. apply Nat.div_le_lower_bound; lia.
Qed.
Print Assumptions C113_allpass_silent.

Lemma ticks_length {NP : NanPolicy} xs : forall (d : list f32) m s damp g, length (comb_spec d m s damp g (map CTick xs)) = length xs.
Proof. induction xs as [|x xs IH]; intros; [reflexivity|]. cbn [map comb_spec length]. now rewrite IH. Qed.

(** A damped comb does not fall silent.  If the whole numbers p, q, r satisfy the three inequalities (nearest whole
    numbers, ties to even), a buffer whose samples are all at least p * 2^-149, the first at least r * 2^-149, makes
    every later output at least p * 2^-149 although no input ever follows. *)
Theorem C113_comb_hum_refuted : forall (NP : NanPolicy) (B : Build) (h : heap f32) s l damp g (p q r : Z) xs,
  covers h s l -> (0 < ms_len s)%Z ->
  fin damp = true -> 0 <= val damp <= 1 -> fin g = true -> 0 <= val g <= 1 ->
  (0 < p <= 2 ^ 24)%Z -> (0 <= q <= 2 ^ 24)%Z -> (p <= r)%Z ->
  (q <= ZnearestE (IZR r * rnd (1 - val damp)))%Z ->
  (q <= ZnearestE (IZR p * rnd (1 - val damp)) + ZnearestE (IZR q * val damp))%Z ->
  (p <= ZnearestE (IZR q * val g))%Z ->
  Forall (fun x => fin x = true /\ IZR p * tiny <= val x <= pow2 126) l -> IZR r * tiny <= val (nth 0 l (of_int 0)) ->
  Forall silent xs ->
  exists h' c' ys, comb_run h (cb_new s) (CDamp damp :: CFeedback g :: map CTick xs) = Ret (h', c', ys) /\
    length ys = length xs /\ Forall (fun y => IZR p * tiny <= val y) ys.
Proof.
  intros NP B h s l damp g p q r xs C Hn Fd Hd Fg Hg Pp Pq Pr Er Eq Ep Hl H0 Hx.
  destruct (comb_run_ok (CDamp damp :: CFeedback g :: map CTick xs) h (cb_new s) l 0 (of_int 0) (lit 1 (-1)) (lit 1 (-1))) as (h' & c' & E & _).
  { split; [exact (dl_new_rel h s l C Hn)|]. split; [reflexivity|]. split; [reflexivity|]. split; [symmetry; apply one_minus_half|reflexivity]. }
  destruct (D_ok damp g p q Fd Hd Hg ltac:(lia) Pq) as (_ & VD & _ & _). rewrite <- VD in Er, Eq.
  assert (Ln : (0 < length l)%nat) by (destruct C as (L & _); lia).
  exists h', c'. eexists. split; [exact E|]. cbn [comb_spec]. split; [apply ticks_length|].
  eapply Forall_impl; [|apply (hum damp g p q r Fd Hd Fg Hg ltac:(lia) Pq Pr Er Eq Ep xs l 0 (of_int 0) Hx Ln)].
  - intros y [_ [L _]]. exact L.
  - intros i Hi. rewrite Forall_forall in Hl. apply (Hl (nth i l (of_int 0))), nth_In. lia.
  - apply zero_silent.
  - rewrite (proj2 zero_silent). pose proof top_pos. lra.
  - right. exact H0.
Qed.
Print Assumptions C113_comb_hum_refuted.

(** A biquad does not fall silent either: with a whole number p such that the nearest whole numbers to a1 p and a2 p
    add up to - p, the state (p, - round (a2 p)) * 2^-149 puts out p * 2^-149 for ever although the input is zero. *)
Theorem C113_biquad_hum_refuted : forall (NP : NanPolicy) (c : coeffs f32) (p : Z) (x : nat -> f32) (b : biquad f32),
  finite_coeffs c -> (Z.abs p <= 2 ^ 20)%Z -> Rabs (val (a1 c)) <= 8 -> Rabs (val (a2 c)) <= 8 ->
  (ZnearestE (val (a1 c) * IZR p) + ZnearestE (val (a2 c) * IZR p) = - p)%Z ->
  bq_coeffs b = c -> fin (z1 b) = true -> fin (z2 b) = true ->
  val (z1 b) = IZR p * tiny -> val (z2 b) = - (IZR (ZnearestE (val (a2 c) * IZR p)) * tiny) ->
  (forall n, silent (x n)) -> forall n, val (response b x n) = IZR p * tiny.
Proof.
  intros NP c p x b Fc Hp B1 B2 E C F1 F2 V1 V2 Hx n.
  apply (stuck c p x b Fc Hx Hp B1 B2 E). tauto.
Qed.
Print Assumptions C113_biquad_hum_refuted.

(** How quiet a biquad becomes: if it rings by G in total, then some time after the last input its output is within
    3 G 2^-149 for ever; with the bound on G that is less than 2^-128, far below the smallest normal f32. *)
Theorem C113_biquad_quiet : forall (NP : NanPolicy) (c : coeffs f32) (G M : R) (x : nat -> f32),
  finite_coeffs c -> ringing (exact_coeffs c) G -> feedback_weight (exact_coeffs c) * G <= 524288 ->
  pow2 (-90) <= forward_weight (exact_coeffs c) * M <= pow2 60 ->
  (forall n, fin (x n) = true /\ Rabs (val (x n)) <= M) -> stops x ->
  settles_within (3 * (G * tiny)) (response (bq_new c) x).
Proof. intros NP c G M x Fc HG HAG HM Hx. exact (biquad_settles c Fc G M HG HAG HM x Hx). Qed.
Print Assumptions C113_biquad_quiet.

(** The filter of [C95_met] after a click: within 390 * 2^-149. *)
Example C113_quiet_met (NP : NanPolicy) : let c := BC (lit 1 (-8)) (lit 2 (-8)) (lit 1 (-8)) (lit (-1859) (-10)) (lit 851 (-10)) in
  stops click /\ settles_within (3 * (130 * tiny)) (response (bq_new c) click).
Proof.
  intros c. destruct (C95_met NP) as (F & G & H & I).
  assert (S : stops click) by (exists 1%nat; intros [|n] Hn; [lia|apply zero_silent]). split; [exact S|].
  apply C113_biquad_quiet with 1; try assumption. intros [|n].
  - cbn [click]. destruct (of_int_exact 1 ltac:(lia)) as [F1 V1]. rewrite V1, Rabs_R1. split; [exact F1|lra].
  - cbn [click]. destruct (of_int_exact 0 ltac:(lia)) as [F1 V1]. rewrite V1, Rabs_R0. split; [exact F1|lra].
Qed.

(** And such a state is reached from rest.  A low-pass at 2 kHz with q = 1 and 48000 samples per second, given one sample 1
    and zeros ever after, puts out exactly 3 * 2^-149 from sample 800 on. *)
Definition low_2k {NP : NanPolicy} : coeffs f32 := lowpass (MO := mul_math) (of_int 2000) (of_int 1) (of_int 48000).

Lemma after_split {F} {NF : Num F} (b : biquad F) x m n : after b x (m + n) = after (after b x m) (fun k => x (m + k)%nat) n.
Proof. induction n as [|n IH]; [now rewrite Nat.add_0_r|]. rewrite Nat.add_succ_r. cbn [after]. now rewrite IH. Qed.

Lemma low_2k_state (NP : NanPolicy) : let b := after (bq_new low_2k) click 800 in
  to_bits (z1 b) = to_bits (lit 3 (-149)) /\ to_bits (z2 b) = to_bits (lit (-2) (-149)).
Proof. vm_compute. split; reflexivity. Qed.

Lemma near_is (x : R) (k : Z) : Rabs (x - IZR k) < / 2 -> ZnearestE x = k.
Proof. apply Znearest_imp. Qed.

Theorem C113_click_refuted : forall (NP : NanPolicy) n, (800 <= n)%nat -> val (response (bq_new low_2k) click n) = 3 * tiny.
Proof.
  intros NP n Hn. destruct (low_2k_state NP) as [S1 S2]. apply bits_inj in S1, S2.
  destruct (lit_exact 3 (-149) ltac:(lia) ltac:(lia)) as [F1 V1]. destruct (lit_exact (-2) (-149) ltac:(lia) ltac:(lia)) as [F2 V2]. fold tiny in V1, V2.
  assert (FC : finite_coeffs low_2k) by (unfold finite_coeffs; repeat split; vm_compute; reflexivity).
  pose proof (between (x := a1 low_2k) (lo := lit (-28) (-4)) (hi := lit (-27) (-4)) ltac:(vm_compute; reflexivity) ltac:(vm_compute; reflexivity) ltac:(vm_compute; reflexivity) ltac:(vm_compute; reflexivity) ltac:(vm_compute; reflexivity)) as B1.
  pose proof (between (x := a2 low_2k) (lo := lit 12 (-4)) (hi := lit 13 (-4)) ltac:(vm_compute; reflexivity) ltac:(vm_compute; reflexivity) ltac:(vm_compute; reflexivity) ltac:(vm_compute; reflexivity) ltac:(vm_compute; reflexivity)) as B2.
  rewrite (proj2 (lit_exact (-28) (-4) ltac:(lia) ltac:(lia))), (proj2 (lit_exact (-27) (-4) ltac:(lia) ltac:(lia))) in B1.
  rewrite (proj2 (lit_exact 12 (-4) ltac:(lia) ltac:(lia))), (proj2 (lit_exact 13 (-4) ltac:(lia) ltac:(lia))) in B2.
  replace (pow2 (-4)) with (/ 16) in B1, B2 by (cbn; lra).
  assert (N1 : ZnearestE (val (a1 low_2k) * IZR 3) = (-5)%Z) by (apply Znearest_imp, Rabs_def1; lra).
  assert (N2 : ZnearestE (val (a2 low_2k) * IZR 3) = 2%Z) by (apply Znearest_imp, Rabs_def1; lra).
  replace n with (800 + (n - 800))%nat by lia. unfold response. rewrite after_split.
  change (val (response (after (bq_new low_2k) click 800) (fun k => click (800 + k)) (n - 800)) = IZR 3 * tiny).
  apply C113_biquad_hum_refuted with low_2k.
  - exact FC.
  - lia.
  - apply Rabs_le. lra.
  - apply Rabs_le. lra.
  - rewrite N1, N2. reflexivity.
  - generalize 800%nat. induction n0 as [|k IH]; [reflexivity|exact IH].
  - rewrite S1. exact F1.
  - rewrite S2. exact F2.
  - rewrite S1. exact V1.
  - rewrite S2, N2, V2. ring.
  - intros k. replace (800 + k)%nat with (S (799 + k)) by lia. apply zero_silent.
Qed.
Print Assumptions C113_click_refuted.

(** The three samples 1, 2, 3 of the examples: with feedback 3/4 and no dampening they go round for ever, with 1/2 they are
    gone after 834 samples. *)
Example C113_met (NP : NanPolicy) (B : Build) : covers ex_heap ex_slice ex_list /\ (0 < ms_len ex_slice)%Z /\ Forall (fun x => fin x = true) ex_list /\
  Rabs (val (lit 3 (-2))) <= 1 /\ 1 / 2 < Rabs (val (lit 3 (-2))) /\ Rabs (val (lit 1 (-1))) <= 1 / 2 /\ Forall silent (repeat (of_int 0) 1000) /\
  val (nth 2 ex_list (of_int 0)) <> 0.
Proof.
  rewrite (proj2 (lit_exact 3 (-2) ltac:(lia) ltac:(lia))), (proj2 (lit_exact 1 (-1) ltac:(lia) ltac:(lia))). change (pow2 (-2)) with (/ 4). change (pow2 (-1)) with (/ 2).
  rewrite !Rabs_pos_eq by lra.
  split; [apply ex_covers|]. split; [reflexivity|]. split; [repeat constructor|]. split; [lra|]. split; [lra|]. split; [lra|].
  split; [apply Forall_forall; intros x Hx; apply repeat_spec in Hx; subst; apply zero_silent|].
  cbn [nth ex_list]. rewrite (proj2 (of_int_exact 3 ltac:(lia))). lra.
Qed.

(** The default comb (dampening and feedback 1/2) over the samples 1, 2, 3: with p = 2, q = 3, r = 6, so it never
    puts out less than 2 * 2^-149 = 2^-148. *)
Example C113_default_comb_hums (NP : NanPolicy) (B : Build) xs : Forall silent xs ->
  exists h' c' ys, comb_run ex_heap (cb_new ex_slice) (CDamp (lit 1 (-1)) :: CFeedback (lit 1 (-1)) :: map CTick xs) = Ret (h', c', ys) /\
    length ys = length xs /\ Forall (fun y => 2 * tiny <= val y) ys.
Proof.
  intros Hx. destruct (lit_exact 1 (-1) ltac:(lia) ltac:(lia)) as [FH VH]. change (pow2 (-1)) with (/ 2) in VH.
  assert (ED : rnd (1 - val (lit 1 (-1))) = / 2).
  { rewrite VH. replace (1 - 1 * / 2) with (IZR 1 * pow2 (-1)) by (change (pow2 (-1)) with (/ 2); lra). rewrite rnd_repr; [change (pow2 (-1)) with (/ 2); lra|apply repr_dy; lia]. }
  assert (T1 : ZnearestE (3 / 2) = 2%Z).
  { unfold Znearest. assert (F : Zfloor (3 / 2) = 1%Z) by (apply Zfloor_imp; cbn; lra). rewrite F.
    destruct (Rcompare_spec (3 / 2 - 1) (/ 2)) as [K|K|K]; try lra. change (negb (Z.even 1)) with true. cbn iota. apply Zceil_imp. cbn. lra. }
  assert (W : forall k, (1 <= k <= 3)%Z -> fin (of_int k) = true /\ 2 * tiny <= val (of_int k) <= pow2 126 /\ 6 * tiny <= val (of_int k)).
  { intros k Hk. destruct (of_int_exact k ltac:(lia)) as [F V]. rewrite V. split; [exact F|].
    assert (1 <= IZR k <= 3) by (split; apply IZR_le; lia). assert (tiny <= / 16) by (change (/ 16) with (pow2 (-4)); apply bpow_le; lia). pose proof tiny_pos.
    assert (4 <= pow2 126) by (change 4 with (pow2 2); apply bpow_le; lia). lra. }
  apply (C113_comb_hum_refuted NP B ex_heap ex_slice ex_list _ _ 2 3 6); try lia; try assumption.
  - apply ex_covers.
  - reflexivity.
  - rewrite VH. lra.
  - rewrite VH. lra.
  - rewrite ED. rewrite (near_is _ 3); [lia|apply Rabs_def1; lra].
  - rewrite ED, VH. rewrite (near_is (2 * / 2) 1) by (apply Rabs_def1; lra). replace (3 * (1 * / 2)) with (3 / 2) by field. rewrite T1. lia.
  - rewrite VH. replace (3 * (1 * / 2)) with (3 / 2) by field. rewrite T1. lia.
  - apply Forall_forall. intros x [<-|[<-|[<-|[]]]]; [destruct (W 1%Z ltac:(lia)) as (A1 & A2 & _)|destruct (W 2%Z ltac:(lia)) as (A1 & A2 & _)|destruct (W 3%Z ltac:(lia)) as (A1 & A2 & _)]; exact (conj A1 A2).
  - apply (W 1%Z ltac:(lia)).
Qed.
