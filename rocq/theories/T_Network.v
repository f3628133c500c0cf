(** * C111: processors wired in series and in parallel. *)

From Coq Require Import ZArith List Bool Reals Lia Lra Psatz.
From Flocq Require Import Core.
From Verif Require Import Base F32 F32Lemmas F32Exact F32Range Num M_Memory M_Delay M_Biquad S_Memory S_Delay S_Biquad S_BiquadF32 S_Comb S_Rack S_Network S_NetworkF32
  P_Memory P_Delay P_DelayNum P_Comb P_Rack P_Network T_BiquadF32 Examples.
Import ListNotations.
Open Scope Z_scope.

(** A program of delay lines, combs, all-passes, filters and gains over separate buffers, ticked sample by sample in
    the order of its wiring, computes the composition of the signal functions of its parts: what each part would make of
    its whole input signal if it had the memory for itself.  Only its buffers are written. *)
Theorem C111_network_is_composition : forall (F : Type) (NF : Num F) (B : Build) (h : heap F) n p ss xs,
  fresh h n p ss -> apart ss ->
  exists h' n', net_run h n xs = Ret (h', n', signal p xs) /\ same_except (in_any ss) h h'.
Proof.
  intros F NF B h n p ss xs FR HA. destruct (acts_run xs h n ss (signal p) (fresh_acts h n p ss FR) HA) as (h' & n' & E & S & _). eauto.
Qed.
Print Assumptions C111_network_is_composition.

(** ** Levels *)
Section Levels.
Context {NP : NanPolicy}.
Local Open Scope R_scope.

Lemma signal_length (p : plan f32) : forall xs, length (signal p xs) = length xs.
Proof.
  induction p as [l|l damp fb|l|c|g|p IHp q IHq|p IHp q IHq]; intros xs; cbn [signal].
  - rewrite firstn_length, app_length. lia.
  - generalize 0%nat. generalize (nint 0 : f32). revert l. induction xs as [|x xs IH]; intros; cbn; auto.
  - generalize 0%nat. revert l. induction xs as [|x xs IH]; intros; cbn; auto.
  - generalize (bq_new c). induction xs as [|x xs IH]; intros; cbn; auto.
  - apply map_length.
  - now rewrite IHq, IHp.
  - assert (H : forall a b : list f32, length a = length b -> length (added a b) = length a).
    { induction a as [|x a IH]; intros [|y b] E; cbn in *; try discriminate; auto. }
    rewrite H; [apply IHp|now rewrite IHp, IHq].
Qed.

Lemma bounded_le M M' x : M <= M' -> bounded M x -> bounded M' x.
Proof. intros H [A C]. split; [exact A|lra]. Qed.
Lemma all_le M M' l : M <= M' -> Forall (bounded M) l -> Forall (bounded M') l.
Proof. intros H. apply Forall_impl. intros x. now apply bounded_le. Qed.
Lemma mid_repr e : mid e -> repr (pow2 e).
Proof. intros H. apply repr_bpow. unfold mid in H. lia. Qed.
Lemma mid_big e : (e <= 100)%Z -> pow2 e < big.
Proof. intros H. apply bpow_lt. lia. Qed.

Lemma filtered_response (b : biquad f32) : forall xs x0, filtered b xs = map (response b (fun n => nth n xs x0)) (seq 0 (length xs)).
Proof.
  intros xs x0. set (f := fun n => nth n xs x0).
  assert (H : forall ys k, (forall i, nth i ys x0 = f (k + i)%nat) -> filtered (after b f k) ys = map (response b f) (seq k (length ys))).
  { induction ys as [|y ys IH]; intros k Hk; cbn [filtered length seq map]; [reflexivity|].
    assert (E : y = f k) by (specialize (Hk 0%nat); cbn in Hk; now rewrite Nat.add_0_r in Hk). subst y. f_equal.
    change (fst (bq_process (after b f k) (f k))) with (after b f (S k)). apply IH. intros i. specialize (Hk (S i)). cbn [nth] in Hk. rewrite Hk. f_equal. lia. }
  apply (H xs 0%nat). reflexivity.
Qed.

Lemma level_signal p e e' : level p e e' -> forall xs, Forall (bounded (pow2 e)) xs -> Forall (bounded (pow2 e')) (signal p xs).
Proof.
  induction 1 as [l e Hl|l damp fb e j Hj He He' Hl Hd Hf|l e Ne He Hl|c e e' G Fc HG HA HB HM|g e k He Fg Hg|p q e e1 e2 L1 I1 L2 I2|p q e e1 He L1 I1 L2 I2|p e e1 e2 L I Le]; intros xs Hx; cbn [signal].
  - assert (H : Forall (bounded (pow2 e)) (l ++ xs)) by (apply Forall_app; auto). rewrite <- (firstn_skipn (length xs) (l ++ xs)) in H. apply Forall_app in H. tauto.
  - set (f := 1 - pow2 (- j)) in *. set (K := pow2 (e + j + 1)) in *. set (M := pow2 e).
    assert (Pj : pow2 (-10) <= pow2 (- j) <= pow2 (-1)) by (split; apply bpow_le; lia).
    replace (pow2 (-10)) with (/ 1024) in Pj by (cbn; lra). replace (pow2 (-1)) with (/ 2) in Pj by (cbn; lra).
    assert (HK : pow2 (-90) <= K <= pow2 100) by (unfold mid in *; split; apply bpow_le; lia).
    assert (Hf1 : 0 <= f <= 1023 / 1024) by (unfold f; lra).
    assert (M0 : 0 < M) by apply bpow_gt_0.
    assert (EK : K * (1 - f) = 2 * M). { unfold K, f, M. replace (1 - (1 - pow2 (- j))) with (pow2 (- j)) by ring. rewrite <- bpow_plus. replace (e + j + 1 + - j)%Z with (1 + e)%Z by lia. rewrite bpow_plus. reflexivity. }
    assert (HM : 101 / 100 * M <= K * (1 - f)) by lra.
    set (E := K / (131072 * (1 - f))). assert (HE : E * (1 - f) = K / 131072) by (unfold E; field; lra).
    pose proof (K_pos K HK) as PK. assert (PE : 0 <= E) by (unfold E; apply Rmult_le_pos; [lra|left; apply Rinv_0_lt_compat; lra]).
    destruct (of_int_exact 0 ltac:(lia)) as [F0 V0].
    assert (T : Forall2 (near_y K E) (comb_spec l 0 (of_int 0) damp fb (map CTick xs)) (comb_spec (map val l) 0 (val (of_int 0)) (val damp) (val fb) (map real_op (map CTick xs)))).
    { apply comb_tracks with M f; try assumption.
      - clear - Hl PE. induction Hl as [|y l [Fy By] _ IH]; cbn [map]; constructor; [|exact IH]. split; [exact Fy|]. split; [exact By|]. rewrite Rminus_eq_0, Rabs_R0. exact PE.
      - split; [exact F0|]. rewrite V0, Rminus_0_r, Rabs_R0. split; lra.
      - clear - Hx. induction Hx; constructor; auto. }
    clear - T. change (nint 0 : f32) with (of_int 0). induction T as [|y z ys zs (Fy & By & Ey) _ IH]; constructor; [|exact IH]. split; assumption.
  - assert (E2 : 2 * pow2 e = pow2 (e + 1)) by (rewrite bpow_plus; cbn; lra). assert (E4 : 4 * pow2 e = pow2 (e + 2)) by (rewrite bpow_plus; cbn; lra).
    assert (R4 : rnd (3 * pow2 e) <= pow2 (e + 2)).
    { apply rnd_le_repr; [|pose proof (bpow_gt_0 radix2 e); lra]. apply repr_bpow. unfold mid in He. lia. }
    apply (all_le (rnd (3 * pow2 e))); [exact R4|]. apply ap_bounded; auto.
    + now apply mid_repr.
    + eapply Rle_lt_trans; [exact R4|]. apply mid_big. unfold mid in He. lia.
    + now rewrite E2.
    + destruct l; [congruence|cbn; lia].
  - rewrite (filtered_response (bq_new c) xs (of_int 0)). apply Forall_forall. intros y Hy. apply in_map_iff in Hy. destruct Hy as (n & <- & _).
    destruct (C95_biquad_tracks NP c G (pow2 e) (fun n => nth n xs (of_int 0)) Fc HG HA HB) with (n := n) as (F & _ & Y).
    + intros k. destruct (Nat.lt_ge_cases k (length xs)) as [L|L].
      * rewrite Forall_forall in Hx. exact (Hx _ (nth_In xs (of_int 0) L)).
      * rewrite nth_overflow by lia. destruct (of_int_exact 0 ltac:(lia)) as [F0 V0]. split; [exact F0|]. rewrite V0, Rabs_R0. apply bpow_ge_0.
    + split; [exact F|]. lra.
  - assert (E : pow2 (e + k) = pow2 e * pow2 k) by apply bpow_plus. clear - Hx He Fg Hg E. induction Hx as [|x xs [Fx Bx] _ IH]; cbn [map]; constructor; [|exact IH]. clear IH.
    assert (A : Rabs (val x * val g) <= pow2 (e + k)) by (rewrite E, Rabs_mult; apply Rmult_le_compat; auto using Rabs_pos).
    assert (A' : Rabs (rnd (val x * val g)) <= pow2 (e + k)) by (apply rnd_abs_le; [now apply mid_repr|exact A]).
    destruct (fmul_spec x g Fx Fg) as [F V].
    + eapply Rle_lt_trans; [exact A'|]. apply mid_big. unfold mid in He. lia.
    + split; [exact F|]. cbn [nmul num_f32]. now rewrite V.
  - auto.
  - specialize (I1 xs Hx). specialize (I2 xs Hx). revert I1 I2. generalize (signal p xs), (signal q xs). clear - He.
    assert (E : pow2 (e1 + 1) = pow2 e1 + pow2 e1) by (rewrite bpow_plus; cbn; lra).
    induction l as [|x l IH]; intros [|y l'] H1 H2; cbn [added]; try constructor.
    + inversion H1; inversion H2; subst. cbn [nadd num_f32]. rewrite E. apply add_bounded; auto; rewrite <- E; [apply repr_bpow|apply mid_big]; unfold mid in He; lia.
    + inversion H1; inversion H2; subst. now apply IH.
  - apply (all_le (pow2 e1)); [now apply bpow_le|auto].
Qed.
End Levels.

(** Levels add up along the wiring: no network whose parts respect their levels ever produces an infinity or a NaN or exceeds its level. *)
Theorem C111_network_bounded : forall (NP : NanPolicy) (B : Build) (h : heap f32) n p ss xs e e',
  fresh h n p ss -> apart ss -> level p e e' -> Forall (bounded (pow2 e)) xs ->
  exists h' n' ys, net_run h n xs = Ret (h', n', ys) /\ length ys = length xs /\ Forall (bounded (pow2 e')) ys.
Proof.
  intros NP B h n p ss xs e e' FR HA HL Hx. destruct (C111_network_is_composition f32 _ B h n p ss xs FR HA) as (h' & n' & E & _).
  exists h', n', (signal p xs). split; [exact E|]. split; [apply signal_length|]. now apply (level_signal p e).
Qed.
Print Assumptions C111_network_bounded.

(** ** A small reverberator meets all hypotheses: two damped combs side by side, then an all-pass, a low-pass and a
    gain, over three buffers cut from one allocation. *)
Section Room.
Context {F : Type} {NF : Num F}.
Definition room_heap : heap F := [repeat (nint 0) 9].
Definition room_slices : list mslice := [MS (PAt 0 0) 3; MS (PAt 0 3) 4; MS (PAt 0 7) 2].
Definition room_damp : F := ndy 1 (-2).
Definition room_feedback : F := ndy 1 (-1).
Definition room_coeffs : coeffs F := BC (ndy 1 (-8)) (ndy 2 (-8)) (ndy 1 (-8)) (ndy (-1859) (-10)) (ndy 851 (-10)).
Definition room_comb (s : mslice) : net F := NComb (cb_set_feedback (cb_set_dampening (cb_new s) room_damp) room_feedback).
Definition room : net F :=
  NSeries (NSeries (NMix (room_comb (MS (PAt 0 0) 3)) (room_comb (MS (PAt 0 3) 4))) (NPass (ap_new (MS (PAt 0 7) 2))))
    (NSeries (NFilter (bq_new room_coeffs)) (NScale (ndy 1 (-4)))).
Definition zeros (n : nat) : list F := repeat (nint 0) n.
Definition room_plan : plan F :=
  PSeries (PSeries (PMix (PComb (zeros 3) room_damp room_feedback) (PComb (zeros 4) room_damp room_feedback)) (PPass (zeros 2)))
    (PSeries (PFilter room_coeffs) (PScale (ndy 1 (-4)))).
End Room.

Lemma room_covers (F : Type) (NF : Num F) (B : Build) k o n : (k + n <= 9)%nat -> o = Z.of_nat k ->
  covers room_heap (MS (PAt 0 o) (Z.of_nat n)) (zeros n).
Proof.
  intros H ->. unfold covers, zeros. cbn [ms_len ms_ptr]. rewrite repeat_length. split; [reflexivity|]. split.
  - unfold isize_max, usize_bits. destruct ptr_w; lia.
  - exists (repeat (nint 0) k), (repeat (nint 0) (9 - k - n)). split; [|now rewrite repeat_length].
    rewrite <- !repeat_app. unfold room_heap. cbn [nth_error]. do 2 f_equal. lia.
Qed.

Example C111_met (F : Type) (NF : Num F) (B : Build) : fresh room_heap room room_plan room_slices /\ apart room_slices.
Proof.
  split.
  - change room_slices with (([MS (PAt 0 0) 3] ++ [MS (PAt 0 3) 4]) ++ [MS (PAt 0 7) 2]) at 1.
    replace ((([MS (PAt 0 0) 3] ++ [MS (PAt 0 3) 4]) ++ [MS (PAt 0 7) 2])) with (((([MS (PAt 0 0) 3] ++ [MS (PAt 0 3) 4]) ++ [MS (PAt 0 7) 2])) ++ ([] ++ [])) by reflexivity.
    apply fresh_series; [apply fresh_series; [apply fresh_mix; apply fresh_comb|apply fresh_pass]|apply fresh_series; [apply fresh_filter|apply fresh_scale]]; try (cbn [ms_len]; lia).
    + exact (room_covers F NF B 0 0 3 ltac:(lia) eq_refl).
    + exact (room_covers F NF B 3 3 4 ltac:(lia) eq_refl).
    + exact (room_covers F NF B 7 7 2 ltac:(lia) eq_refl).
  - intros i j s t b o Hi Hj Is It. unfold room_slices in *.
    destruct i as [|[|[|[|i]]]]; cbn in Hi; try discriminate; injection Hi as <-; destruct j as [|[|[|[|j]]]]; cbn in Hj; try discriminate; injection Hj as <-;
      try reflexivity; unfold in_slice, addr in *; cbn [ms_ptr ms_len] in *; destruct Is as (p & H1 & E1), It as (q & H2 & E2); apply (f_equal (fun a => match a with Some (_, v) => v | None => 0 end)) in E1, E2; lia.
Qed.

Example C111_level_met (NP : NanPolicy) : level (room_plan (F := f32)) 0 9.
Proof.
  destruct (of_int_exact 0 ltac:(lia)) as [F0 V0].
  assert (Z : forall n e, Forall (bounded (pow2 e)) (zeros n : list f32)).
  { intros n e. unfold zeros. apply Forall_forall. intros x Hx. apply repeat_spec in Hx. subst x. change (nint 0 : f32) with (of_int 0). split; [exact F0|]. rewrite V0, Rabs_R0. apply bpow_ge_0. }
  destruct (lit_exact 1 (-2) ltac:(lia) ltac:(lia)) as [Fd Vd]. destruct (lit_exact 1 (-1) ltac:(lia) ltac:(lia)) as [Ff Vf]. destruct (lit_exact 1 (-4) ltac:(lia) ltac:(lia)) as [Fg Vg].
  assert (C : forall n, level (PComb (zeros n) room_damp room_feedback) 0 (0 + 1 + 1)).
  { intros n. apply level_comb; unfold mid; try lia.
    - apply Z. - split; [exact Fd|]. change (room_damp : f32) with (lit 1 (-2)). rewrite Vd. cbn. lra.
    - split; [exact Ff|]. change (room_feedback : f32) with (lit 1 (-1)). rewrite Vf. rewrite Rabs_pos_eq; cbn; lra. }
  unfold room_plan. apply level_series with 5%Z.
  - apply level_series with 3%Z; [|apply (level_pass _ 3); [discriminate|unfold mid; lia|apply Z]].
    apply (level_mix _ _ 0 2); [unfold mid; lia|apply C|apply C].
  - apply level_series with 13%Z.
    + destruct (C95_met NP) as (H1 & H2 & H3 & H4). change (BC (lit 1 (-8)) (lit 2 (-8)) (lit 1 (-8)) (lit (-1859) (-10)) (lit 851 (-10))) with (room_coeffs (F := f32)) in *.
      assert (W : (forward_weight (exact_coeffs (room_coeffs (F := f32))) = 4 / 256)%R).
      { destruct (lit_exact 1 (-8) ltac:(lia) ltac:(lia)) as [_ W0]. destruct (lit_exact 2 (-8) ltac:(lia) ltac:(lia)) as [_ W1].
        unfold forward_weight, exact_coeffs, room_coeffs. cbn [b0 b1 b2]. change (ndy 1 (-8) : f32) with (lit 1 (-8)). change (ndy 2 (-8) : f32) with (lit 2 (-8)). rewrite W0, W1.
        replace (IZR 1 * pow2 (-8))%R with (1 / 256)%R by (cbn; lra). replace (IZR 2 * pow2 (-8))%R with (1 / 128)%R by (cbn; lra). rewrite !Rabs_pos_eq; lra. }
      apply level_filter with 130%R; try assumption; rewrite W.
      * replace (4 / 256 * pow2 5)%R with (pow2 (-1)) by (cbn; lra). split; apply bpow_le; lia.
      * cbn. lra.
    + apply (level_scale _ 13 (-4)); [unfold mid; lia|exact Fg|]. change (ndy 1 (-4) : f32) with (lit 1 (-4)). rewrite Vg. rewrite Rabs_pos_eq; cbn; lra.
Qed.

(** The first samples of the reverberator for an impulse, from the program. *)
Example C111_room_runs (NP : NanPolicy) : let B := dbg32 in
  match net_run (room_heap (F := f32))
     (NSeries (NMix (room_comb (MS (PAt 0 0) 3)) (room_comb (MS (PAt 0 3) 4))) (NPass (ap_new (MS (PAt 0 7) 2))))
     (map of_int [1; 0; 0; 0; 0; 0; 0; 0]) with
  | Ret (_, _, ys) => map to_bits ys = map (fun z => to_bits (lit z (-5))) [0; 0; 0; -32; -32; 32; 20; 13]
  | _ => False
  end.
Proof. intros B. vm_compute. reflexivity. Qed.

(** Separate buffers are needed: two delay lines in series over one buffer of two samples do not delay at all. *)
Theorem C111_shared_buffer_refuted : forall (F : Type) (NF : Num F) (B : Build) (x y z : F),
  let h := [[nint 0; nint 0]] in let s := MS (PAt 0 0) 2 in
  covers h s [nint 0; nint 0] /\
  signal (PSeries (PDelay [nint 0; nint 0]) (PDelay [nint 0; nint 0])) [x; y; z] = [nint 0; nint 0; nint 0] /\
  exists h' n', net_run h (NSeries (NDelay (dl_new s)) (NDelay (dl_new s))) [x; y; z] = Ret (h', n', [x; y; z]).
Proof.
  intros F NF B x y z h s. split; [|split; [reflexivity|]].
  - unfold covers. cbn. split; [reflexivity|]. split; [unfold isize_max, usize_bits; destruct ptr_w; lia|]. exists [], []. split; reflexivity.
  - destruct B as [[| |] [|]]; eexists; eexists; vm_compute; reflexivity.
Qed.
Print Assumptions C111_shared_buffer_refuted.
