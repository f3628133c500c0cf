(** * C111: the distance of an f32 network from exact arithmetic. *)

From Coq Require Import ZArith List Bool Reals Lia Lra.
From Flocq Require Import Core.
From Verif Require Import Base F32 F32Lemmas F32Exact F32Range Num M_Memory M_Delay M_Biquad S_Memory S_Delay S_Biquad S_BiquadF32 S_Comb S_Rack S_Network S_NetworkF32 S_NetworkAcc
  P_Network P_NetworkLin P_NetworkAcc T_BiquadF32 T_Network.
Import ListNotations.
Local Open Scope R_scope.

(** The f32 network and the same network in exact arithmetic, given inputs that differ by at most [D], produce outputs that
    differ by at most the error of the wiring plus its gain times [D], for ever. *)
Theorem C111_network_tracks : forall (NP : NanPolicy) (B : Build) (h : heap f32) n p ss (hr : heap R) nr sr xs us e e' E G D,
  fresh h n p ss -> apart ss -> fresh hr nr (exact_plan p) sr -> apart sr ->
  level p e e' -> accuracy p e E G -> Forall (bounded (pow2 e)) xs -> 0 <= D -> close D (map val xs) us ->
  exists h' n' ys hr' nr' zs, net_run h n xs = Ret (h', n', ys) /\ net_run hr nr us = Ret (hr', nr', zs) /\
    Forall (bounded (pow2 e')) ys /\ close (E + G * D) (map val ys) zs.
Proof.
  intros NP B h n p ss hr nr sr xs us e e' E G D F1 A1 F2 A2 L AC Hx HD Hu.
  destruct (C111_network_is_composition f32 _ B h n p ss xs F1 A1) as (h' & n' & R1 & _).
  destruct (C111_network_is_composition R _ B hr nr _ sr us F2 A2) as (hr' & nr' & R2 & _).
  do 6 eexists. split; [exact R1|]. split; [exact R2|]. split; [now apply (level_signal p e)|].
  apply close_trans with (signal (exact_plan p) (map val xs)); [now apply (acc_sound p e E G)|now apply (acc_lip p e E G AC)].
Qed.
Print Assumptions C111_network_tracks.

(** The reverberator of T_Network: for inputs within 1 its output stays within 1/100 of the exact one; its gain for errors is at most 100. *)
Example C111_tracks_met (NP : NanPolicy) (B : Build) :
  fresh (room_heap (F := R)) room (exact_plan room_plan) room_slices /\
  exists E G, accuracy (room_plan (F := f32)) 0 E G /\ E <= 1 / 100 /\ G <= 100.
Proof.
  destruct (of_int_exact 0 ltac:(lia)) as [F0 V0].
  destruct (lit_exact 1 (-2) ltac:(lia) ltac:(lia)) as [Fd Vd]. destruct (lit_exact 1 (-1) ltac:(lia) ltac:(lia)) as [Ff Vf]. destruct (lit_exact 1 (-4) ltac:(lia) ltac:(lia)) as [Fg Vg].
  destruct (lit_exact 1 (-8) ltac:(lia) ltac:(lia)) as [_ W0]. destruct (lit_exact 2 (-8) ltac:(lia) ltac:(lia)) as [_ W1].
  destruct (lit_exact (-1859) (-10) ltac:(lia) ltac:(lia)) as [_ Wa]. destruct (lit_exact 851 (-10) ltac:(lia) ltac:(lia)) as [_ Wb].
  split.
  - replace (exact_plan room_plan) with (room_plan (F := R)); [apply C111_met|].
    unfold room_plan. cbn [exact_plan].
    assert (Z : forall k, map val (zeros k : list f32) = zeros k).
    { intros k. unfold zeros. induction k as [|k IH]; cbn [repeat map]; [reflexivity|]. rewrite IH. f_equal. change (val (of_int 0) = nint 0). rewrite V0. now rewrite nint_0. }
    rewrite !Z. unfold room_damp, room_feedback, room_coeffs, exact_coeffs. cbn [b0 b1 b2 a1 a2]. change (@ndy f32 _) with lit. rewrite Vd, Vf, Vg, W0, W1, Wa, Wb. reflexivity.
  - assert (Z : forall k e, Forall (bounded (pow2 e)) (zeros k : list f32)).
    { intros k e. unfold zeros. apply Forall_forall. intros x Hx. apply repeat_spec in Hx. subst x. change (nint 0 : f32) with (of_int 0). split; [exact F0|]. rewrite V0, Rabs_R0. apply bpow_ge_0. }
    assert (DO : damp_ok room_damp). { split; [exact Fd|]. change (room_damp : f32) with (lit 1 (-2)). rewrite Vd. cbn. lra. }
    assert (FO : fb_ok (1 - pow2 (- (1))) room_feedback). { split; [exact Ff|]. change (room_feedback : f32) with (lit 1 (-1)). rewrite Vf. rewrite Rabs_pos_eq; cbn; lra. }
    assert (LC : forall k, level (PComb (zeros k) room_damp room_feedback) 0 2).
    { intros k. apply (level_comb _ _ _ 0 1); unfold mid; try lia; auto. }
    assert (AC : forall k, (0 < k)%nat -> accuracy (PComb (zeros k) room_damp room_feedback) 0 (pow2 (0 + 2 * 1 + 1) / 131072) (pow2 1)).
    { intros k Hk. apply (acc_comb _ _ _ 0 1); unfold mid; try lia; auto. destruct k; [lia|discriminate]. }
    destruct (C95_met NP) as (H1 & H2 & H3 & H4). change (BC (lit 1 (-8)) (lit 2 (-8)) (lit 1 (-8)) (lit (-1859) (-10)) (lit 851 (-10))) with (room_coeffs (F := f32)) in *.
    assert (W : forward_weight (exact_coeffs (room_coeffs (F := f32))) = 4 / 256 /\ feedback_weight (exact_coeffs (room_coeffs (F := f32))) = 3734 / 1024).
    { unfold forward_weight, feedback_weight, exact_coeffs, room_coeffs. cbn [b0 b1 b2 a1 a2]. change (@ndy f32 _) with lit. rewrite W0, W1, Wa, Wb.
      replace (IZR 1 * pow2 (-8)) with (1 / 256) by (cbn; lra). replace (IZR 2 * pow2 (-8)) with (1 / 128) by (cbn; lra).
      replace (IZR 851 * pow2 (-10)) with (851 / 1024) by (cbn; lra). replace (IZR (-1859) * pow2 (-10)) with (-1859 / 1024) by (cbn; lra).
      rewrite (Rabs_pos_eq (1 / 256)), (Rabs_pos_eq (1 / 128)), (Rabs_pos_eq (851 / 1024)), (Rabs_left (-1859 / 1024)) by lra. split; lra. }
    destruct W as [WF WB].
    do 2 eexists. split.
    + unfold room_plan. apply acc_series with (e1 := 5%Z).
      * apply level_series with 3%Z; [|apply (level_pass _ 3); [discriminate|unfold mid; lia|apply Z]]. apply (level_mix _ _ 0 2); [unfold mid; lia|apply LC|apply LC].
      * apply acc_series with (e1 := 3%Z); [apply (level_mix _ _ 0 2); [unfold mid; lia|apply LC|apply LC]| |].
        -- apply acc_mix with (e1 := 2%Z); [unfold mid; lia|apply LC|apply LC|apply AC; lia|apply AC; lia].
        -- apply acc_pass; [discriminate|unfold mid; lia|apply Z].
      * apply acc_series with (e1 := 13%Z).
        -- apply level_filter with 130; try assumption; rewrite WF.
           ++ replace (4 / 256 * pow2 5) with (pow2 (-1)) by (cbn; lra). split; apply bpow_le; lia.
           ++ cbn. lra.
        -- apply acc_filter with (G := 130); try assumption. rewrite WF. replace (4 / 256 * pow2 5) with (pow2 (-1)) by (cbn; lra). split; apply bpow_le; lia.
        -- apply (acc_scale _ 13 (-4)); [unfold mid; lia|exact Fg|]. change (ndy 1 (-4) : f32) with (lit 1 (-4)). rewrite Vg. rewrite Rabs_pos_eq; cbn; lra.
    + rewrite WF, WB. cbn. split; lra.
Qed.
