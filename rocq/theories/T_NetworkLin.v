(** * C111 in exact arithmetic: networks that start silent are linear and time-invariant, and series connections commute. *)

From Coq Require Import ZArith List Bool Reals Lia Lra.
From Verif Require Import Base F32 Num M_Memory M_Delay M_Biquad S_Memory S_Delay S_Rack S_Network S_NetworkLin P_Network P_NetworkLin T_Network.
Import ListNotations.
Local Open Scope R_scope.

(** The outputs for [a x + b y] are [a] times the outputs for [x] plus [b] times those for [y]. *)
Theorem C111_superposition : forall (B : Build) (h : heap R) n p ss a b xs ys,
  fresh h n p ss -> apart ss -> silent p -> length xs = length ys ->
  exists h1 n1 us h2 n2 vs h3 n3,
    net_run h n xs = Ret (h1, n1, us) /\ net_run h n ys = Ret (h2, n2, vs) /\ net_run h n (blend a xs b ys) = Ret (h3, n3, blend a us b vs).
Proof.
  intros B h n p ss a b xs ys FR HA HS E. pose proof (silent_lti p HS) as L.
  destruct (C111_network_is_composition R _ B h n p ss xs FR HA) as (h1 & n1 & E1 & _).
  destruct (C111_network_is_composition R _ B h n p ss ys FR HA) as (h2 & n2 & E2 & _).
  destruct (C111_network_is_composition R _ B h n p ss (blend a xs b ys) FR HA) as (h3 & n3 & E3 & _).
  rewrite (lti_lin _ L) in E3 by exact E. eauto 12.
Qed.
Print Assumptions C111_superposition.

(** An input that starts [k] samples later gives the same output [k] samples later, after silence. *)
Theorem C111_time_invariant : forall (B : Build) (h : heap R) n p ss k xs,
  fresh h n p ss -> apart ss -> silent p ->
  exists h1 n1 us h2 n2, net_run h n xs = Ret (h1, n1, us) /\ net_run h n (repeat 0 k ++ xs) = Ret (h2, n2, repeat 0 k ++ us).
Proof.
  intros B h n p ss k xs FR HA HS. pose proof (silent_lti p HS) as L.
  destruct (C111_network_is_composition R _ B h n p ss xs FR HA) as (h1 & n1 & E1 & _).
  destruct (C111_network_is_composition R _ B h n p ss (repeat 0 k ++ xs) FR HA) as (h2 & n2 & E2 & _).
  replace (signal p (repeat 0 k ++ xs)) with (repeat 0 k ++ signal p xs) in E2; [eauto 10|].
  clear - L. induction k as [|k IH]; cbn [repeat app]; [reflexivity|]. now rewrite (lti_shift _ L), IH.
Qed.
Print Assumptions C111_time_invariant.

(** Two networks in series give the same output in either order, wherever their buffers are. *)
Theorem C111_order_irrelevant : forall (B : Build) (h h' : heap R) n m n' m' p q ss ts,
  fresh h (NSeries n m) (PSeries p q) ss -> apart ss -> fresh h' (NSeries m' n') (PSeries q p) ts -> apart ts -> silent p -> silent q ->
  forall xs, exists h1 n1 h2 n2 ys, net_run h (NSeries n m) xs = Ret (h1, n1, ys) /\ net_run h' (NSeries m' n') xs = Ret (h2, n2, ys).
Proof.
  intros B h h' n m n' m' p q ss ts F1 A1 F2 A2 Hp Hq xs.
  destruct (C111_network_is_composition R _ B h _ _ ss xs F1 A1) as (h1 & n1 & E1 & _).
  destruct (C111_network_is_composition R _ B h' _ _ ts xs F2 A2) as (h2 & n2 & E2 & _).
  cbn [signal] in *. rewrite (lti_commute _ _ (silent_lti p Hp) (silent_lti q Hq)) in E2. eauto 10.
Qed.
Print Assumptions C111_order_irrelevant.

(** The reverberator of T_Network starts silent, and it may be put after its filter and gain instead of before. *)
Example C111_silent_met (B : Build) : silent (room_plan (F := R)) /\
  let tail := NSeries (NFilter (bq_new room_coeffs)) (NScale (ndy 1 (-4))) in
  let body := NSeries (NMix (room_comb (MS (PAt 0 0) 3)) (room_comb (MS (PAt 0 3) 4))) (NPass (ap_new (MS (PAt 0 7) 2))) in
  room = NSeries body tail /\ exists q, fresh (F := R) room_heap (NSeries tail body) q room_slices /\ silent q.
Proof.
  assert (Z : forall n, (0 < n)%nat -> zeros n <> ([] : list R) /\ Forall (fun x => x = 0) (zeros n : list R)).
  { intros n Hn. split; [destruct n; [lia|discriminate]|]. unfold zeros. apply Forall_forall. intros x Hx. apply repeat_spec in Hx. rewrite nint_0 in Hx. exact Hx. }
  assert (S : silent (room_plan (F := R))).
  { unfold room_plan. cbn [silent]. repeat split; try exact I; try discriminate; apply Z; lia. }
  split; [exact S|]. intros tail body. split; [reflexivity|].
  exists (PSeries (PSeries (PFilter room_coeffs) (PScale (ndy 1 (-4))))
    (PSeries (PMix (PComb (zeros 3) room_damp room_feedback) (PComb (zeros 4) room_damp room_feedback)) (PPass (zeros 2)))).
  split.
  - change room_slices with (([] ++ []) ++ (([MS (PAt 0 0) 3] ++ [MS (PAt 0 3) 4]) ++ [MS (PAt 0 7) 2])).
    apply fresh_series; [apply fresh_series; [apply fresh_filter|apply fresh_scale]|apply fresh_series; [apply fresh_mix; apply fresh_comb|apply fresh_pass]]; try (cbn [ms_len]; lia).
    + exact (room_covers R _ B 0 0 3 ltac:(lia) eq_refl).
    + exact (room_covers R _ B 3 3 4 ltac:(lia) eq_refl).
    + exact (room_covers R _ B 7 7 2 ltac:(lia) eq_refl).
  - cbn [silent] in *. destruct S as [S1 S2]. split; assumption.
Qed.
