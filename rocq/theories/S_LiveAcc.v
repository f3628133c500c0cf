(** * Specification for C119: how far an f32 network with moving settings is from exact arithmetic. *)

From Coq Require Import ZArith List Bool Reals.
From Verif Require Import Base F32 F32Lemmas F32Range Num M_Memory M_Delay M_Biquad S_Memory S_Delay S_Biquad S_BiquadF32 S_Comb S_Network S_NetworkF32 S_NetworkAcc S_SweepF32 S_Live.
Import ListNotations.
Local Open Scope R_scope.

(** The same sample or call with the same numbers, in exact arithmetic. *)
Definition exact_knob (k : knob f32) : knob R :=
  match k with KDamp v => KDamp (val v) | KFeedback v => KFeedback (val v) | KCoeffs c => KCoeffs (exact_coeffs c) | KGain g => KGain (val g) end.
Definition exact_event (ev : event f32) : event R :=
  match ev with Tick x => Tick (val x) | Turn w k => Turn w (exact_knob k) end.

(** For inputs within 2^e and the calls in [evs]: the error a plan adds, and the factor by which it can enlarge an error
    of its input. *)
Inductive live_accuracy : plan f32 -> list (event f32) -> Z -> R -> R -> Prop :=
| lacc_delay l evs e : live_accuracy (PDelay l) evs e 0 1
| lacc_comb l damp fb evs e j : (1 <= j <= 10)%Z -> mid e -> mid (e + j + 1) ->
    Forall (bounded (pow2 (e + j + 1))) l -> damp_ok damp -> fb_ok (1 - pow2 (- j)) fb -> Forall (comb_moves (1 - pow2 (- j))) evs ->
    live_accuracy (PComb l damp fb) evs e (pow2 (e + 2 * j + 1) / 131072) (pow2 j)
| lacc_pass l evs e : l <> [] -> mid e -> Forall (bounded (pow2 (e + 1))) l -> live_accuracy (PPass l) evs e (pow2 e / 2000000) 3
| lacc_filter d evs e (c : nat -> coeffs f32) m G :
    (forall k, (k < length (in_force d evs))%nat -> nth k (in_force d evs) d = c k) ->
    (forall k, finite_coeffs (c k) /\ within_limits m (exact_coeffs (c k))) -> sweep_gain (fun k => exact_coeffs (c k)) G ->
    feedback_weight m * G <= 524288 -> pow2 (-90) <= forward_weight m * pow2 e <= pow2 60 ->
    live_accuracy (PFilter d) evs e (feedback_weight m * G * (G * (forward_weight m * pow2 e)) / 500000) (forward_weight m * G)
| lacc_scale g evs e k : mid (e + k) -> gain_ok k g -> Forall (gain_moves k) evs -> live_accuracy (PScale g) evs e (pow2 (e + k - 23)) (pow2 k)
| lacc_series p q evs e e1 E1 G1 E2 G2 : live_level p (branch true evs) e e1 ->
    live_accuracy p (branch true evs) e E1 G1 -> live_accuracy q (branch false evs) e1 E2 G2 -> live_accuracy (PSeries p q) evs e (E2 + G2 * E1) (G2 * G1)
| lacc_mix p q evs e e1 E1 G1 E2 G2 : mid e1 -> live_level p (branch true evs) e e1 -> live_level q (branch false evs) e e1 ->
    live_accuracy p (branch true evs) e E1 G1 -> live_accuracy q (branch false evs) e E2 G2 -> live_accuracy (PMix p q) evs e (E1 + E2 + pow2 (e1 - 22)) (G1 + G2).
