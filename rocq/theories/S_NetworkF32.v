(** * Specification for C111: levels of f32 networks. *)

From Coq Require Import ZArith List Bool Reals.
From Verif Require Import Base F32 F32Lemmas F32Range Num M_Memory M_Delay M_Biquad S_Memory S_Delay S_BiquadF32 S_Comb S_Network.
Import ListNotations.
Local Open Scope R_scope.

(** Signals within 2^e at the input give signals within 2^e' at the output. *)
Definition mid (e : Z) : Prop := (-80 <= e <= 80)%Z.
Inductive level : plan f32 -> Z -> Z -> Prop :=
| level_delay l e : Forall (bounded (pow2 e)) l -> level (PDelay l) e e
| level_comb l damp fb e j : (1 <= j <= 10)%Z -> mid e -> mid (e + j + 1) ->
    Forall (bounded (pow2 (e + j + 1))) l -> damp_ok damp -> fb_ok (1 - pow2 (- j)) fb -> level (PComb l damp fb) e (e + j + 1)
| level_pass l e : l <> [] -> mid e -> Forall (bounded (pow2 (e + 1))) l -> level (PPass l) e (e + 2)
| level_filter c e e' G : finite_coeffs c -> ringing (exact_coeffs c) G -> feedback_weight (exact_coeffs c) * G <= 524288 ->
    pow2 (-90) <= forward_weight (exact_coeffs c) * pow2 e <= pow2 60 ->
    2 * (G * (forward_weight (exact_coeffs c) * pow2 e)) <= pow2 e' -> level (PFilter c) e e'
| level_scale g e k : mid (e + k) -> fin g = true -> Rabs (val g) <= pow2 k -> level (PScale g) e (e + k)
| level_series p q e e1 e2 : level p e e1 -> level q e1 e2 -> level (PSeries p q) e e2
| level_mix p q e e1 : mid e1 -> level p e e1 -> level q e e1 -> level (PMix p q) e (e1 + 1)
| level_up p e e1 e2 : level p e e1 -> (e1 <= e2)%Z -> level p e e2.
