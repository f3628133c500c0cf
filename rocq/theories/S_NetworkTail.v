(** * Vocabulary for C114: what a network makes of an input that dies away. *)

From Coq Require Import ZArith List Bool Reals.
From Verif Require Import Base F32 F32Lemmas F32Range Num M_Memory M_Delay M_Biquad S_Memory S_Delay S_BiquadF32 S_Comb S_Network S_NetworkF32 S_Voice.
Import ListNotations.
Local Open Scope R_scope.

(** For inputs within 2^e: once the input stays within D, the output in the end stays within a * D + b * 2^-149. *)
Inductive fades : plan f32 -> Z -> R -> R -> Prop :=
| fades_delay l e : fades (PDelay l) e 1 0
| fades_comb l damp fb e j : (1 <= j <= 10)%Z -> mid e -> mid (e + j + 1) -> l <> [] ->
    Forall (bounded (pow2 (e + j + 1))) l -> damp_ok damp -> fb_ok (1 - pow2 (- j)) fb ->
    fades (PComb l damp fb) e (101 / 100 * pow2 j) (40 * pow2 j)
| fades_pass l e : l <> [] -> mid e -> Forall (bounded (pow2 (e + 1))) l -> fades (PPass l) e (31 / 10) 6
| fades_filter c e G : finite_coeffs c -> ringing (exact_coeffs c) G -> feedback_weight (exact_coeffs c) * G <= 524288 ->
    pow2 (-90) <= forward_weight (exact_coeffs c) * pow2 e <= pow2 60 ->
    fades (PFilter c) e (8 / 5 * (forward_weight (exact_coeffs c) * G)) (8 * G)
| fades_scale g e k : mid (e + k) -> fin g = true -> Rabs (val g) <= pow2 k -> fades (PScale g) e (101 / 100 * pow2 k) 1
| fades_series p q e e1 a1 b1 a2 b2 : level p e e1 -> fades p e a1 b1 -> fades q e1 a2 b2 ->
    fades (PSeries p q) e (a2 * a1) (a2 * b1 + b2)
| fades_mix p q e e1 a1 b1 a2 b2 : mid e1 -> level p e e1 -> level q e e1 -> fades p e a1 b1 -> fades q e a2 b2 ->
    fades (PMix p q) e (101 / 100 * (a1 + a2)) (101 / 100 * (b1 + b2) + 1).

(** A voice whose envelope is left alone: before the k-th sample the program makes the calls [ctl k], all to the oscillator. *)
Definition retunes (e : Z) (v : vop) : Prop := match v with VSample | VEnv _ => False | _ => no_louder e v end.
Definition frames (ctl : nat -> list vop) (m : nat) : list vop := flat_map (fun k => ctl k ++ [VSample]) (seq 0 m).
