(** * Specification for C111: how far an f32 network is from exact arithmetic. *)

From Coq Require Import ZArith List Bool Reals.
From Verif Require Import Base F32 F32Lemmas F32Range Num M_Memory M_Delay M_Biquad S_Memory S_Delay S_BiquadF32 S_Comb S_Network S_NetworkF32.
Import ListNotations.
Local Open Scope R_scope.

(** The plan with the same numbers, computed without rounding. *)
Fixpoint exact_plan (p : plan f32) : plan R :=
  match p with
  | PDelay l => PDelay (map val l)
  | PComb l damp fb => PComb (map val l) (val damp) (val fb)
  | PPass l => PPass (map val l)
  | PFilter c => PFilter (exact_coeffs c)
  | PScale g => PScale (val g)
  | PSeries p q => PSeries (exact_plan p) (exact_plan q)
  | PMix p q => PMix (exact_plan p) (exact_plan q)
  end.

(** For inputs within 2^e: the error a plan adds, and the factor by which it can enlarge an error of its input. *)
Inductive accuracy : plan f32 -> Z -> R -> R -> Prop :=
| acc_delay l e : accuracy (PDelay l) e 0 1
| acc_comb l damp fb e j : (1 <= j <= 10)%Z -> mid e -> mid (e + j + 1) -> l <> [] ->
    Forall (bounded (pow2 (e + j + 1))) l -> damp_ok damp -> fb_ok (1 - pow2 (- j)) fb ->
    accuracy (PComb l damp fb) e (pow2 (e + 2 * j + 1) / 131072) (pow2 j)
| acc_pass l e : l <> [] -> mid e -> Forall (bounded (pow2 (e + 1))) l -> accuracy (PPass l) e (pow2 e / 2000000) 3
| acc_filter c e G : finite_coeffs c -> ringing (exact_coeffs c) G -> feedback_weight (exact_coeffs c) * G <= 524288 ->
    pow2 (-90) <= forward_weight (exact_coeffs c) * pow2 e <= pow2 60 ->
    accuracy (PFilter c) e (feedback_weight (exact_coeffs c) * G * (G * (forward_weight (exact_coeffs c) * pow2 e)) / 500000)
      (forward_weight (exact_coeffs c) * G)
| acc_scale g e k : mid (e + k) -> fin g = true -> Rabs (val g) <= pow2 k -> accuracy (PScale g) e (pow2 (e + k - 23)) (pow2 k)
| acc_series p q e e1 E1 G1 E2 G2 : level p e e1 -> accuracy p e E1 G1 -> accuracy q e1 E2 G2 ->
    accuracy (PSeries p q) e (E2 + G2 * E1) (G2 * G1)
| acc_mix p q e e1 E1 G1 E2 G2 : mid e1 -> level p e e1 -> level q e e1 -> accuracy p e E1 G1 -> accuracy q e E2 G2 ->
    accuracy (PMix p q) e (E1 + E2 + pow2 (e1 - 22)) (G1 + G2).

Definition close (D : R) (us vs : list R) : Prop := Forall2 (fun u v => Rabs (u - v) <= D) us vs.
