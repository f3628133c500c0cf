(** * Model of src/biquad/mod.rs and src/biquad/butterworth.rs. *)

From Coq Require Import ZArith Bool.
From Verif Require Import Base F32 Num M_FloatMath.
Open Scope Z_scope.

Section Biquad.
Context {F : Type} {NF : Num F} {MO : MathOps F}.

(** src/biquad/mod.rs:5-14 ([PhantomData] dropped) *)
Record coeffs := BC { b0 : F; b1 : F; b2 : F; a1 : F; a2 : F }.

(** src/biquad/mod.rs:33-39 *)
Record biquad := BQ { z1 : F; z2 : F; bq_coeffs : coeffs }.

(** src/biquad/mod.rs:42-49 *)
Definition bq_new (filter_type : coeffs) : biquad := BQ (nint 0) (nint 0) filter_type.

Local Open Scope num_scope.

(** src/biquad/mod.rs:51-58 *)
Definition bq_process (b : biquad) (input : F) : biquad * F :=
  let c := bq_coeffs b in
  let out := b0 c * input + z1 b in
  let z1' := (b1 c * input + z2 b) - a1 c * out in
  let z2' := b2 c * input - a2 c * out in
  (BQ z1' z2' c, out).

(** [self.coeffs = c] from outside: the field is [pub] (src/biquad/mod.rs:38). *)
Definition bq_set_coeffs (b : biquad) (c : coeffs) : biquad := BQ (z1 b) (z2 b) c.

(** src/biquad/butterworth.rs:25-34 *)
Definition bw_new : coeffs := BC (nint 0) (nint 0) (nint 0) (nint 0) (nint 0).

(** [core::f32::consts::PI], read exactly in both interpretations. *)
Definition n_pi : F := ndy 13176795 (-22).

(** src/biquad/butterworth.rs:37-40 *)
Definition setup_coeffs (fc q sr : F) : F * F :=
  let k := fast_tan ((n_pi * fc) / sr) in
  (k * k, k / q).

(** The design methods take [&mut self] and assign all five fields, so each is
    modelled as the function giving the new coefficients. *)

(** src/biquad/butterworth.rs:42-53 *)
Definition lowpass (fc q sr : F) : coeffs :=
  let '(k2, k_q) := setup_coeffs fc q sr in
  let a0 := (nint 1 + k_q) + k2 in
  let norm := nint 1 / a0 in
  let b0_ := norm * k2 in
  BC b0_
     ((norm * nint 2) * k2)
     b0_
     ((norm * nint 2) * (k2 - nint 1))
     (norm * ((nint 1 - k_q) + k2)).

(** src/biquad/butterworth.rs:55-66; the literal [-2.0] is the negation of [2.0]. *)
Definition highpass (fc q sr : F) : coeffs :=
  let '(k2, k_q) := setup_coeffs fc q sr in
  let a0 := (nint 1 + k_q) + k2 in
  let norm := nint 1 / a0 in
  BC norm
     (norm * (- nint 2))
     norm
     (norm * (nint 2 * (k2 - nint 1)))
     (norm * ((nint 1 - k_q) + k2)).

(** src/biquad/butterworth.rs:68-79 *)
Definition allpass (fc q sr : F) : coeffs :=
  let '(k2, k_q) := setup_coeffs fc q sr in
  let a0 := (nint 1 + k_q) + k2 in
  let norm := nint 1 / a0 in
  let b0_ := norm * ((nint 1 - k_q) + k2) in
  let b1_ := norm * (nint 2 * (k2 - nint 1)) in
  BC b0_ b1_ (nint 1) b1_ b0_.

(** src/biquad/butterworth.rs:81-92 *)
Definition notch (fc q sr : F) : coeffs :=
  let '(k2, k_q) := setup_coeffs fc q sr in
  let a0 := (nint 1 + k_q) + k2 in
  let norm := nint 1 / a0 in
  let b0_ := norm * (nint 1 + k2) in
  let b1_ := norm * (nint 2 * (k2 - nint 1)) in
  BC b0_ b1_ b0_ b1_ (norm * ((nint 1 - k_q) + k2)).

(** src/biquad/butterworth.rs:94-106 *)
Definition bell_boost_only (fc q gain sr : F) : coeffs :=
  let '(k2, k_q) := setup_coeffs fc q sr in
  let a0 := (nint 1 + k_q) + k2 in
  let norm := nint 1 / a0 in
  let b1_ := norm * (nint 2 * (k2 - nint 1)) in
  BC (norm * ((nint 1 + gain * k_q) + k2))
     b1_
     (norm * ((nint 1 - gain * k_q) + k2))
     b1_
     (norm * ((nint 1 - k_q) + k2)).

(** src/biquad/butterworth.rs:108-121 *)
Definition bell_cut_only (fc q gain0 sr : F) : coeffs :=
  let '(k2, k_q) := setup_coeffs fc q sr in
  let gain := - gain0 in
  let a0 := (nint 1 + gain * k_q) + k2 in
  let norm := nint 1 / a0 in
  let b1_ := norm * (nint 2 * (k2 - nint 1)) in
  BC (norm * ((nint 1 + k_q) + k2))
     b1_
     (norm * ((nint 1 - k_q) + k2))
     b1_
     (norm * ((nint 1 - gain * k_q) + k2)).

(** src/biquad/butterworth.rs:123-129 *)
Definition bell (fc q gain sr : F) : coeffs :=
  if npos gain then bell_boost_only fc q gain sr else bell_cut_only fc q gain sr.

(** src/biquad/butterworth.rs:131-143 *)
Definition low_shelf_boost_only (fc q gain sr : F) : coeffs :=
  let '(k2, k_q) := setup_coeffs fc q sr in
  let a0 := (nint 1 + k_q) + k2 in
  let norm := nint 1 / a0 in
  BC (norm * ((nint 1 + m_sqrt ((gain * nint 2) * k2)) + gain * k2))
     (norm * (nint 2 * (gain * k2 - nint 1)))
     (norm * ((nint 1 - m_sqrt ((gain * nint 2) * k2)) + gain * k2))
     (norm * (nint 2 * (k2 - nint 1)))
     (norm * ((nint 1 - k_q) + k2)).

(** src/biquad/butterworth.rs:145-158 *)
Definition low_shelf_cut_only (fc q gain0 sr : F) : coeffs :=
  let '(k2, k_q) := setup_coeffs fc q sr in
  let gain := - gain0 in
  let a0 := (nint 1 + m_sqrt ((gain * nint 2) * k2)) + gain * k2 in
  let norm := nint 1 / a0 in
  BC (norm * ((nint 1 + k_q) + k2))
     (norm * (nint 2 * (k2 - nint 1)))
     (norm * ((nint 1 - k_q) + k2))
     (norm * (nint 2 * (gain * k2 - nint 1)))
     (norm * ((nint 1 - m_sqrt ((gain * nint 2) * k2)) + gain * k2)).

(** src/biquad/butterworth.rs:160-166 *)
Definition low_shelf (fc q gain sr : F) : coeffs :=
  if npos gain then low_shelf_boost_only fc q gain sr else low_shelf_cut_only fc q gain sr.
End Biquad.
Arguments coeffs F : clear implicits.
Arguments biquad F : clear implicits.
