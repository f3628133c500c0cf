(** * Vocabulary for the biquad theorems: signals, responses, poles, energy. *)

From Coq Require Import ZArith Reals.
From Verif Require Import Base F32 Num M_Biquad.

(** The filter after the first [n] samples of the signal [x], and its output at time [n]. *)
Section Response.
Context {F : Type} {NF : Num F}.
Fixpoint after (b : biquad F) (x : nat -> F) (n : nat) : biquad F :=
  match n with
  | O => b
  | S m => fst (bq_process (after b x m) (x m))
  end.
Definition response (b : biquad F) (x : nat -> F) (n : nat) : F :=
  snd (bq_process (after b x n) (x n)).

(** The same with coefficients re-installed before every sample. *)
Fixpoint after_var (b : biquad F) (c : nat -> coeffs F) (x : nat -> F) (n : nat) : biquad F :=
  match n with
  | O => b
  | S m => fst (bq_process (bq_set_coeffs (after_var b c x m) (c m)) (x m))
  end.
Definition response_var (b : biquad F) (c : nat -> coeffs F) (x : nat -> F) (n : nat) : F :=
  snd (bq_process (bq_set_coeffs (after_var b c x n) (c n)) (x n)).
End Response.

Local Open Scope R_scope.

(** The sample [k] steps before time [n]; zero before time 0. *)
Definition ago (k : nat) (x : nat -> R) (n : nat) : R := if Nat.ltb n k then 0 else x (n - k)%nat.

(** Every root u + iv of z^2 + a1 z + a2 lies strictly inside the unit circle. *)
Definition poles_inside (c : coeffs R) : Prop :=
  forall u v, u * u - v * v + a1 c * u + a2 c = 0 -> 2 * u * v + a1 c * v = 0 -> u * u + v * v < 1.

(** Bounded input, bounded output, from rest and with one constant. *)
Definition bibo (c : coeffs R) : Prop :=
  exists K, 0 <= K /\ forall M x, (forall n, Rabs (x n) <= M) -> forall n, Rabs (response (bq_new c) x n) <= K * M.

(** When the input stops, the output dies out geometrically, whatever the state. *)
Definition decays (c : coeffs R) : Prop :=
  exists K rho, 0 <= K /\ 0 <= rho < 1 /\
    forall b, bq_coeffs b = c -> forall n,
      Rabs (response b (fun _ => 0) n) <= K * (Rabs (z1 b) + Rabs (z2 b)) * rho ^ n.

(** [b] answers the signal [x] in the long run with the signal [y]. *)
Definition settles_to (b : biquad R) (x y : nat -> R) : Prop :=
  Un_cv (fun n => response b x n - y n) 0.

Definition constant (c : R) : nat -> R := fun _ => c.
Definition alternating (c : R) : nat -> R := fun n => (-1) ^ n * c.
Definition sinusoid (amp w phi : R) : nat -> R := fun n => amp * sin (w * INR n + phi).

(** Energy of the samples 0..n. *)
Definition energy_upto (x : nat -> R) (n : nat) : R := sum_f_R0 (fun i => x i * x i) n.

(** The external routines compute what their names say (over R). *)
Definition exact_sqrt (MO : MathOps R) : Prop := forall x, 0 <= x -> m_sqrt x = sqrt x.
Definition exact_powi (MO : MathOps R) : Prop := forall x n, (0 <= n)%Z -> m_powi x n = x ^ Z.to_nat n.

(** The Taylor polynomial of degree 15 of the tangent, and the (approximate) tangent
    of half the cut-off angle that a design works with; the constant is the f32 value of pi. *)
Definition tan_poly (x : R) : R :=
  x + x ^ 3 / 3 + 2 / 15 * x ^ 5 + 17 / 315 * x ^ 7 + 62 / 2835 * x ^ 9 + 1382 / 155925 * x ^ 11
    + 21844 / 6081075 * x ^ 13 + 929569 / 638512875 * x ^ 15.
Definition pi32 : R := IZR 13176795 / IZR (2 ^ 22).
Definition design_k (fc sr : R) : R := tan_poly (pi32 * fc / sr).

(** The digital angular frequency the design is centred on. *)
Definition centre (fc sr : R) : R := 2 * atan (design_k fc sr).

(** Unit impulse. *)
Definition unit_impulse (n : nat) : R := match n with O => 1 | _ => 0 end.
