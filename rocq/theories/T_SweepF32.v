(** * C110: changing the coefficients of a running filter, in single precision. *)

From Coq Require Import ZArith List Bool Reals Lia Lra.
From Flocq Require Import Core.
From Verif Require Import Base F32 F32Lemmas F32Exact F32Range Num M_FloatMath M_Biquad S_Biquad S_BiquadF32 S_DesignF32 S_Sweep T_Biquad T_DesignF32.
Local Open Scope R_scope.

(** Two low-pass settings of 1 kHz and 20 kHz at 48 kHz with q = 1. *)
Definition low_setting {NP : NanPolicy} : coeffs f32 := lowpass (MO := mul_math) (of_int 1000) (of_int 1) (of_int 48000).
Definition high_setting {NP : NanPolicy} : coeffs f32 := lowpass (MO := mul_math) (of_int 20000) (of_int 1) (of_int 48000).
Definition click {NP : NanPolicy} (n : nat) : f32 := match n with O => of_int 1 | _ => of_int 0 end.


Lemma low_moderate (NP : NanPolicy) : let p := setup_coeffs (MO := mul_math) (of_int 1000) (of_int 1) (of_int 48000) in moderate (snd p) (fst p).
Proof. exact (C96_met NP). Qed.
Lemma high_moderate (NP : NanPolicy) : let p := setup_coeffs (MO := mul_math) (of_int 20000) (of_int 1) (of_int 48000) in moderate (snd p) (fst p).
Proof.
  intros p.
  assert (F1 : fin (snd p) = true) by (vm_compute; reflexivity). assert (F2 : fin (fst p) = true) by (vm_compute; reflexivity).
  pose proof (between (lo := lit 1 1) (hi := lit 1 2) F1 ltac:(vm_compute; reflexivity) ltac:(vm_compute; reflexivity) ltac:(vm_compute; reflexivity) ltac:(vm_compute; reflexivity)) as B1.
  pose proof (between (lo := lit 1 3) (hi := lit 1 4) F2 ltac:(vm_compute; reflexivity) ltac:(vm_compute; reflexivity) ltac:(vm_compute; reflexivity) ltac:(vm_compute; reflexivity)) as B2.
  rewrite (proj2 (lit_exact 1 1 ltac:(lia) ltac:(lia))), (proj2 (lit_exact 1 2 ltac:(lia) ltac:(lia))) in B1.
  rewrite (proj2 (lit_exact 1 3 ltac:(lia) ltac:(lia))), (proj2 (lit_exact 1 4 ltac:(lia) ltac:(lia))) in B2.
  set (a := snd p) in *. set (b := fst p) in *. clearbody a b. clear p.
  replace (pow2 1) with 2 in B1 by (cbn; lra). replace (pow2 2) with 4 in B1 by (cbn; lra).
  replace (pow2 3) with 8 in B2 by (cbn; lra). replace (pow2 4) with 16 in B2 by (cbn; lra).
  split; [exact F1|]. split; [exact F2|]. lra.
Qed.

Lemma overflows (NP : NanPolicy) : fin (response_var (bq_new low_setting) (alternate low_setting high_setting) click 145) = false.
Proof. vm_compute. reflexivity. Qed.

(** Both settings are stable filters.  Installing them in turn, a new one before each sample, turns a single click
    into an infinity or NaN about three milliseconds later, and no sample after that is finite again. *)
Theorem C110_audio_rate_overflow_refuted : forall NP : NanPolicy,
  well_behaved (exact_coeffs low_setting) /\ well_behaved (exact_coeffs high_setting) /\
  forall n, (145 <= n)%nat -> fin (response_var (bq_new low_setting) (alternate low_setting high_setting) click n) = false.
Proof.
  intros NP. split; [|split].
  - destruct (C96_rounded_designs_stable NP mul_math (of_int 1000) (of_int 1) (of_int 48000) f_zero) as [H _]. destruct (H (low_moderate NP)) as [(_ & _ & W) _]. exact W.
  - destruct (C96_rounded_designs_stable NP mul_math (of_int 20000) (of_int 1) (of_int 48000) f_zero) as [H _]. destruct (H (high_moderate NP)) as [(_ & _ & W) _]. exact W.
  - apply (proj1 (C29_biquad_poisoned NP (bq_new low_setting) (alternate low_setting high_setting) click 145)). right. apply overflows.
Qed.
Print Assumptions C110_audio_rate_overflow_refuted.
