(** * Specification for C115: networks whose settings are changed while they run. *)

From Coq Require Import ZArith List Bool Reals.
From Verif Require Import Base F32 F32Lemmas F32Range Num M_Memory M_Delay M_Biquad S_Memory S_Delay S_Biquad S_BiquadF32 S_Comb S_Network S_NetworkF32 S_SweepF32.
Import ListNotations.
Local Open Scope num_scope.

Section Live.
Context {F : Type} {NF : Num F} {B : Build}.

(** ** The program *)
(** Comb::set_dampening, Comb::set_feedback, [biquad.coeffs = c], and a new gain. *)
Inductive knob := KDamp (v : F) | KFeedback (v : F) | KCoeffs (c : coeffs F) | KGain (g : F).
(** A sample, or a call to one part; the part is found by going left ([true]) or right at each pair. *)
Inductive event := Tick (x : F) | Turn (w : list bool) (k : knob).

Fixpoint turn (n : net F) (w : list bool) (k : knob) : net F :=
  match n, w, k with
  | NComb c, [], KDamp v => NComb (cb_set_dampening c v)
  | NComb c, [], KFeedback v => NComb (cb_set_feedback c v)
  | NFilter b, [], KCoeffs c => NFilter (bq_set_coeffs b c)
  | NScale _, [], KGain g => NScale g
  | NSeries n m, true :: r, _ => NSeries (turn n r k) m
  | NSeries n m, false :: r, _ => NSeries n (turn m r k)
  | NMix n m, true :: r, _ => NMix (turn n r k) m
  | NMix n m, false :: r, _ => NMix n (turn m r k)
  | _, _, _ => n
  end.

Fixpoint live_run (h : heap F) (n : net F) (evs : list event) : outcome (heap F * net F * list F) :=
  match evs with
  | [] => Ret (h, n, [])
  | Turn w k :: r => live_run h (turn n w k) r
  | Tick x :: r =>
      do a <- net_tick h n x ;
      do b <- live_run (fst (fst a)) (snd (fst a)) r ;
      Ret (fst (fst b), snd (fst b), snd a :: snd b)
  end.

(** ** The same history as seen by each part; no memory *)
Fixpoint inputs (evs : list event) : list F :=
  match evs with [] => [] | Tick x :: r => x :: inputs r | Turn _ _ :: r => inputs r end.
(** What the left or the right half of a pair gets to see. *)
Fixpoint branch (side : bool) (evs : list event) : list event :=
  match evs with
  | [] => []
  | Tick x :: r => Tick x :: branch side r
  | Turn (s :: w) k :: r => if Bool.eqb s side then Turn w k :: branch side r else branch side r
  | Turn [] _ :: r => branch side r
  end.
(** The same calls between the samples of another signal. *)
Fixpoint feed (evs : list event) (ys : list F) : list event :=
  match evs, ys with
  | Turn w k :: r, _ => Turn w k :: feed r ys
  | Tick _ :: r, y :: ys' => Tick y :: feed r ys'
  | _, _ => []
  end.
Fixpoint comb_events (evs : list event) : list (comb_op F) :=
  match evs with
  | [] => []
  | Tick x :: r => CTick x :: comb_events r
  | Turn [] (KDamp v) :: r => CDamp v :: comb_events r
  | Turn [] (KFeedback v) :: r => CFeedback v :: comb_events r
  | _ :: r => comb_events r
  end.
Fixpoint live_filter (b : biquad F) (evs : list event) : list F :=
  match evs with
  | [] => []
  | Tick x :: r => let p := bq_process b x in snd p :: live_filter (fst p) r
  | Turn [] (KCoeffs c) :: r => live_filter (bq_set_coeffs b c) r
  | _ :: r => live_filter b r
  end.
Fixpoint live_gain (g : F) (evs : list event) : list F :=
  match evs with
  | [] => []
  | Tick x :: r => x * g :: live_gain g r
  | Turn [] (KGain g') :: r => live_gain g' r
  | _ :: r => live_gain g r
  end.

Fixpoint live_signal (p : plan F) (evs : list event) : list F :=
  match p with
  | PDelay l => firstn (length (inputs evs)) (l ++ inputs evs)
  | PComb l damp fb => comb_spec l 0 (nint 0) damp fb (comb_events evs)
  | PPass l => ap_spec l 0 (inputs evs)
  | PFilter c => live_filter (bq_new c) evs
  | PScale g => live_gain g evs
  | PSeries p q => live_signal q (feed (branch false evs) (live_signal p (branch true evs)))
  | PMix p q => added (live_signal p (branch true evs)) (live_signal q (branch false evs))
  end.

(** The coefficients in force at each sample. *)
Fixpoint in_force (c : coeffs F) (evs : list event) : list (coeffs F) :=
  match evs with
  | [] => []
  | Tick _ :: r => c :: in_force c r
  | Turn [] (KCoeffs d) :: r => in_force d r
  | _ :: r => in_force c r
  end.
End Live.
Arguments knob F : clear implicits.
Arguments event F : clear implicits.

(** ** Levels of f32 networks with moving settings: signals within 2^e at the input give signals within 2^e' at the output. *)
Local Open Scope R_scope.
Definition comb_moves (f : R) (ev : event f32) : Prop :=
  match ev with Turn [] (KDamp v) => damp_ok v | Turn [] (KFeedback v) => fb_ok f v | _ => True end.
Definition gain_ok (k : Z) (g : f32) : Prop := fin g = true /\ Rabs (val g) <= pow2 k.
Definition gain_moves (k : Z) (ev : event f32) : Prop := match ev with Turn [] (KGain g) => gain_ok k g | _ => True end.

Inductive live_level : plan f32 -> list (event f32) -> Z -> Z -> Prop :=
| live_delay l evs e : Forall (bounded (pow2 e)) l -> live_level (PDelay l) evs e e
| live_comb l damp fb evs e j : (1 <= j <= 10)%Z -> mid e -> mid (e + j + 1) ->
    Forall (bounded (pow2 (e + j + 1))) l -> damp_ok damp -> fb_ok (1 - pow2 (- j)) fb -> Forall (comb_moves (1 - pow2 (- j))) evs ->
    live_level (PComb l damp fb) evs e (e + j + 1)
| live_pass l evs e : l <> [] -> mid e -> Forall (bounded (pow2 (e + 1))) l -> live_level (PPass l) evs e (e + 2)
| live_filtered d evs e e' (c : nat -> coeffs f32) m G :
    (forall k, (k < length (in_force d evs))%nat -> nth k (in_force d evs) d = c k) ->
    (forall k, finite_coeffs (c k) /\ within_limits m (exact_coeffs (c k))) -> sweep_gain (fun k => exact_coeffs (c k)) G ->
    feedback_weight m * G <= 524288 -> pow2 (-90) <= forward_weight m * pow2 e <= pow2 60 ->
    2 * (G * (forward_weight m * pow2 e)) <= pow2 e' -> live_level (PFilter d) evs e e'
| live_scale g evs e k : mid (e + k) -> gain_ok k g -> Forall (gain_moves k) evs -> live_level (PScale g) evs e (e + k)
| live_series p q evs e e1 e2 : live_level p (branch true evs) e e1 -> live_level q (branch false evs) e1 e2 -> live_level (PSeries p q) evs e e2
| live_mix p q evs e e1 : mid e1 -> live_level p (branch true evs) e e1 -> live_level q (branch false evs) e e1 -> live_level (PMix p q) evs e (e1 + 1)
| live_up p evs e e1 e2 : live_level p evs e e1 -> (e1 <= e2)%Z -> live_level p evs e e2.
