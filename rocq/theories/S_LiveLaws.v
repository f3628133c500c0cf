(** * Specification for C121: laws of setter calls to a running network. *)

From Coq Require Import ZArith List Bool Reals.
From Verif Require Import Base F32 Num M_Memory M_Delay M_Biquad S_Memory S_Delay S_Network S_Live.
Import ListNotations.

(** Two calls of the same setter. *)
Definition same_setter {F : Type} (k k' : knob F) : bool :=
  match k, k' with
  | KDamp _, KDamp _ | KFeedback _, KFeedback _ | KCoeffs _, KCoeffs _ | KGain _, KGain _ => true
  | _, _ => false
  end.

(** The calls of a history without its samples. *)
Definition calls_only {F : Type} (evs : list (event F)) : list (event F) :=
  filter (fun ev => match ev with Tick _ => false | Turn _ _ => true end) evs.
