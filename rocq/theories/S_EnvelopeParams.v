(** * Specification vocabulary: the parameter a history of calls leaves in force. *)

From Coq Require Import ZArith List Bool.
From Verif Require Import Base F32 Num M_Envelope S_Envelope.
Import ListNotations.

(** The stage time a call sets, if it is the setter of that stage. *)
Definition attack_of (c : call) : option f32 := match c with SetAttack v => Some v | _ => None end.
Definition decay_of (c : call) : option f32 := match c with SetDecay v => Some v | _ => None end.
Definition release_of (c : call) : option f32 := match c with SetRelease v => Some v | _ => None end.
Definition sustain_of (c : call) : option f32 := match c with SetSustain v => Some v | _ => None end.
Definition slope_of (c : call) : option f32 := match c with SetSlope v => Some v | _ => None end.
Definition sr_of (c : call) : option f32 := match c with SetSr v => Some v | _ => None end.

(** The last value set in a history, if any. *)
Fixpoint last_set (pick : call -> option f32) (cs : list call) : option f32 :=
  match cs with
  | [] => None
  | c :: r => match last_set pick r with Some v => Some v | None => pick c end
  end.

(** The last stage time set, with the sample rate that was in force when it was set; [now] is
    the rate at the start of the history. *)
Fixpoint last_time (pick : call -> option f32) (now : f32) (cs : list call) : option (f32 * f32) :=
  match cs with
  | [] => None
  | c :: r => match last_time pick (sr_after now c) r with
              | Some p => Some p
              | None => match pick c with Some v => Some (v, now) | None => None end
              end
  end.

Definition or_else {A} (o : option A) (d : A) : A := match o with Some x => x | None => d end.
