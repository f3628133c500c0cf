(** * Specification for C111: networks in exact arithmetic, starting from silence. *)

From Coq Require Import ZArith List Bool Reals.
From Verif Require Import Base F32 Num M_Memory M_Delay M_Biquad S_Memory S_Delay S_Network.
Import ListNotations.
Local Open Scope R_scope.

(** Every buffer of the plan holds only zeros. *)
Fixpoint silent (p : plan R) : Prop :=
  match p with
  | PDelay l | PPass l => l <> [] /\ Forall (fun x => x = 0) l
  | PComb l _ _ => l <> [] /\ Forall (fun x => x = 0) l
  | PFilter _ | PScale _ => True
  | PSeries p q | PMix p q => silent p /\ silent q
  end.

(** a x + b y, sample by sample. *)
Fixpoint blend (a : R) (xs : list R) (b : R) (ys : list R) : list R :=
  match xs, ys with x :: xs', y :: ys' => (a * x + b * y) :: blend a xs' b ys' | _, _ => [] end.
