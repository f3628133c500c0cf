(** * Specification for C105: what other code does to memory while a slice exists. *)

From Coq Require Import ZArith List Bool.
From Verif Require Import Base M_Memory S_Memory S_Delay.
Import ListNotations.
Open Scope Z_scope.

Section Lifetime.
Context {F : Type}.

(** Language semantics: other code makes a new buffer, which gets a block of its own; it
    drops a buffer, after which the block has no samples; or it writes one sample. *)
Inductive event := NewBuffer (l : list F) | DropBuffer (b : nat) | WriteTo (b : nat) (o : nat) (v : F).
Definition happen (h : heap F) (e : event) : heap F :=
  match e with
  | NewBuffer l => h ++ [l]
  | DropBuffer b => upd h b []
  | WriteTo b o v => upd h b (upd (nth b h []) o v)
  end.
Definition history (h : heap F) (es : list event) : heap F := fold_left happen es h.

(** The slice's buffer is not dropped and its samples are not written. *)
Definition spares (s : mslice) (e : event) : Prop :=
  match e with
  | NewBuffer _ => True
  | DropBuffer b => forall o, ms_ptr s <> PAt b o
  | WriteTo b o _ => ~ in_slice s b (Z.of_nat o)
  end.
End Lifetime.
Arguments event F : clear implicits.
