(** * Specification vocabulary for memory slices (no code of /repo here). *)

From Coq Require Import ZArith List Bool.
From Verif Require Import Base F32 Num M_Memory.
Import ListNotations.
Open Scope Z_scope.

Section Spec.
Context {F : Type} {B : Build}.

(** [covers h s l]: the slice [s] really denotes allocated memory of [h], and the
    samples it covers are [l], in order. Rust guarantees that a slice is at most
    [isize::MAX] bytes. A null slice has length 0. *)
Definition covers (h : heap F) (s : mslice) (l : list F) : Prop :=
  ms_len s = Z.of_nat (length l) /\
  4 * ms_len s <= isize_max /\
  match ms_ptr s with
  | PNull => l = []
  | PAt b o => exists pre post,
      nth_error h b = Some (pre ++ l ++ post) /\ o = Z.of_nat (length pre)
  end.

(** No allocation is larger than [isize::MAX] bytes (a Rust guarantee). *)
Definition heap_ok (h : heap F) : Prop :=
  forall b blk, nth_error h b = Some blk -> 4 * Z.of_nat (length blk) <= isize_max.

(** Address of sample [i] of a slice. *)
Definition addr (s : mslice) (i : Z) : option (nat * Z) :=
  match ms_ptr s with PNull => None | PAt b o => Some (b, o + i) end.

(** [h'] differs from [h] at most at the addresses satisfying [P]. *)
Definition same_except (P : nat -> Z -> Prop) (h h' : heap F) : Prop :=
  forall b o, ~ P b o -> cell h' b o = cell h b o.
End Spec.

(** Linear interpolation in f32, as documented: a (1 - t) + b t, every operation rounded. *)
Definition interpolation {NP : NanPolicy} (a b t : f32) : f32 :=
  fadd (fmul a (fsub (of_int 1) t)) (fmul b t).
