(** * Vocabulary: copies of a delay line, a comb and an all-pass (C108).

    [DelayLine] (src/delay_line.rs:7), [AllPass] (src/all_pass.rs:7) and [Comb] (src/comb.rs:7) derive Clone and
    Copy: a copy is the same pointer, length, position and settings.  In the model it is the same value, used twice. *)

From Coq Require Import ZArith List.
From Verif Require Import Base Num M_Memory M_Delay.
Import ListNotations.
Open Scope Z_scope.

Section Copies.
Context {F : Type} {B : Build}.

(** A line and its copy used one after the other, each reading and then writing one sample: the samples
    read through the line and through the copy. *)
Fixpoint both_run (h : heap F) (a b : delay_line) (xys : list (F * F)) : outcome (heap F * delay_line * delay_line * list (F * F)) :=
  match xys with
  | [] => Ret (h, a, b, [])
  | (x, y) :: r =>
      do u <- dl_read h a ;
      do w <- dl_write_and_advance h a x ; let '(h1, a1) := w in
      do v <- dl_read h1 b ;
      do w <- dl_write_and_advance h1 b y ; let '(h2, b1) := w in
      do t <- both_run h2 a1 b1 r ; let '(h3, a2, b2, os) := t in
      Ret (h3, a2, b2, (u, v) :: os)
  end.

(** Writing through the line alone. *)
Fixpoint write_all (h : heap F) (a : delay_line) (ws : list F) : outcome (heap F * delay_line) :=
  match ws with
  | [] => Ret (h, a)
  | w :: r => do t <- dl_write_and_advance h a w ; let '(h1, a1) := t in write_all h1 a1 r
  end.

(** The line as a write head and the copy as a read head. *)
Fixpoint heads_run (h : heap F) (a b : delay_line) (xs : list F) : outcome (heap F * delay_line * delay_line * list F) :=
  match xs with
  | [] => Ret (h, a, b, [])
  | x :: r =>
      do w <- dl_write_and_advance h a x ; let '(h1, a1) := w in
      do v <- dl_read h1 b ;
      do b1 <- dl_advance b ;
      do t <- heads_run h1 a1 b1 r ; let '(h2, a2, b2, os) := t in
      Ret (h2, a2, b2, v :: os)
  end.
End Copies.
