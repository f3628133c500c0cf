(** * Specifications for delay line, comb and all-pass units: queues and recurrences. *)

From Coq Require Import ZArith List Bool Reals.
From Verif Require Import Base F32 Num M_Memory M_Delay S_Memory.
Import ListNotations.
Open Scope Z_scope.

Section Spec.
Context {F : Type}.

(** ** Delay line: histories of calls, and the queue they should behave like. *)
Inductive dl_op :=
| DRead                  (* read() *)
| DReadAt (offset : Z)   (* read_wrapped_at(offset) *)
| DWrite (v : F)         (* write_and_advance(v) *)
| DAdvance.              (* advance() *)

(** A queue of n samples, oldest first; every call with its visible result. *)
Definition queue_step (q : list F) (op : dl_op) : list F * option F :=
  match op with
  | DRead => (q, hd_error q)
  | DReadAt j => (q, nthz q (j mod Z.of_nat (length q)))
  | DWrite v => (tl q ++ [v], None)
  | DAdvance => (match q with [] => [] | x :: r => r ++ [x] end, None)
  end.

Fixpoint queue_run (q : list F) (ops : list dl_op) : list F * list (option F) :=
  match ops with
  | [] => (q, [])
  | op :: r =>
      let '(q1, y) := queue_step q op in
      let '(q2, ys) := queue_run q1 r in
      (q2, y :: ys)
  end.

(** Running the same calls on the model. *)
Section Run.
Context {NF : Num F} {MO : MathOps F} {B : Build}.

Definition dl_step (st : heap F * delay_line) (op : dl_op) : outcome (heap F * delay_line * option F) :=
  let '(h, d) := st in
  match op with
  | DRead => do v <- dl_read h d ; Ret (h, d, Some v)
  | DReadAt j => do v <- dl_read_wrapped_at h d j ; Ret (h, d, Some v)
  | DWrite v => do st' <- dl_write_and_advance h d v ; Ret (st', None)
  | DAdvance => do d' <- dl_advance d ; Ret (h, d', None)
  end.

Fixpoint dl_run (st : heap F * delay_line) (ops : list dl_op)
  : outcome (heap F * delay_line * list (option F)) :=
  match ops with
  | [] => Ret (st, [])
  | op :: r =>
      do a <- dl_step st op ;
      let '(st1, y) := a in
      do b <- dl_run st1 r ;
      let '(st2, ys) := b in
      Ret (st2, y :: ys)
  end.

(** An offset that cannot overflow [isize] at any position of an n-sample line. *)
Definition offset_ok (n : Z) (op : dl_op) : Prop :=
  match op with DReadAt j => isize_min <= j /\ j + (n - 1) <= isize_max | _ => True end.

(** The address lies in the buffer of the slice. *)
Definition in_slice (s : mslice) (b : nat) (o : Z) : Prop :=
  exists i, 0 <= i < ms_len s /\ addr s i = Some (b, o).

(** ** Comb: ticks and parameter changes. *)
Inductive comb_op := CTick (x : F) | CDamp (v : F) | CFeedback (v : F).

Fixpoint comb_run (h : heap F) (c : comb F) (ops : list comb_op) : outcome (heap F * comb F * list F) :=
  match ops with
  | [] => Ret (h, c, [])
  | CDamp v :: r => comb_run h (cb_set_dampening c v) r
  | CFeedback v :: r => comb_run h (cb_set_feedback c v) r
  | CTick x :: r =>
      do a <- cb_tick h c x ;
      let '(h1, c1, y) := a in
      do b <- comb_run h1 c1 r ;
      let '(h2, c2, ys) := b in
      Ret (h2, c2, y :: ys)
  end.

Local Open Scope num_scope.

(** [d] is "initial buffer ++ everything stored so far", [m] the number of ticks done:
    y[m] = d[m];  s := y*(1-damp) + s*damp;  append x + s*feedback. *)
Fixpoint comb_spec (d : list F) (m : nat) (s damp feedback : F) (ops : list comb_op) : list F :=
  match ops with
  | [] => []
  | CDamp v :: r => comb_spec d m s v feedback r
  | CFeedback v :: r => comb_spec d m s damp v r
  | CTick x :: r =>
      let y := nth m d (nint 0) in
      let s' := y * (nint 1 - damp) + s * damp in
      y :: comb_spec (d ++ [x + s' * feedback]) (S m) s' damp feedback r
  end.

(** ** All-pass *)
Fixpoint ap_run (h : heap F) (a : all_pass) (xs : list F) : outcome (heap F * all_pass * list F) :=
  match xs with
  | [] => Ret (h, a, [])
  | x :: r =>
      do t <- ap_tick h a x ;
      let '(h1, a1, y) := t in
      do b <- ap_run h1 a1 r ;
      let '(h2, a2, ys) := b in
      Ret (h2, a2, y :: ys)
  end.

(** y[m] = -x[m] + d[m];  append x[m] + d[m]*0.5. *)
Fixpoint ap_spec (d : list F) (m : nat) (xs : list F) : list F :=
  match xs with
  | [] => []
  | x :: r =>
      let v := nth m d (nint 0) in
      ((- x) + v) :: ap_spec (d ++ [x + v * ndy 1 (-1)]) (S m) r
  end.
End Run.
End Spec.
Arguments dl_op F : clear implicits.
Arguments comb_op F : clear implicits.

(** The history "read, write w" for every w of a list, and "write w" for every w. *)
Fixpoint rw_ops {F} (ws : list F) : list (dl_op F) :=
  match ws with [] => [] | w :: r => DRead :: DWrite w :: rw_ops r end.
Definition writes {F} (ws : list F) : list (dl_op F) := map DWrite ws.

(** Number of position steps in a history. *)
Definition steps {F} (ops : list (dl_op F)) : nat :=
  length (filter (fun op => match op with DWrite _ | DAdvance => true | _ => false end) ops).

(** ** Vocabulary for the numeric properties *)
Section Numeric.
Local Open Scope R_scope.

(** A finite sample of magnitude at most [M]. *)
Definition bounded (M : R) (x : f32) : Prop := fin x = true /\ Rabs (val x) <= M.

(** A tick (no parameter change) whose input is bounded by [M]. *)
Definition tick_bounded (M : R) (op : comb_op f32) : Prop :=
  match op with CTick x => bounded M x | _ => False end.

(** Values of the sequence at a position, zero in the past. *)
Definition past (l : list R) (m n : nat) : R := if Nat.ltb m n then 0 else nth (m - n) l 0.

(** Impulse response. *)
Definition impulse (N : nat) : list R := match N with O => [] | S k => 1 :: repeat 0 k end.

(** Energy of the first samples. *)
Definition energy (l : list R) : R := fold_right (fun y e => y * y + e) 0 l.

End Numeric.
