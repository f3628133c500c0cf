(** * Histories of safe slice calls, and the plain-array model they should agree with. *)

From Coq Require Import ZArith List Bool.
From Verif Require Import Base F32 Num M_Memory S_Memory.
Import ListNotations.
Open Scope Z_scope.

Section Hist.
Context {F : Type} {NF : Num F} {MO : MathOps F} {B : Build}.

(** One safe call on the [k]-th slice of a growing pool of slices. *)
Inductive slice_op :=
| OGet (k : nat) (i : Z)
| OAssign (k : nat) (i : Z) (v : F)
| OGetWrapped (k : nat) (i : Z)
| OFour (k : nat) (i : Z)
| OLerp (k : nat) (x : F)
| OLerpWrapped (k : nat) (x : F)
| OSub (k : nat) (o n : Z).

(** What the caller sees. The interpolated values are the subject of other
    properties; here only that they come back. *)
Inductive obs :=
| Samples (vs : list (option F))
| Failed (e : MemSliceError)
| Done
| Interpolated.

(** The calls run on the model. *)
Definition hist_step (st : heap F * list mslice) (op : slice_op) : outcome (heap F * list mslice * obs) :=
  let '(h, pool) := st in
  let on k (f : mslice -> outcome (heap F * list mslice * obs)) :=
    match nth_error pool k with Some s => f s | None => Ret (h, pool, Done) end in
  match op with
  | OGet k i => on k (fun s => do r <- get h s i ;
      Ret (h, pool, match r with Ok v => Samples [Some v] | Err e => Failed e end))
  | OAssign k i v => on k (fun s => do r <- assign h s i v ;
      let '(h', r) := r in Ret (h', pool, match r with Ok _ => Done | Err e => Failed e end))
  | OGetWrapped k i => on k (fun s => do v <- get_wrapped h s i ; Ret (h, pool, Samples [Some v]))
  | OFour k i => on k (fun s => do r <- get_slice_of_four_wrapped h s i ;
      let '(a, b, c, d) := r in Ret (h, pool, Samples [Some a; Some b; Some c; Some d]))
  | OLerp k x => on k (fun s => do r <- ms_lerp h s x ;
      Ret (h, pool, match r with Ok _ => Interpolated | Err e => Interpolated end))
  | OLerpWrapped k x => on k (fun s => do v <- ms_lerp_wrapped h s x ; Ret (h, pool, Interpolated))
  | OSub k o n => on k (fun s => do r <- get_sub_slice h s o n ;
      Ret (match r with
           | Ok s' => (h, pool ++ [s'], Done)
           | Err e => (h, pool, Failed e)
           end))
  end.

Fixpoint hist_run (st : heap F * list mslice) (ops : list slice_op) : outcome (heap F * list mslice * list obs) :=
  match ops with
  | [] => Ret (st, [])
  | op :: r =>
      do a <- hist_step st op ; let '(st1, o) := a in
      do b <- hist_run st1 r ; let '(st2, os) := b in
      Ret (st2, o :: os)
  end.

(** ** The plain-array model: memory is a function from addresses to samples, a view
    is (array, first cell, number of cells). No bounds, no pointers. *)
Definition memory := nat -> Z -> option F.
Definition view : Type := nat * Z * Z.
Definition view_at (m : memory) (w : view) (i : Z) : option F := let '(b, o, _) := w in m b (o + i).
Definition view_len (w : view) : Z := let '(_, _, n) := w in n.
Definition store (m : memory) (w : view) (i : Z) (v : F) : memory :=
  let '(b, o, _) := w in
  fun b' o' => if Nat.eqb b b' && (o + i =? o') then Some v else m b' o'.

Definition array_step (st : memory * list view) (op : slice_op) : memory * list view * obs :=
  let '(m, vs) := st in
  let on k (f : view -> memory * list view * obs) :=
    match nth_error vs k with Some w => f w | None => (m, vs, Done) end in
  match op with
  | OGet k i => on k (fun w => (m, vs, if i <? view_len w then Samples [view_at m w i] else Failed IndexOutOfBound))
  | OAssign k i v => on k (fun w => if i <? view_len w then (store m w i v, vs, Done) else (m, vs, Failed IndexOutOfBound))
  | OGetWrapped k i => on k (fun w => (m, vs, Samples [view_at m w (i mod view_len w)]))
  | OFour k i => on k (fun w => (m, vs, Samples (map (fun j => view_at m w ((i + j) mod view_len w)) [0; 1; 2; 3])))
  | OLerp k x => on k (fun w => (m, vs, Interpolated))
  | OLerpWrapped k x => on k (fun w => (m, vs, Interpolated))
  | OSub k o n => on k (fun w => let '(b, p, len) := w in
      if len <=? o then (m, vs, Failed IndexOutOfBound)
      else if len <=? o + n then (m, vs, Failed LengthOutOfBound)
      else (m, vs ++ [(b, p + o, n)], Done))
  end.

Fixpoint array_run (st : memory * list view) (ops : list slice_op) : memory * list view * list obs :=
  match ops with
  | [] => (st, [])
  | op :: r =>
      let '(st1, o) := array_step st op in
      let '(st2, os) := array_run st1 r in
      (st2, o :: os)
  end.

(** The arguments are machine integers, and the two known overflow holes of the
    API (sub-slice and four-sample window) are avoided. *)
Definition args_ok (op : slice_op) : Prop :=
  match op with
  | OGet _ i | OAssign _ i _ => is_usize i
  | OGetWrapped _ i => is_isize i
  | OFour _ i => isize_min <= i <= isize_max - 3
  | OSub _ o n => is_usize o /\ is_usize n /\ o + n <= usize_max
  | OLerp _ _ | OLerpWrapped _ _ => True
  end.

(** A slice and the view it stands for. A null slice stands for an empty view. *)
Definition slice_view (s : mslice) (w : view) : Prop :=
  let '(b, o, n) := w in
  ms_len s = n /\ match ms_ptr s with PNull => n = 0 | PAt b' o' => b = b' /\ o = o' end.

(** The memory function of a heap. *)
Definition memory_of (h : heap F) : memory := cell h.
End Hist.
Arguments slice_op F : clear implicits.
Arguments obs F : clear implicits.
