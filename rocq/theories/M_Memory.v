(** * Model of src/memory/mod.rs, src/memory/memory_slice.rs and
      src/float/interpolation.rs. *)

From Coq Require Import ZArith List Bool Lia.
From Verif Require Import Base F32 Num.
Import ListNotations.
Open Scope Z_scope.

(** ** Memory (language semantics)

    A heap is a list of allocations, an allocation a list of samples. A raw
    pointer is null or points at (or one past, or between) the samples of one
    allocation. [read_volatile]/[write_volatile] are a plain read/write. *)
Inductive ptr := PNull | PAt (blk : nat) (off : Z).
Definition heap (F : Type) := list (list F).

Section Heap.
Context {F : Type}.

(** The sample at an address, if there is one. *)
Definition cell (h : heap F) (blk : nat) (off : Z) : option F :=
  match nth_error h blk with
  | Some l => nthz l off
  | None => None
  end.

(** [p.add(n)]: undefined behaviour unless the result stays inside the allocation
    (one past the end allowed). *)
Definition ptr_add (h : heap F) (p : ptr) (n : Z) : outcome ptr :=
  match p with
  | PNull => if n =? 0 then Ret PNull else UB
  | PAt b o =>
      match nth_error h b with
      | Some l => if (0 <=? o + n) && (o + n <=? Z.of_nat (length l)) then Ret (PAt b (o + n)) else UB
      | None => UB
      end
  end.

Definition ptr_read (h : heap F) (p : ptr) : outcome F :=
  match p with
  | PNull => UB
  | PAt b o => match cell h b o with Some v => Ret v | None => UB end
  end.

Definition ptr_write (h : heap F) (p : ptr) (v : F) : outcome (heap F) :=
  match p with
  | PNull => UB
  | PAt b o =>
      match nth_error h b, cell h b o with
      | Some l, Some _ => Ret (upd h b (upd l (Z.to_nat o) v))
      | _, _ => UB
      end
  end.
End Heap.

(** src/memory/mod.rs:6-10 *)
Inductive MemSliceError := IndexOutOfBound | LengthOutOfBound.

(** src/memory/memory_slice.rs:44-49. The type parameter [Mutability]
    (src/memory/mod.rs:12-79) is a newtype over the raw pointer in both cases and
    is not modelled: it only decides at compile time which methods exist. *)
Record mslice := MS { ms_ptr : ptr; ms_len : Z }.

(** src/memory/memory_slice.rs:74-89 ([default], [null], [null_mut]) and
    src/memory/mod.rs:69-79 *)
Definition null_slice : mslice := MS PNull 0.

(** src/memory/memory_slice.rs:342-356 ([from_slice], [from_slice_mut]): the
    argument is the sub-range [off, off+len) of an allocation. *)
Definition from_slice (blk : nat) (off len : Z) : mslice := MS (PAt blk off) len.

(** src/float/interpolation.rs:2-7 *)
Inductive InterpolationError := InputNaN | InputInfinite | InterpolationRange.

Section Interp.
Context {F : Type} {NF : Num F}.
Local Open Scope num_scope.

(** src/float/interpolation.rs:9-12 *)
Definition lerp_unchecked (a b t : F) : F := (a * (nint 1 - t)) + (b * t).

(** src/float/interpolation.rs:37-41, the inner loop for one [i]; [js] are the
    loop indices [0..array.len()]. *)
Definition lagrange_term (ai : F) (i : nat) (x : F) (js : list nat) : F :=
  fold_left (fun term j =>
    if Nat.eqb i j then term
    else (term * (x - nint (Z.of_nat j))) / (nint (Z.of_nat i) - nint (Z.of_nat j)))
    js ai.

(** src/float/interpolation.rs:34-45, the outer loop. *)
Definition lagrange_sum (a : list F) (x : F) : F :=
  fold_left (fun y i =>
    y + lagrange_term (nth i a (nint 0)) i x (seq 0 (length a)))
    (seq 0 (length a)) (nint 0).

(** src/float/interpolation.rs:31-46. [array.len() - 1] underflows for an empty
    array: panic with overflow checks, [usize::MAX] without. *)
Definition lagrange {B : Build} (a : list F) (x : F) : outcome F :=
  do m <- usize_sub (Z.of_nat (length a)) 1 ;
  if x <=? nint m then Ret (lagrange_sum a x) else Panic.

(** src/float/interpolation.rs:48-81; the unsafe reads of four elements are four
    arguments. *)
Definition lagrange_only_4_elements (a0 a1 a2 a3 x : F) : F :=
  let y := nint 0 in
  let term := a0 in
  let term := (term * (x - nint 1)) / nint (-1) in
  let term := (term * (x - nint 2)) / nint (-2) in
  let term := (term * (x - nint 3)) / nint (-3) in
  let y := y + term in
  let term := a1 in
  let term := (term * (x - nint 0)) / nint 1 in
  let term := (term * (x - nint 2)) / nint (-1) in
  let term := (term * (x - nint 3)) / nint (-2) in
  let y := y + term in
  let term := a2 in
  let term := (term * (x - nint 0)) / nint 2 in
  let term := (term * (x - nint 1)) / nint 1 in
  let term := (term * (x - nint 3)) / nint (-1) in
  let y := y + term in
  let term := a3 in
  let term := (term * (x - nint 0)) / nint 3 in
  let term := (term * (x - nint 1)) / nint 2 in
  let term := (term * (x - nint 2)) / nint 1 in
  y + term.
End Interp.

(** src/float/interpolation.rs:14-28 (needs the f32 classification methods). *)
Definition lerp_checked {NP : NanPolicy} (a b t : f32) : result f32 InterpolationError :=
  if isnan a || isnan b then Err InputNaN
  else if isinf a || isinf b then Err InputInfinite
  else if flt t (of_int 0) || fgt t (of_int 1) then Err InterpolationRange
  else Ok (lerp_unchecked a b t).

Section Slice.
Context {F : Type} {NF : Num F} {MO : MathOps F} {B : Build}.

(** src/memory/memory_slice.rs:95-100 *)
Definition ms_length (s : mslice) : Z := ms_len s.

(** src/memory/memory_slice.rs:114-131 *)
Definition get_sub_slice (h : heap F) (s : mslice) (offset sub_length : Z)
  : outcome (result mslice MemSliceError) :=
  if ms_len s <=? offset then Ret (Err IndexOutOfBound)
  else
    do e <- usize_add offset sub_length ;
    if ms_len s <=? e then Ret (Err LengthOutOfBound)
    else
      do p <- ptr_add h (ms_ptr s) offset ;
      Ret (Ok (MS p sub_length)).

(** src/memory/memory_slice.rs:137-140 *)
Definition get_unchecked (h : heap F) (s : mslice) (index : Z) : outcome F :=
  do p <- ptr_add h (ms_ptr s) index ; ptr_read h p.

(** src/memory/memory_slice.rs:142-148 *)
Definition get (h : heap F) (s : mslice) (index : Z) : outcome (result F MemSliceError) :=
  if ms_len s <=? index then Ret (Err IndexOutOfBound)
  else do v <- get_unchecked h s index ; Ret (Ok v).

(** src/memory/memory_slice.rs:154-157 *)
Definition get_wrapped_unchecked (h : heap F) (s : mslice) (index : Z) : outcome F :=
  do r <- isize_rem_euclid index (as_isize (ms_len s)) ;
  get_unchecked h s (as_usize r).

(** src/memory/memory_slice.rs:159-166 *)
Definition get_wrapped (h : heap F) (s : mslice) (index : Z) : outcome F :=
  if (as_isize (ms_len s) <=? index) || (index <? 0) then get_wrapped_unchecked h s index
  else get_unchecked h s (as_usize index).

(** src/memory/memory_slice.rs:168-188. [index + 3] may overflow [isize]. *)
Definition get_slice_of_four_wrapped (h : heap F) (s : mslice) (index : Z)
  : outcome (F * F * F * F) :=
  do i3 <- isize_add index 3 ;
  let rd := if (as_isize (ms_len s) <=? i3) || (index <? 0)
            then get_wrapped_unchecked h s
            else fun i => get_unchecked h s (as_usize i) in
  do j0 <- isize_add index 0 ; do a <- rd j0 ;
  do j1 <- isize_add index 1 ; do b <- rd j1 ;
  do j2 <- isize_add index 2 ; do c <- rd j2 ;
  do j3 <- isize_add index 3 ; do d <- rd j3 ;
  Ret (a, b, c, d).

(** Rust casts of a float: [x as usize], [x as isize]. *)
Definition n_usize (x : F) : Z := ntrunc 0 usize_max x.
Definition n_isize (x : F) : Z := ntrunc isize_min isize_max x.

(** src/memory/memory_slice.rs:194-200 *)
Definition ms_lerp_unchecked (h : heap F) (s : mslice) (index : F) : outcome F :=
  let k := n_usize index in
  do a <- get_unchecked h s k ;
  do k1 <- usize_add k 1 ;
  do b <- get_unchecked h s k1 ;
  Ret (lerp_unchecked a b (nsub index (nint k))).

(** src/memory/memory_slice.rs:202-217; [f32::EPSILON] = 2^-23. *)
Definition ms_lerp (h : heap F) (s : mslice) (index : F) : outcome (result F MemSliceError) :=
  if nlt index (nint 0) then Ret (Err IndexOutOfBound)
  else
    do l1 <- usize_sub (ms_len s) 1 ;
    if neq index (nint l1)
       && nlt index (nadd (nsub (nint (ms_len s)) (nint 1)) (nmul (nint 10) (ndy 1 (-23))))
    then do v <- get_unchecked h s (n_usize index) ; Ret (Ok v)
    else
      do ra <- get h s (n_usize index) ;
      match ra with
      | Err e => Ret (Err e)
      | Ok a =>
          do k1 <- usize_add (n_usize index) 1 ;
          do rb <- get h s k1 ;
          match rb with
          | Err e => Ret (Err e)
          | Ok b => Ret (Ok (lerp_unchecked a b (nsub index (nint (n_usize index)))))
          end
      end.

(** src/memory/memory_slice.rs:219-226 *)
Definition ms_lerp_wrapped (h : heap F) (s : mslice) (index : F) : outcome F :=
  let i := n_isize (m_floor index) in
  do a <- get_wrapped h s i ;
  do i1 <- isize_add i 1 ;
  do b <- get_wrapped h s i1 ;
  Ret (lerp_unchecked a b (nsub index (nint i))).

(** src/memory/memory_slice.rs:243-248, the loop over [i in lower..=upper] filling
    the local array; [n] iterations left, current loop value [i]. The array index
    [i + lower.neg()] is bounds-checked by Rust (panic). *)
Fixpoint fill_window (h : heap F) (s : mslice) (int_index lower : Z) (n : nat) (i : Z)
  (slice : list F) : outcome (list F) :=
  match n with
  | O => Ret slice
  | S n' =>
      do j <- isize_add int_index i ;
      do v <- get_wrapped_unchecked h s j ;
      let k := as_usize (i - lower) in
      if k <? Z.of_nat (length slice)
      then fill_window h s int_index lower n' (i + 1) (upd slice (Z.to_nat k) v)
      else Panic
  end.

(** src/memory/memory_slice.rs:232-251 *)
Definition lagrange_wrapped (h : heap F) (s : mslice) (index : F) (window_size : Z) : outcome F :=
  let int_index := n_isize (m_floor index) in
  let slice := repeat (nint 0) 100 in
  let w := if 100 <? window_size then 100 else window_size in
  let lower := - (w / 2) + 1 in
  let upper := w / 2 in
  do slice <- fill_window h s int_index lower (Z.to_nat (upper + 1 - lower)) lower slice ;
  lagrange (firstn (Z.to_nat w) slice) (nsub index (nint int_index)).

(** src/memory/memory_slice.rs:253-260 *)
Definition lagrange_four_points_wrapped (h : heap F) (s : mslice) (index : F) : outcome F :=
  do w <- get_slice_of_four_wrapped h s (n_isize (m_floor index)) ;
  let '(a, b, c, d) := w in
  Ret (lagrange_only_4_elements a b c d index).

(** src/memory/memory_slice.rs:270-274 and 323-327 *)
Definition change_slice_unchecked (s : mslice) (p : ptr) (length : Z) : mslice := MS p length.

(** src/memory/memory_slice.rs:298-301 *)
Definition assign_unchecked (h : heap F) (s : mslice) (index : Z) (v : F) : outcome (heap F) :=
  do p <- ptr_add h (ms_ptr s) index ; ptr_write h p v.

(** src/memory/memory_slice.rs:303-313 *)
Definition assign (h : heap F) (s : mslice) (index : Z) (v : F)
  : outcome (heap F * result unit MemSliceError) :=
  if ms_len s <=? index then Ret (h, Err IndexOutOfBound)
  else do h' <- assign_unchecked h s index v ; Ret (h', Ok tt).
End Slice.
