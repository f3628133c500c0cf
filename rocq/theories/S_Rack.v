(** * Specification for C102 and C103: many slices, delay lines, combs and all-passes over
    one memory, called in any order, with buffers swapped while they run. *)

From Coq Require Import ZArith List Bool.
From Verif Require Import Base F32 Num M_Memory M_Delay S_Memory S_Delay.
Import ListNotations.
Open Scope Z_scope.

Section Rack.
Context {F : Type} {NF : Num F} {B : Build}.

(** ** The calls and the units of the code. *)
Inductive call :=
| Get (i : nat)              (* MemorySlice::get(i) *)
| Assign (i : nat) (v : F)   (* MemorySlice::assign(i, v) *)
| Read                       (* DelayLine::read() *)
| Tap (j : Z)                (* DelayLine::read_wrapped_at(j) *)
| Write (v : F)              (* DelayLine::write_and_advance(v) *)
| Advance                    (* DelayLine::advance() *)
| Tick (x : F)               (* Comb::tick(x), AllPass::tick(x) *)
| Dampening (v : F)          (* Comb::set_dampening(v) *)
| Feedback (v : F)           (* Comb::set_feedback(v) *)
| Change (k : nat).          (* change_buffer(the k-th buffer), for a slice
                                change_mut_slice_unchecked(its pointer, its length) *)

(** What a call shows: nothing, a sample, or that it was refused. *)
Inductive reply := Nothing | Value (y : F) | Refused.

Inductive unit_ :=
| USlice (s : mslice) | ULine (d : delay_line) | UPass (a : all_pass) | UComb (c : comb F).

(** One call on one unit of the model. A call the unit does not have does nothing, and
    so does a change to a buffer that does not exist. *)
Definition unit_step (ss : list mslice) (h : heap F) (u : unit_) (c : call)
  : outcome (heap F * (unit_ * reply)) :=
  match u, c with
  | USlice s, Get i => do r <- get h s (Z.of_nat i) ;
      Ret (h, (u, match r with Ok y => Value y | Err _ => Refused end))
  | USlice s, Assign i v => do r <- assign h s (Z.of_nat i) v ;
      Ret (fst r, (u, match snd r with Ok _ => Nothing | Err _ => Refused end))
  | ULine d, Read => do v <- dl_read h d ; Ret (h, (u, Value v))
  | ULine d, Tap j => do v <- dl_read_wrapped_at h d j ; Ret (h, (u, Value v))
  | ULine d, Write v => do r <- dl_write_and_advance h d v ; Ret (fst r, (ULine (snd r), Nothing))
  | ULine d, Advance => do d' <- dl_advance d ; Ret (h, (ULine d', Nothing))
  | UPass a, Tick x =>
      do r <- ap_tick h a x ; Ret (fst (fst r), (UPass (snd (fst r)), Value (snd r)))
  | UComb c, Tick x =>
      do r <- cb_tick h c x ; Ret (fst (fst r), (UComb (snd (fst r)), Value (snd r)))
  | UComb c, Dampening v => Ret (h, (UComb (cb_set_dampening c v), Nothing))
  | UComb c, Feedback v => Ret (h, (UComb (cb_set_feedback c v), Nothing))
  | _, Change k =>
      match nth_error ss k with
      | None => Ret (h, (u, Nothing))
      | Some t => Ret (h, (match u with
                           | USlice s => USlice (change_slice_unchecked s (ms_ptr t) (ms_len t))
                           | ULine d => ULine (dl_change_buffer d t)
                           | UPass a => UPass (ap_change_buffer a t)
                           | UComb c => UComb (cb_change_buffer c t)
                           end, Nothing))
      end
  | _, _ => Ret (h, (u, Nothing))
  end.

(** A schedule: each step names a unit and a call. The visible result of a step is the
    unit's number and the reply. *)
Fixpoint rack_run (ss : list mslice) (h : heap F) (us : list unit_) (cs : list (nat * call))
  : outcome (heap F * (list unit_ * list (nat * reply))) :=
  match cs with
  | [] => Ret (h, (us, []))
  | (j, c) :: r =>
      match nth_error us j with
      | None => do e <- rack_run ss h us r ; Ret (fst e, (fst (snd e), (j, Nothing) :: snd (snd e)))
      | Some u =>
          do a <- unit_step ss h u c ;
          do e <- rack_run ss (fst a) (upd us j (fst (snd a))) r ;
          Ret (fst e, (fst (snd e), (j, snd (snd a)) :: snd (snd e)))
      end
  end.

(** ** The same schedule on plain lists. A voice knows which list it uses, its position
    in it, and, for a comb, feedback, filter state and dampening. *)
Inductive kind := Slice | Line | Pass | Comb (feedback state damp : F).
Record voice := Voice { slot : nat; pos : nat; what : kind }.

Definition list_of (bank : list (list F)) (v : voice) : list F := nth (slot v) bank [].
Definition sample (bank : list (list F)) (v : voice) : option F := nth_error (list_of bank v) (pos v).
Definition store (bank : list (list F)) (v : voice) (i : nat) (x : F) : list (list F) :=
  upd bank (slot v) (upd (list_of bank v) i x).
(** The position after one step, back to 0 at the end of the list. *)
Definition next (bank : list (list F)) (v : voice) : nat :=
  Nat.modulo (S (pos v)) (length (list_of bank v)).

Local Open Scope num_scope.

(** No result ([None]) when the voice stands outside its list: the case after a change
    to a buffer that is too short, which is undefined in the code. Nor when the sum of
    position and tap offset is not an [isize]. *)
Definition voice_step (bank : list (list F)) (v : voice) (c : call)
  : option (list (list F) * (voice * reply)) :=
  match what v, c with
  | Slice, Get i =>
      Some (bank, (v, match nth_error (list_of bank v) i with Some y => Value y | None => Refused end))
  | Slice, Assign i x =>
      if (i <? length (list_of bank v))%nat then Some (store bank v i x, (v, Nothing))
      else Some (bank, (v, Refused))
  | Line, Read =>
      match sample bank v with Some y => Some (bank, (v, Value y)) | None => None end
  | Line, Tap j =>
      let p := (Z.of_nat (pos v) + j)%Z in
      if (pos v <? length (list_of bank v))%nat && (isize_min <=? p)%Z && (p <=? isize_max)%Z then
        match nthz (list_of bank v) (p mod Z.of_nat (length (list_of bank v))) with
        | Some y => Some (bank, (v, Value y))
        | None => None
        end
      else None
  | Line, Write x =>
      match sample bank v with
      | Some _ => Some (store bank v (pos v) x, (Voice (slot v) (next bank v) Line, Nothing))
      | None => None end
  | Line, Advance =>
      match sample bank v with
      | Some _ => Some (bank, (Voice (slot v) (next bank v) Line, Nothing))
      | None => None end
  | Pass, Tick x =>
      match sample bank v with
      | Some y => Some (store bank v (pos v) (x + y * ndy 1 (-1)),
                        (Voice (slot v) (next bank v) Pass, Value ((- x) + y)))
      | None => None end
  | Comb fb st damp, Tick x =>
      match sample bank v with
      | Some y =>
          let st' := y * (nint 1 - damp) + st * damp in
          Some (store bank v (pos v) (x + st' * fb),
                (Voice (slot v) (next bank v) (Comb fb st' damp), Value y))
      | None => None end
  | Comb fb st _, Dampening d => Some (bank, (Voice (slot v) (pos v) (Comb fb st d), Nothing))
  | Comb _ st damp, Feedback fb => Some (bank, (Voice (slot v) (pos v) (Comb fb st damp), Nothing))
  | w, Change k =>
      if (k <? length bank)%nat then Some (bank, (Voice k (pos v) w, Nothing))
      else Some (bank, (v, Nothing))
  | _, _ => Some (bank, (v, Nothing))
  end.

Fixpoint voices_run (bank : list (list F)) (vs : list voice) (cs : list (nat * call))
  : option (list (list F) * (list voice * list (nat * reply))) :=
  match cs with
  | [] => Some (bank, (vs, []))
  | (j, c) :: r =>
      match nth_error vs j with
      | None => match voices_run bank vs r with
                | Some e => Some (fst e, (fst (snd e), (j, Nothing) :: snd (snd e)))
                | None => None end
      | Some v =>
          match voice_step bank v c with
          | None => None
          | Some a =>
              match voices_run (fst a) (upd vs j (fst (snd a))) r with
              | Some e => Some (fst e, (fst (snd e), (j, snd (snd a)) :: snd (snd e)))
              | None => None end
          end
      end
  end.

(** ** Start: a list of freshly made units, each over one of the buffers. *)
Inductive made := MSlice (k : nat) | MLine (k : nat) | MPass (k : nat) | MComb (k : nat).
Definition made_unit (ss : list mslice) (m : made) : unit_ :=
  match m with
  | MSlice k => USlice (nth k ss null_slice)
  | MLine k => ULine (dl_new (nth k ss null_slice))
  | MPass k => UPass (ap_new (nth k ss null_slice))
  | MComb k => UComb (cb_new (nth k ss null_slice))
  end.
Definition made_voice (m : made) : voice :=
  match m with
  | MSlice k => Voice k 0 Slice
  | MLine k => Voice k 0 Line
  | MPass k => Voice k 0 Pass
  | MComb k => Voice k 0 (Comb (ndy 1 (-1)) (nint 0) (ndy 1 (-1)))
  end.
Definition made_slot (m : made) : nat := match m with MSlice k | MLine k | MPass k | MComb k => k end.
Definition made_over (ss : list mslice) (ms : list made) : Prop :=
  Forall (fun m => (made_slot m < length ss)%nat) ms.

(** The buffers: each list is what the slice covers, and no address is in two slices. *)
Definition bank_in (h : heap F) (ss : list mslice) (bank : list (list F)) : Prop :=
  length ss = length bank /\
  forall k s l, nth_error ss k = Some s -> nth_error bank k = Some l -> covers h s l.
Definition apart (ss : list mslice) : Prop :=
  forall i j s t b o, nth_error ss i = Some s -> nth_error ss j = Some t ->
    in_slice s b o -> in_slice t b o -> i = j.
Definition in_any (ss : list mslice) (b : nat) (o : Z) : Prop :=
  exists s, In s ss /\ in_slice s b o.

(** The part of a schedule, or of its results, that belongs to unit [j]. *)
Definition of_unit {A} (j : nat) (l : list (nat * A)) : list (nat * A) :=
  filter (fun p => Nat.eqb (fst p) j) l.

(** The buffers a schedule lets unit [j] use: its first one and those it changes to. *)
Definition uses (ms : list made) (cs : list (nat * call)) (j k : nat) : Prop :=
  (exists m, nth_error ms j = Some m /\ made_slot m = k) \/ In (j, Change k) cs.

(** A tap offset that is an [isize] at every position of an n-sample line. *)
Definition tap_ok (n : nat) (c : nat * call) : Prop :=
  match snd c with Tap j => isize_min <= j /\ j + Z.of_nat n <= isize_max | _ => True end.
End Rack.
Arguments call F : clear implicits.
Arguments reply F : clear implicits.
Arguments unit_ F : clear implicits.
Arguments voice F : clear implicits.
Arguments kind F : clear implicits.
