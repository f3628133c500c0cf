(** * Specification for C104: threads, each running a schedule of calls on its own units. *)

From Coq Require Import ZArith List Bool.
From Verif Require Import Base F32 Num M_Memory M_Delay M_Threads S_Memory S_Delay S_Rack.
Import ListNotations.
Open Scope Z_scope.

Section Threads.
Context {F : Type} {NF : Num F} {B : Build}.

(** One call and one schedule as programs of single accesses: [unit_step] and [rack_run]
    of S_Rack.v, call for call. *)
Definition p_unit_step (ss : list mslice) (u : unit_ F) (c : call F) : prog F (unit_ F * reply F) :=
  match u, c with
  | USlice s, Get i => pbind (p_get s (Z.of_nat i)) (fun r =>
      Done (Ret (u, match r with Ok y => Value y | Err _ => Refused end)))
  | USlice s, Assign i v => pbind (p_assign s (Z.of_nat i) v) (fun r =>
      Done (Ret (u, match r with Ok _ => Nothing | Err _ => Refused end)))
  | ULine d, Read => pbind (p_dl_read d) (fun v => Done (Ret (u, Value v)))
  | ULine d, Tap j => pbind (p_dl_read_wrapped_at d j) (fun v => Done (Ret (u, Value v)))
  | ULine d, Write v => pbind (p_dl_write_and_advance d v) (fun d' => Done (Ret (ULine d', Nothing)))
  | ULine d, Advance => pbind (Done (dl_advance d)) (fun d' => Done (Ret (ULine d', Nothing)))
  | UPass a, Tick x => pbind (p_ap_tick a x) (fun r => Done (Ret (UPass (fst r), Value (snd r))))
  | UComb c, Tick x => pbind (p_cb_tick c x) (fun r => Done (Ret (UComb (fst r), Value (snd r))))
  | UComb c, Dampening v => Done (Ret (UComb (cb_set_dampening c v), Nothing))
  | UComb c, Feedback v => Done (Ret (UComb (cb_set_feedback c v), Nothing))
  | _, Change k =>
      match nth_error ss k with
      | None => Done (Ret (u, Nothing))
      | Some t => Done (Ret (match u with
                             | USlice s => USlice (change_slice_unchecked s (ms_ptr t) (ms_len t))
                             | ULine d => ULine (dl_change_buffer d t)
                             | UPass a => UPass (ap_change_buffer a t)
                             | UComb c => UComb (cb_change_buffer c t)
                             end, Nothing))
      end
  | _, _ => Done (Ret (u, Nothing))
  end.

Fixpoint p_rack (ss : list mslice) (us : list (unit_ F)) (cs : list (nat * call F))
  : prog F (list (unit_ F) * list (nat * reply F)) :=
  match cs with
  | [] => Done (Ret (us, []))
  | (j, c) :: r =>
      match nth_error us j with
      | None => pbind (p_rack ss us r) (fun e => Done (Ret (fst e, (j, Nothing) :: snd e)))
      | Some u => pbind (p_unit_step ss u c) (fun a =>
          pbind (p_rack ss (upd us j (fst a)) r) (fun e =>
          Done (Ret (fst e, (j, snd a) :: snd e))))
      end
  end.

(** ** Interleaving: at each step one thread makes its next access. *)
Inductive access {A} : heap F -> prog F A -> heap F -> prog F A -> Prop :=
| a_load h s i k v : get_unchecked h s i = Ret v -> access h (Load s i k) h (k v)
| a_store h s i v k h' : assign_unchecked h s i v = Ret h' -> access h (Store s i v k) h' k.

Inductive reach {A} : heap F * list (prog F A) -> heap F * list (prog F A) -> Prop :=
| r_start st : reach st st
| r_step st h ps j p h' p' : reach st (h, ps) -> nth_error ps j = Some p -> access h p h' p' ->
    reach st (h', upd ps j p').

(** The address of a program's next access, and whether that is a write. *)
Definition next_access {A} (p : prog F A) : option (nat * Z * bool) :=
  match p with
  | Done _ => None
  | Load s i _ => match addr s i with Some (b, o) => Some (b, o, false) | None => None end
  | Store s i _ _ => match addr s i with Some (b, o) => Some (b, o, true) | None => None end
  end.

(** A data race: two threads about to access one sample, at least one of them writing. *)
Definition race {A} (ps : list (prog F A)) : Prop :=
  exists i j p q b o w w', i <> j /\ nth_error ps i = Some p /\ nth_error ps j = Some q /\
    next_access p = Some (b, o, w) /\ next_access q = Some (b, o, w') /\ (w || w')%bool = true.

(** A thread: its buffers, what is in them, the units it makes over them and the calls
    it makes. *)
Record thread := Thread {
  t_slices : list mslice; t_bank : list (list F); t_made : list made; t_calls : list (nat * call F) }.
Definition program (t : thread) := p_rack (t_slices t) (map (made_unit (t_slices t)) (t_made t)) (t_calls t).
(** What the lists say about it: final lists and replies. *)
Definition outcome_of (t : thread) (bank : list (list F)) (ys : list (nat * reply F)) : Prop :=
  exists vs, voices_run (t_bank t) (map made_voice (t_made t)) (t_calls t) = Some (bank, (vs, ys)).
Definition thread_ok (h : heap F) (t : thread) : Prop :=
  bank_in h (t_slices t) (t_bank t) /\ apart (t_slices t) /\ made_over (t_slices t) (t_made t) /\
  exists bank ys, outcome_of t bank ys.

(** No address is in buffers of two threads. *)
Definition threads_apart (ts : list thread) : Prop :=
  forall i j t t' b o, nth_error ts i = Some t -> nth_error ts j = Some t' ->
    in_any (t_slices t) b o -> in_any (t_slices t') b o -> i = j.
End Threads.

Arguments thread F : clear implicits.
