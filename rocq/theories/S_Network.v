(** * Specification for C111: processors wired in series and in parallel. *)

From Coq Require Import ZArith List Bool.
From Verif Require Import Base F32 Num M_Memory M_Delay M_Biquad S_Memory S_Delay S_Rack.
Import ListNotations.
Open Scope Z_scope.

Section Network.
Context {F : Type} {NF : Num F} {B : Build}.
Local Open Scope num_scope.

(** ** A program that ticks its processors once per sample. *)
Inductive net :=
| NDelay (d : delay_line)   (* read(), then write_and_advance(input) *)
| NComb (c : comb F)        (* Comb::tick *)
| NPass (a : all_pass)      (* AllPass::tick *)
| NFilter (b : biquad F)    (* Biquad::process *)
| NScale (g : F)            (* input * g *)
| NSeries (n m : net)       (* the output of n is the input of m *)
| NMix (n m : net).         (* both get the input, n first; the outputs are added *)

Fixpoint net_tick (h : heap F) (n : net) (x : F) : outcome (heap F * net * F) :=
  match n with
  | NDelay d => do y <- dl_read h d ; do w <- dl_write_and_advance h d x ; Ret (fst w, NDelay (snd w), y)
  | NComb c => do r <- cb_tick h c x ; Ret (fst (fst r), NComb (snd (fst r)), snd r)
  | NPass a => do r <- ap_tick h a x ; Ret (fst (fst r), NPass (snd (fst r)), snd r)
  | NFilter b => let r := bq_process b x in Ret (h, NFilter (fst r), snd r)
  | NScale g => Ret (h, NScale g, x * g)
  | NSeries n m =>
      do r <- net_tick h n x ;
      do s <- net_tick (fst (fst r)) m (snd r) ;
      Ret (fst (fst s), NSeries (snd (fst r)) (snd (fst s)), snd s)
  | NMix n m =>
      do r <- net_tick h n x ;
      do s <- net_tick (fst (fst r)) m x ;
      Ret (fst (fst s), NMix (snd (fst r)) (snd (fst s)), snd r + snd s)
  end.

Fixpoint net_run (h : heap F) (n : net) (xs : list F) : outcome (heap F * net * list F) :=
  match xs with
  | [] => Ret (h, n, [])
  | x :: r =>
      do a <- net_tick h n x ;
      do b <- net_run (fst (fst a)) (snd (fst a)) r ;
      Ret (fst (fst b), snd (fst b), snd a :: snd b)
  end.

(** ** The same wiring as functions on whole signals; no memory. *)
Inductive plan :=
| PDelay (l : list F)                     (* a buffer that holds l *)
| PComb (l : list F) (damp feedback : F)
| PPass (l : list F)
| PFilter (c : coeffs F)
| PScale (g : F)
| PSeries (p q : plan)
| PMix (p q : plan).

Fixpoint filtered (b : biquad F) (xs : list F) : list F :=
  match xs with [] => [] | x :: r => let p := bq_process b x in snd p :: filtered (fst p) r end.
Fixpoint added (xs ys : list F) : list F :=
  match xs, ys with x :: xs', y :: ys' => (x + y) :: added xs' ys' | _, _ => [] end.

Fixpoint signal (p : plan) (xs : list F) : list F :=
  match p with
  | PDelay l => firstn (length xs) (l ++ xs)
  | PComb l damp fb => comb_spec l 0 (nint 0) damp fb (map CTick xs)
  | PPass l => ap_spec l 0 xs
  | PFilter c => filtered (bq_new c) xs
  | PScale g => map (fun x => x * g) xs
  | PSeries p q => signal q (signal p xs)
  | PMix p q => added (signal p xs) (signal q xs)
  end.

(** ** The program of a plan, freshly made, and the buffers it uses. *)
Inductive fresh (h : heap F) : net -> plan -> list mslice -> Prop :=
| fresh_delay s l : covers h s l -> (0 < ms_len s)%Z -> fresh h (NDelay (dl_new s)) (PDelay l) [s]
| fresh_comb s l damp fb : covers h s l -> (0 < ms_len s)%Z ->
    fresh h (NComb (cb_set_feedback (cb_set_dampening (cb_new s) damp) fb)) (PComb l damp fb) [s]
| fresh_pass s l : covers h s l -> (0 < ms_len s)%Z -> fresh h (NPass (ap_new s)) (PPass l) [s]
| fresh_filter c : fresh h (NFilter (bq_new c)) (PFilter c) []
| fresh_scale g : fresh h (NScale g) (PScale g) []
| fresh_series n m p q ss ts : fresh h n p ss -> fresh h m q ts -> fresh h (NSeries n m) (PSeries p q) (ss ++ ts)
| fresh_mix n m p q ss ts : fresh h n p ss -> fresh h m q ts -> fresh h (NMix n m) (PMix p q) (ss ++ ts).
End Network.
Arguments net F : clear implicits.
Arguments plan F : clear implicits.
