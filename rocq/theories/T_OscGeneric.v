(** * Theorems: oscillators over any phase accumulator (C106). *)

From Coq Require Import ZArith List Bool Reals Lia Lra.
From Flocq Require Import Core.
From Verif Require Import Base F32 F32Lemmas F32Exact F32Ints F32Range F32Over Num M_Memory S_Memory P_Memory P_Bits
  M_Sine M_Oscillator S_Oscillator M_OscGeneric S_OscHistory S_OscGeneric P_Oscillator P_OscGeneric T_OscHistory Examples.
Import ListNotations.
Open Scope Z_scope.

(** C106: with the crate's accumulator the generic oscillators are the ones of the other theorems:
    the same samples, outcomes and states for every history. *)
Theorem C106_soft_is_instance : forall (NP : NanPolicy) (B : Build) (MO : MathOps f32) (h : heap f32) (a : phase_acc) (w : waveform) s (cs : list osc_call),
  gf_run soft_acc (GF a w) cs = (do q <- fo_run (FO a w) cs ; Ret (fst q, GF (fo_acc (snd q)) (fo_wave (snd q)))) /\
  gw_run soft_acc h (GW s a) cs = (do q <- wo_run h (WO s a) cs ; Ret (fst q, GW (wo_table (snd q)) (wo_acc (snd q)))).
Proof.
  intros NP B MO h a w s cs. split.
  - revert a w. induction cs as [|c cs IH]; intros a w; [reflexivity|]. destruct c as [|f|r|t|w']; cbn [gf_run fo_run].
    + unfold gf_next, fo_next, gf_next_sine, fo_next_sine, gf_next_rect, fo_next_rect, gf_next_tri, fo_next_tri, gf_next_saw, fo_next_saw. cbn [gf_wave gf_acc fo_wave fo_acc ac_next_norm soft_acc bind].
      destruct (pa_next_value_normalized a) as [v a']. cbn [fst snd bind].
      destruct w; cbn [fst snd bind].
      * destruct (fixed_point_sin _); cbn [bind fst snd]; [|reflexivity|reflexivity]. rewrite IH. destruct (fo_run _ cs) as [[? ?]| |]; reflexivity.
      * rewrite IH. destruct (fo_run _ cs) as [[? ?]| |]; reflexivity.
      * rewrite IH. destruct (fo_run _ cs) as [[? ?]| |]; reflexivity.
      * destruct (is_sign_positive _); cbn [bind fst snd]; rewrite IH; destruct (fo_run _ cs) as [[? ?]| |]; reflexivity.
    + unfold gf_set_freq. cbn [gf_acc gf_wave ac_set_freq soft_acc bind]. apply IH.
    + unfold gf_set_sr. cbn [gf_acc gf_wave ac_set_sr soft_acc bind]. apply IH.
    + unfold gf_set_shift. cbn [gf_acc gf_wave ac_set_shift soft_acc bind]. apply IH.
    + apply IH.
  - revert a. induction cs as [|c cs IH]; intros a; [reflexivity|]. destruct c as [|f|r|t|w']; cbn [gw_run wo_run].
    + unfold gw_next, wo_next. cbn [gw_table gw_acc wo_table wo_acc ac_next_norm soft_acc bind].
      destruct (pa_next_value_normalized a) as [v a']. cbn [fst snd bind].
      destruct (ms_lerp_unchecked _ _ _); cbn [bind fst snd]; [|reflexivity|reflexivity]. rewrite IH. destruct (wo_run _ _ cs) as [[? ?]| |]; reflexivity.
    + unfold gw_set_freq. cbn [gw_acc gw_table ac_set_freq soft_acc bind]. apply IH.
    + unfold gw_set_sr. cbn [gw_acc gw_table ac_set_sr soft_acc bind]. apply IH.
    + unfold gw_set_shift. cbn [gw_acc gw_table ac_set_shift soft_acc bind]. apply IH.
    + apply IH.
Qed.
Print Assumptions C106_soft_is_instance.

(** C106: for every accumulator and every history of calls, a functional oscillator does what the
    accumulator alone does: it panics exactly if that panics, asks for exactly one phase per sample,
    and its samples are those of the waveform in force (at first the sine) at these phases. *)
Theorem C106_functional_any_accumulator : forall (NP : NanPolicy) (B : Build) (MO : MathOps f32) (S : Type) (I : accumulator S) (a : S) (cs : list osc_call),
  floor_ok MO ->
  match drive I a cs with
  | Ret (vs, a') => length vs = nexts cs /\ exists ys, gf_run I (gf_new a) cs = Ret (ys, GF a' (last_wave Sine cs)) /\
      length ys = nexts cs /\ Forall2 (fun wv y => shape (fst wv) (snd wv) y) (combine (waves Sine cs) vs) ys
  | Panic => gf_run I (gf_new a) cs = Panic
  | UB => gf_run I (gf_new a) cs = UB
  end.
Proof.
  intros NP B MO S I a cs Hf. unfold gf_new. generalize Sine at 1 2 3 4 5. intros w. revert a w.
  induction cs as [|c cs IH]; intros a w; cbn [drive gf_run].
  { split; [reflexivity|]. exists []. repeat split. constructor. }
  destruct c as [|f|r|t|w'].
  - pose proof (gf_next_shape I (GF a w) Hf) as N. cbn [gf_acc gf_wave] in N.
    destruct (ac_next_norm I a) as [[v a1]| |]; cbn [bind fst snd]; try (rewrite N; reflexivity).
    destruct N as (y & -> & Sy). cbn [bind fst snd]. specialize (IH a1 w).
    destruct (drive I a1 cs) as [[vs a2]| |]; cbn [bind fst snd]; try (rewrite IH; reflexivity).
    destruct IH as (L & ys & -> & Ly & F). cbn [bind fst snd length nexts]. split; [now rewrite L|].
    exists (y :: ys). split; [reflexivity|]. split; [cbn [length]; now rewrite Ly|].
    cbn [waves combine]. constructor; [exact Sy|exact F].
  - unfold gf_set_freq. cbn [gf_acc gf_wave]. destruct (ac_set_freq I a f) as [a1| |]; cbn [bind]; try reflexivity. apply IH.
  - unfold gf_set_sr. cbn [gf_acc gf_wave]. destruct (ac_set_sr I a r) as [a1| |]; cbn [bind]; try reflexivity. apply IH.
  - unfold gf_set_shift. cbn [gf_acc gf_wave]. change (to_u32 (fmul t u32_max_f)) with (shift_u32 t). rewrite shift_ok.
    destruct (ac_set_shift I a (shift_of t)) as [a1| |]; cbn [bind]; try reflexivity. apply IH.
  - apply IH.
Qed.
Print Assumptions C106_functional_any_accumulator.

(** C106: the same for a wavetable oscillator, as long as the phases stay inside the table: its
    samples interpolate the table at these phases, and the call after that goes wrong exactly as
    the accumulator's does. *)
Theorem C106_wavetable_any_accumulator : forall (NP : NanPolicy) (B : Build) (S : Type) (I : accumulator S) (h : heap f32) s l (a : S) (cs : list osc_call) vs a',
  covers h s l -> 1 <= ms_len s <= 2 ^ 24 -> Forall (fun x => fin x = true) l ->
  drive I a cs = Ret (vs, a') -> Forall (inside_table (ms_len s)) vs ->
  exists ys, gw_run I h (gw_new s a) cs = Ret (ys, GW s a') /\ length ys = nexts cs /\ Forall2 (table_value l (ms_len s)) vs ys /\
    forall c, (drive I a' [c] = Panic -> gw_run I h (gw_new s a) (cs ++ [c]) = Panic) /\
              (drive I a' [c] = UB -> gw_run I h (gw_new s a) (cs ++ [c]) = UB).
Proof.
  intros NP B S I h s l a cs vs a' C Hn Fl. unfold gw_new. revert a vs. induction cs as [|c cs IH]; intros a vs D F; cbn [drive gw_run] in *.
  { injection D as <- <-. exists []. split; [reflexivity|]. split; [reflexivity|]. split; [constructor|].
    intros [|f|r|t|w]; cbn [app gw_run drive]; unfold gw_next, gw_set_freq, gw_set_sr, gw_set_shift; cbn [gw_acc gw_table].
    1: destruct (ac_next_norm I a). 4: destruct (ac_set_freq I a f). 7: destruct (ac_set_sr I a r).
    10: { change (to_u32 (fmul t u32_max_f)) with (shift_u32 t). rewrite shift_ok. destruct (ac_set_shift I a (shift_of t)); split; intros X; (discriminate X || reflexivity). }
    all: split; intros X; (discriminate X || reflexivity). }
  destruct c as [|f|r|t|w'].
  - destruct (ac_next_norm I a) as [[v a1]| |] eqn:E; try discriminate D. cbn [bind fst snd] in D.
    destruct (drive I a1 cs) as [[vs1 a2]| |] eqn:D1; try discriminate D. cbn [bind fst snd] in D. injection D as <- <-.
    inversion F as [|? ? (Fv & Bv & K) F']; subst.
    destruct (gw_next_table I h (GW s a) l v a1 C Hn Fl E Fv Bv) as [G _]. cbn [gw_table] in G.
    destruct (G K) as (y & Ey & T). rewrite Ey. cbn [bind fst snd]. destruct (IH _ _ D1 F') as (ys & R & Ly & F2 & N). rewrite R. cbn [bind fst snd].
    exists (y :: ys). split; [reflexivity|]. split; [cbn [length nexts]; now rewrite Ly|]. split; [now constructor|].
    intros c. cbn [app gw_run]. rewrite Ey. cbn [bind fst snd]. destruct (N c) as [N1 N2].
    split; intros X; [rewrite (N1 X)|rewrite (N2 X)]; reflexivity.
  - cbn [app gw_run]. unfold gw_set_freq. cbn [gw_acc gw_table]. destruct (ac_set_freq I a f) as [a1| |]; try discriminate D. exact (IH _ _ D F).
  - cbn [app gw_run]. unfold gw_set_sr. cbn [gw_acc gw_table]. destruct (ac_set_sr I a r) as [a1| |]; try discriminate D. exact (IH _ _ D F).
  - cbn [app gw_run]. unfold gw_set_shift. cbn [gw_acc gw_table]. change (to_u32 (fmul t u32_max_f)) with (shift_u32 t). rewrite shift_ok.
    destruct (ac_set_shift I a (shift_of t)) as [a1| |]; try discriminate D. exact (IH _ _ D F).
  - exact (IH _ _ D F).
Qed.
Print Assumptions C106_wavetable_any_accumulator.

(** C106: and the first phase in [0, 1] that is not inside is undefined behaviour if the table ends its
    allocation; a phase of 1 is never inside, so no table is safe with every accumulator that stays
    in [0, 1]. *)
Theorem C106_wavetable_outside_refuted : forall (NP : NanPolicy) (B : Build) (S : Type) (I : accumulator S) (h : heap f32) s l (a : S) v a',
  covers h s l -> 1 <= ms_len s <= 2 ^ 24 -> Forall (fun x => fin x = true) l -> ends_allocation h s ->
  ac_next_norm I a = Ret (v, a') -> fin v = true -> (0 <= val v <= 1)%R ->
  (~ inside_table (ms_len s) v -> gw_next I h (gw_new s a) = UB) /\
  (val v = 1%R -> gw_next I h (gw_new s a) = UB).
Proof.
  intros NP B S I h s l a v a' C Hn Fl He E Fv Bv.
  destruct (gw_next_table I h (gw_new s a) l v a' C Hn Fl E Fv Bv) as [_ G]. cbn [gw_table gw_new] in G. split.
  - intros N. apply G; [|exact He]. destruct (Z_lt_le_dec (Zfloor (table_pos_of (ms_len s) v) + 1) (ms_len s)) as [K|K]; [|exact K].
    contradiction N. split; [exact Fv|]. split; [exact Bv|exact K].
  - intros V. apply G; [|exact He]. unfold table_pos_of. rewrite V, Rmult_1_r, rnd_repr by (apply repr_int; lia). rewrite Zfloor_IZR. lia.
Qed.
Print Assumptions C106_wavetable_outside_refuted.

(** An accumulator that is not the crate's: it walks over the eighths of a turn and panics when told
    to run at a frequency of 0. *)
Definition eighths : accumulator Z :=
  Acc (fun n _ => Ret n) (fun n f => if feq f (of_int 0) then Panic else Ret n) (fun n _ => Ret n)
      (fun n => Ret (n, n + 1)) (fun n => Ret (lit (n mod 8) (-3), n + 1)).
Example C106_met : let MO := ref_math (NP := default_policy) in
  floor_ok MO /\
  (do q <- gf_run (NP := default_policy) (B := dbg32) (MO := MO) eighths (gf_new 0)
     [OscNext; OscWave Sawtooth; OscNext; OscWave Rectangle; OscNext; OscNext; OscNext; OscWave Triangle; OscNext] ;
   Ret (map to_bits (fst q), gf_acc (snd q))) =
    Ret (map to_bits [of_int 0; lit (-3) (-2); of_int (-1); of_int (-1); of_int 1; lit 1 (-1)], 6) /\
  gf_run (NP := default_policy) (B := dbg32) (MO := MO) eighths (gf_new 0) [OscNext; OscFreq (of_int 0)] = Panic.
Proof. cbv zeta. split; [apply ref_floor_ok|]. split; vm_compute; reflexivity. Qed.
Example C106_table_met : let h := [[of_int 0; of_int 1; of_int 0; of_int (-1)]] in let s := MS (PAt 0 0) 4 in
  let l := [of_int 0; of_int 1; of_int 0; of_int (-1)] in
  covers (B := dbg32) h s l /\ ends_allocation h s /\
  (do q <- gw_run (NP := default_policy) (B := dbg32) eighths h (gw_new s 0) [OscNext; OscNext; OscNext; OscNext; OscNext; OscNext] ;
   Ret (map to_bits (fst q))) = Ret (map to_bits [of_int 0; lit 1 (-1); of_int 1; lit 1 (-1); of_int 0; lit (-1) (-1)]) /\
  gw_next (NP := default_policy) (B := dbg32) eighths h (gw_new s 6) = UB /\
  (forall v, In v [of_int 0; lit 1 (-3); lit 2 (-3); lit 3 (-3); lit 4 (-3); lit 5 (-3)] -> inside_table 4 v).
Proof.
  cbv zeta. split; [|split; [|split; [vm_compute; reflexivity|split; [vm_compute; reflexivity|]]]].
  - split; [reflexivity|]. split; [vm_compute; discriminate|]. exists [], []. split; reflexivity.
  - eexists. split; reflexivity.
  - assert (L : forall k, 0 <= k <= 5 -> inside_table 4 (lit k (-3))).
    { intros k Hk. destruct (isv_lit k (-3) ltac:(lia) ltac:(lia)) as [F V]. assert (K : (0 <= IZR k <= 5)%R) by (split; apply IZR_le; lia).
      assert (P : pow2 (-3) = (1 / 8)%R) by (cbn; lra).
      split; [exact F|]. unfold table_pos_of. rewrite V. split; [rewrite P; lra|].
      assert (R : (rnd (4 * (IZR k * pow2 (-3))) <= 5 / 2)%R).
      { apply rnd_le_repr; [|rewrite P; lra]. replace (5 / 2)%R with (IZR 5 * pow2 (-1))%R by (cbn; lra). apply repr_dy; lia. }
      assert (Zfloor (rnd (4 * (IZR k * pow2 (-3)))) < 3); [|lia]. apply lt_IZR. apply Rle_lt_trans with (1 := Zfloor_lb _). lra. }
    intros v [<-|[<-|[<-|[<-|[<-|[<-|[]]]]]]]; try (apply L; lia).
    destruct (of_int_exact 0 ltac:(lia)) as [F V]. split; [exact F|]. unfold table_pos_of. rewrite V. split; [lra|]. rewrite Rmult_0_r, rnd_0, Zfloor_IZR. lia.
Qed.
