(** * Theorems: slices and the life of the buffer behind them (C105). *)

From Coq Require Import ZArith List Bool Lia.
From Verif Require Import Base F32 F32Lemmas Num M_Memory M_Delay S_Memory S_Delay S_Rack S_Lifetime
  P_Memory P_Delay P_Rack T_Rack Examples.
Import ListNotations.
Open Scope Z_scope.

Lemma happen_covers {B : Build} (h : heap f32) s l e : covers h s l -> spares s e -> covers (happen h e) s l.
Proof.
  intros C SP. pose proof C as (Hl & Hm & Hp). destruct e as [l0|b0|b0 o0 v]; cbn [happen spares] in *.
  - split; [exact Hl|]. split; [exact Hm|]. destruct (ms_ptr s) as [|b o]; [exact Hp|].
    destruct Hp as (pre & post & E & Eo).
    exists pre, post. split; [|exact Eo]. rewrite nth_error_app1; [exact E|]. apply nth_error_Some. congruence.
  - split; [exact Hl|]. split; [exact Hm|]. destruct (ms_ptr s) as [|b o]; [exact Hp|].
    destruct Hp as (pre & post & E & Eo). exists pre, post. split; [|exact Eo].
    rewrite nth_error_upd_neq; [exact E|]. intros ->. exact (SP o eq_refl).
  - apply (covers_kept h); [| |exact C].
    + intros b'. rewrite nth_error_upd. destruct (Nat.eqb_spec b0 b') as [<-|NE]; cbn [andb]; [|reflexivity].
      destruct (Nat.ltb_spec b0 (length h)) as [L|L]; [|reflexivity].
      rewrite (nth_error_nth' h [] L). cbn. now rewrite upd_length.
    + intros b' o' I. unfold cell. rewrite nth_error_upd.
      destruct (Nat.eqb_spec b0 b') as [<-|NE]; cbn [andb]; [|reflexivity].
      destruct (Nat.ltb_spec b0 (length h)) as [L|L]; [|reflexivity].
      rewrite (nth_error_nth' h [] L). unfold nthz. destruct (Z.ltb_spec o' 0); [reflexivity|].
      apply nth_error_upd_neq. intros ->. apply SP. rewrite Z2Nat.id by lia. exact I.
Qed.

Lemma gone_stays (es : list (event f32)) b : forall h, nth_error h b = Some [] -> nth_error (history h es) b = Some [].
Proof.
  induction es as [|e es IH]; intros h E; [exact E|]. apply (IH (happen h e)).
  assert (L : (b < length h)%nat) by (apply nth_error_Some; congruence).
  destruct e as [l0|b0|b0 o0 v]; cbn [happen].
  - now rewrite nth_error_app1.
  - rewrite nth_error_upd, E. destruct (_ && _)%bool; reflexivity.
  - rewrite nth_error_upd, E. destruct (Nat.eqb_spec b0 b) as [->|]; cbn [andb]; [|reflexivity].
    destruct (b <? length h)%nat; [|reflexivity]. rewrite (nth_error_nth h b [] E). destruct o0; reflexivity.
Qed.

(** While its buffer lives, a slice keeps covering the same samples, whatever buffers are
    made and dropped and whatever is written elsewhere: every checked read returns the
    sample. *)
Theorem C105_alive_slice_reads : forall (NP : NanPolicy) (B : Build) (h : heap f32) s l es,
  covers h s l -> Forall (spares s) es ->
  covers (history h es) s l /\
  forall i v, nthz l i = Some v -> get (history h es) s i = Ret (Ok v).
Proof.
  intros NP B h s l es C FA.
  assert (K : covers (history h es) s l).
  { revert h C. induction FA as [|e es SP FA IH]; intros h C; [exact C|].
    apply (IH (happen h e)). now apply happen_covers. }
  split; [exact K|]. intros i v Hv. pose proof (nthz_bounds _ _ _ Hv). pose proof K as (Hl & _).
  unfold get. destruct (Z.leb_spec (ms_len s) i); [lia|].
  now rewrite (get_unchecked_ok _ _ _ _ _ K Hv).
Qed.
Print Assumptions C105_alive_slice_reads.

(** A slice made by [from_slice] or [from_slice_mut] over any part of a buffer, of a size a Rust slice can
    have, reads exactly that part, from then on for as long as the buffer lives: sample i of the part at
    index i, and an error from the end on. *)
Theorem C105_made_slice_reads : forall (NP : NanPolicy) (B : Build) (h : heap f32) b pre l post es,
  nth_error h b = Some (pre ++ l ++ post) -> 4 * Z.of_nat (length l) <= isize_max ->
  let s := from_slice b (Z.of_nat (length pre)) (Z.of_nat (length l)) in
  Forall (spares s) es ->
  ms_length s = Z.of_nat (length l) /\
  (forall i v, nthz l i = Some v -> get (history h es) s i = Ret (Ok v)) /\
  (forall i, Z.of_nat (length l) <= i -> get (history h es) s i = Ret (Err IndexOutOfBound)).
Proof.
  intros NP B h b pre l post es E Hm s FA.
  assert (C : covers h s l).
  { split; [reflexivity|]. split; [exact Hm|]. unfold s, from_slice. cbn [ms_ptr]. exists pre, post. split; [exact E|reflexivity]. }
  destruct (C105_alive_slice_reads NP B h s l es C FA) as [_ G].
  split; [reflexivity|]. split; [exact G|]. intros i Hi. unfold get, s, from_slice. cbn [ms_len].
  destruct (Z.leb_spec (Z.of_nat (length l)) i); [reflexivity|lia].
Qed.
Print Assumptions C105_made_slice_reads.

(** A slice made by [from_slice] or [from_slice_mut] does not carry the lifetime of the
    buffer it was made from, so safe code can keep it after the buffer is gone. From then
    on every index that passes the bounds check of [get] or [assign] is undefined
    behaviour, whatever happened before and after; so is every
    wrapped read and every tick, read and write of a unit over it, wherever that stands. The slice itself still reports its length. *)
Theorem C105_dropped_buffer_refuted : forall (NP : NanPolicy) (B : Build) (h : heap f32) b o n es1 es2,
  let s := from_slice b (Z.of_nat o) n in
  let h' := history h (es1 ++ DropBuffer b :: es2) in
  (b < length (history h es1))%nat ->
  ms_length s = n /\
  (forall i, 0 <= i < n -> get h' s i = UB) /\
  (forall i v, 0 <= i < n -> assign h' s i v = UB) /\
  (forall i, 0 < n <= isize_max -> isize_min <= i <= isize_max -> get_wrapped h' s i = UB) /\
  (forall d, dl_buf d = s -> 0 <= dl_idx d ->
     dl_read h' d = UB /\ (forall x, dl_write_and_advance h' d x = UB) /\
     (forall a x, ap_dl a = d -> ap_tick h' a x = UB) /\
     (forall c x, cb_dl c = d -> cb_tick h' c x = UB)).
Proof.
  intros NP B h b o n es1 es2 s h' Lb.
  assert (E : nth_error h' b = Some []).
  { unfold h', history. rewrite fold_left_app. cbn [fold_left happen]. apply gone_stays.
    apply nth_error_upd_eq. exact Lb. }
  clearbody h'.
  assert (G : forall i, 0 <= i -> get_unchecked h' s i = UB).
  { intros i Hi. unfold get_unchecked, ptr_add, s, from_slice, ptr_read, cell. cbn [ms_ptr]. rewrite E. cbn [length].
    destruct (_ && _)%bool; [|reflexivity]. cbn [bind]. rewrite E. unfold nthz.
    destruct (_ <? 0); [reflexivity|]. destruct (Z.to_nat _); reflexivity. }
  assert (A : forall i v, 0 <= i -> assign_unchecked h' s i v = UB).
  { intros i v Hi. unfold assign_unchecked, ptr_add, s, from_slice, ptr_write, cell. cbn [ms_ptr]. rewrite E. cbn [length].
    destruct (_ && _)%bool; [|reflexivity]. cbn [bind]. rewrite E. unfold nthz.
    destruct (_ <? 0); [reflexivity|]. destruct (Z.to_nat _); reflexivity. }
  split; [reflexivity|]. split; [|split; [|split]].
  - intros i Hi. unfold get. change (ms_len s) with n. destruct (Z.leb_spec n i); [lia|]. rewrite G by lia. reflexivity.
  - intros i v Hi. unfold assign. change (ms_len s) with n. destruct (Z.leb_spec n i); [lia|]. rewrite A by lia. reflexivity.
  - intros i Hn Hi. unfold get_wrapped, get_wrapped_unchecked. change (ms_len s) with n.
    rewrite (as_isize_id n) by (rewrite isize_min_max; lia). destruct (_ || _)%bool.
    + rewrite rem_euclid_pos by lia. cbn [bind]. apply G, Z.mod_pos_bound. rewrite usize_mod_max, usize_isize. lia.
    + apply G, Z.mod_pos_bound. rewrite usize_mod_max, usize_isize. lia.
  - intros d Ed Hd. assert (R : dl_read h' d = UB) by (unfold dl_read; now rewrite Ed, G).
    split; [exact R|]. split; [|split].
    + intros x. unfold dl_write_and_advance. now rewrite Ed, A.
    + intros a x Ea. unfold ap_tick. now rewrite Ea, R.
    + intros c x Ec. unfold cb_tick. now rewrite Ec, R.
Qed.
Print Assumptions C105_dropped_buffer_refuted.

(** Instances: buffer 1 comes and goes while a slice looks at buffer 0; then buffer 0 goes. *)
Example C105_met (NP : NanPolicy) (B : Build) :
  covers ex_heap ex_slice ex_list /\
  Forall (spares ex_slice) [NewBuffer [of_int 9]; DropBuffer 1; WriteTo 2 0 (of_int 4)] /\
  (0 < length (history ex_heap [NewBuffer [of_int 9]; DropBuffer 1]))%nat.
Proof.
  split; [exact ex_covers|]. split.
  - repeat constructor; cbn.
    + intros o H. discriminate.
    + intros (i & _ & H). discriminate.
  - cbn. lia.
Qed.
