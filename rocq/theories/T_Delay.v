(** * Theorems: delay line, comb and all-pass units (C17-C26). *)

From Coq Require Import ZArith List Bool Reals Lia Lra.
From Flocq Require Import Core.
From Verif Require Import Base F32 F32Lemmas F32Ints Num M_Memory M_Delay S_Memory S_Delay
  P_Memory P_Lerp P_Delay P_DelayNum Examples.
Import ListNotations.
Open Scope Z_scope.

(** C17: a delay line over n samples is a FIFO of length n. Reading before every
    write, the m-th read returns the m-th element of "initial content, then the
    written values": a value written at step m comes back at step m + n. *)
Theorem C17_delay_line_fifo : forall (F : Type) (B : Build)
    (h : heap F) s l (ws : list F),
  covers h s l -> 0 < ms_len s ->
  exists h' d' ys, dl_run (h, dl_new s) (rw_ops ws) = Ret (h', d', ys) /\
    (forall m, (m < length ws)%nat -> nth_error ys (2 * m) = Some (nth_error (l ++ ws) m)) /\
    (forall m w, nth_error ws m = Some w -> (m + length l < length ws)%nat ->
       nth_error ys (2 * (m + length l)) = Some (Some w)).
Proof.
  intros F B h s l ws C Hn.
  assert (Hne : l <> []). { destruct C as (Hl & _). intros ->. cbn in Hl. lia. }
  destruct (dl_run_ok (rw_ops ws) h (dl_new s) l (dl_new_rel h s l C Hn) (rw_ops_ok _ ws))
    as (h' & d' & E & _).
  destruct (rw_queue ws l Hne) as [_ Q].
  exists h', d', (snd (queue_run l (rw_ops ws))). split; [exact E|]. split; [exact Q|].
  intros m w Hw Hm. rewrite Q by exact Hm. f_equal. rewrite nth_error_app2 by lia.
  now replace (m + length l - length l)%nat with m by lia.
Qed.
Print Assumptions C17_delay_line_fifo.

Example C17_example : covers (B := dbg32) ex_heap ex_slice ex_list /\ 0 < ms_len ex_slice /\
  exists st, dl_run (B := dbg32)
     (ex_heap, dl_new ex_slice) (rw_ops [of_int 10; of_int 11; of_int 12; of_int 13]) =
  Ret (st, [Some (of_int 1); None; Some (of_int 2); None; Some (of_int 3); None; Some (of_int 10); None]).
Proof.
  split; [apply ex_covers|]. split; [reflexivity|]. eexists. reflexivity.
Qed.

(** C18: whatever the history of reads, taps, writes and advances, every visible
    result is the one of a queue of n samples; the tap at -k is the value written k
    writes ago. *)
Theorem C18_delay_line_taps : forall (F : Type) (B : Build)
    (h : heap F) s l (ops : list (dl_op F)),
  covers h s l -> 0 < ms_len s -> Forall (offset_ok (ms_len s)) ops ->
  exists h' d', dl_run (h, dl_new s) ops = Ret (h', d', snd (queue_run l ops)) /\
    (forall j, isize_min <= j /\ j + (ms_len s - 1) <= isize_max ->
       exists v, nthz (fst (queue_run l ops)) (j mod ms_len s) = Some v /\
         dl_read_wrapped_at h' d' j = Ret v).
Proof.
  intros F B h s l ops C Hn Ho.
  destruct (dl_run_ok ops h (dl_new s) l (dl_new_rel h s l C Hn) Ho) as (h' & d' & E & Eb & R & _).
  exists h', d'. split; [exact E|]. intros j Hj.
  pose proof (rel_nth _ _ _ R) as (l2 & _ & Hi & _).
  cbn [dl_new dl_buf] in Eb. rewrite <- Eb. rewrite Eb in Hi.
  apply dl_read_at_ok; [exact R|]. unfold is_isize. lia.
Qed.
Print Assumptions C18_delay_line_taps.

Theorem C18_tap_written_k_ago : forall (F : Type) (B : Build)
    (h : heap F) s l (ops : list (dl_op F)) (ws : list F) k w,
  covers h s l -> 0 < ms_len s -> Forall (offset_ok (ms_len s)) ops ->
  (1 <= k)%nat -> (k <= length ws)%nat -> Z.of_nat k <= ms_len s ->
  nth_error ws (length ws - k) = Some w ->
  exists h' d' ys, dl_run (h, dl_new s) (ops ++ writes ws) = Ret (h', d', ys) /\
    dl_read_wrapped_at h' d' (- Z.of_nat k) = Ret w.
Proof.
  intros F B h s l ops ws k w C Hn Ho Hk1 Hk2 Hk3 Hw.
  pose proof C as (Hl & Hm & _).
  assert (Hne : l <> []). { intros ->. cbn in Hl. lia. }
  assert (Ho2 : Forall (offset_ok (ms_len s)) (ops ++ writes ws)).
  { apply Forall_app. split; auto. unfold writes. clear. induction ws; cbn; repeat constructor; auto. }
  destruct (C18_delay_line_taps F B h s l _ C Hn Ho2) as (h' & d' & E & T).
  exists h', d'. eexists. split; [exact E|].
  destruct (T (- Z.of_nat k)) as (v & V1 & V2).
  { pose proof isize_max_pos. rewrite isize_min_max. lia. }
  rewrite V2. f_equal. rewrite queue_run_app in V1.
  set (q := fst (queue_run l ops)) in *.
  assert (Lq : length q = length l). { destruct (queue_run_len ops l); [assumption|congruence]. }
  rewrite writes_queue in V1 by (destruct q; [destruct l; [congruence|discriminate]|discriminate]).
  assert (Em : (- Z.of_nat k) mod ms_len s = ms_len s - Z.of_nat k).
  { symmetry. apply Z.mod_unique with (-1); lia. }
  rewrite Em in V1. unfold nthz in V1. destruct (Z.ltb_spec (ms_len s - Z.of_nat k) 0); [lia|].
  assert (W : nth_error (skipn (length ws) (q ++ ws)) (Z.to_nat (ms_len s - Z.of_nat k)) = Some w).
  { rewrite nth_error_skipn. rewrite nth_error_app2 by lia. rewrite <- Hw. f_equal. lia. }
  congruence.
Qed.
Print Assumptions C18_tap_written_k_ago.

Example C18_example : exists h' d' ys,
  dl_run (B := dbg32)
     (ex_heap, dl_new ex_slice) ([DAdvance; DReadAt 4] ++ writes [of_int 10; of_int 11]) = Ret (h', d', ys) /\
  ys = [None; Some (of_int 3); None; None] /\
  dl_read_wrapped_at (B := dbg32) h' d' (-2) = Ret (of_int 10) /\
  dl_read_wrapped_at (B := dbg32) h' d' (-1) = Ret (of_int 11).
Proof. do 3 eexists. split; [reflexivity|]. repeat split. Qed.

(** C19: no history of calls, whatever the tap offsets, leaves the buffer: it never
    reaches undefined behaviour, panics only on an overflowing tap offset with
    overflow checks, and changes no cell outside the buffer. *)
Theorem C19_delay_line_confined : forall (F : Type) (B : Build)
    (h : heap F) s l (ops : list (dl_op F)),
  covers h s l -> 0 < ms_len s ->
  (forall j, In (DReadAt j) ops -> is_isize j) ->
  match dl_run (h, dl_new s) ops with
  | UB => False
  | Panic => ovf_checks = true /\
      exists j, In (DReadAt j) ops /\ ~ (isize_min <= j /\ j + (ms_len s - 1) <= isize_max)
  | Ret (h', d', ys) => length ys = length ops /\
      forall b o, ~ in_slice s b o -> cell h' b o = cell h b o
  end.
Proof.
  intros F B h s l ops C Hn Hj.
  assert (Len : forall (ops : list (dl_op F)) st st' ys, dl_run st ops = Ret (st', ys) -> length ys = length ops).
  { clear. induction ops as [|op ops IH]; intros st st' ys E; cbn [dl_run] in E.
    - injection E as <- <-. reflexivity.
    - destruct (dl_step st op) as [[st1 y]| |]; try discriminate. cbn [bind] in E.
      destruct (dl_run st1 ops) as [[st2 zs]| |] eqn:Er; try discriminate. cbn [bind] in E.
      injection E as <- <-. cbn. f_equal. eauto. }
  assert (Ha : Forall (@offset_any F B) ops).
  { apply Forall_forall. intros [|j| |] Hin; cbn; auto. }
  destruct (dl_run_any ops h (dl_new s) l (dl_new_rel h s l C Hn) Ha)
    as [(E & V & _)|(h' & d' & ys & q' & E & _ & _ & Fr)].
  - rewrite E. split; [exact V|].
    assert (D : Forall (offset_ok (ms_len s)) ops \/ exists j, In (DReadAt j) ops /\
      ~ (isize_min <= j /\ j + (ms_len s - 1) <= isize_max)).
    { clear - B. induction ops as [|op ops IH]; [left; constructor|].
      destruct IH as [IH|(j & J1 & J2)]; [|right; exists j; split; [now right|exact J2]].
      destruct op as [|j|v|]; try (left; constructor; [exact I|exact IH]).
      destruct (Z_le_dec isize_min j); [destruct (Z_le_dec (j + (ms_len s - 1)) isize_max)|].
      - left. constructor; [cbn; auto|exact IH].
      - right. exists j. split; [now left|lia].
      - right. exists j. split; [now left|lia]. }
    destruct D as [D|D]; [|exact D].
    destruct (dl_run_ok ops h (dl_new s) l (dl_new_rel h s l C Hn) D) as (h' & d' & E' & _). congruence.
  - rewrite E. split; [eapply Len; eauto|]. exact Fr.
Qed.
Print Assumptions C19_delay_line_confined.

(** ... and neither does the interpolated tap, for any f32 offset and floor routine. *)
Theorem C19_lerp_tap_confined : forall (NP : NanPolicy) (MO : MathOps f32) (B : Build)
    (h : heap f32) s l (ops : list (dl_op f32)) h' d' ys (offset : f32),
  covers h s l -> 0 < ms_len s -> Forall (offset_ok (ms_len s)) ops ->
  dl_run (h, dl_new s) ops = Ret (h', d', ys) ->
  dl_read_lerp_wrapped_at h' d' offset <> UB.
Proof.
  intros NP MO B h s l ops h' d' ys offset C Hn Ho E.
  destruct (dl_run_ok ops h (dl_new s) l (dl_new_rel h s l C Hn) Ho) as (h2 & d2 & E2 & Eb & R & _).
  rewrite E in E2. injection E2 as <- <- _.
  destruct R as (l2 & C2 & Hi & _). unfold dl_read_lerp_wrapped_at.
  destruct (ms_lerp_wrapped_general h' (dl_buf d') l2 (nadd (nint (dl_idx d')) offset) C2 ltac:(lia))
    as [(-> & _)|(a & b & _ & _ & ->)]; discriminate.
Qed.
Print Assumptions C19_lerp_tap_confined.

Example C19_example :
  dl_run (B := dbg32)
     (ex_heap, dl_new ex_slice) [DAdvance; DReadAt (2 ^ 31 - 1)] = Panic /\
  (exists h' d', dl_run (B := rel32)
     (ex_heap, dl_new ex_slice) [DAdvance; DReadAt (2 ^ 31 - 1); DWrite (of_int 4)]
     = Ret (h', d', [None; Some (of_int 2); None]) /\
   cell h' 0 0 = Some (of_int 7) /\ cell h' 0 2 = Some (of_int 4) /\ cell h' 0 4 = Some (of_int 9)).
Proof. split; [reflexivity|]. do 2 eexists. split; [reflexivity|]. repeat split. Qed.

(** C20: [change_buffer] keeps the position. After a history with [k] position steps
    on an n1-sample buffer the line behaves as a (rotated) queue over the new buffer
    when k mod n1 is below the new length; otherwise, when nothing is allocated
    behind the new buffer, the next read and the next write are out of bounds. *)
Theorem C20_change_buffer_refuted : forall (F : Type) (B : Build)
    (h : heap F) s1 l1 (ops : list (dl_op F)) h' d' ys s2 l2,
  covers h s1 l1 -> 0 < ms_len s1 -> Forall (offset_ok (ms_len s1)) ops ->
  dl_run (h, dl_new s1) ops = Ret (h', d', ys) -> covers h' s2 l2 ->
  let p := Z.of_nat (steps ops) mod ms_len s1 in
  let d2 := dl_change_buffer d' s2 in
  (p < ms_len s2 ->
     let q := skipn (Z.to_nat p) l2 ++ firstn (Z.to_nat p) l2 in
     forall ops2, Forall (offset_ok (ms_len s2)) ops2 ->
       exists h2 d3, dl_run (h', d2) ops2 = Ret (h2, d3, snd (queue_run q ops2)) /\
         same_except (in_slice s2) h' h2) /\
  (ms_len s2 <= p ->
     (forall b o blk, ms_ptr s2 = PAt b o -> nth_error h' b = Some blk ->
       Z.of_nat (length blk) = o + ms_len s2 ->
       dl_read h' d2 = UB /\ forall v, dl_write_and_advance h' d2 v = UB)).
Proof.
  intros F B h s1 l1 ops h' d' ys s2 l2 C1 H1 Ho E C2 p d2.
  pose proof (run_idx ops h (dl_new s1) l1 h' d' ys (dl_new_rel h s1 l1 C1 H1) Ho E) as Ip.
  cbn [dl_new dl_idx dl_buf Z.add] in Ip. fold p in Ip.
  assert (Hp : 0 <= p) by (apply Z.mod_pos_bound; lia).
  split.
  - intros Hlt q ops2 Ho2.
    assert (R : dl_rel h' d2 q).
    { exists l2. unfold d2, q. cbn [dl_change_buffer dl_buf dl_idx]. rewrite Ip.
      split; [exact C2|]. split; [lia|]. reflexivity. }
    destruct (dl_run_ok ops2 h' d2 q R Ho2) as (h2 & d3 & E3 & _ & _ & Fr & _). eauto.
  - intros Hge b o blk Ep Eb Hlen. unfold dl_read, dl_write_and_advance.
    unfold d2. cbn [dl_change_buffer dl_buf dl_idx]. rewrite Ip.
    destruct s2 as [pp n2]. cbn [ms_ptr ms_len] in *. subst pp.
    rewrite (get_unchecked_past h' b o n2 p blk Eb) by lia. split; [reflexivity|].
    intros v. rewrite (assign_unchecked_past h' b o n2 p blk v Eb) by lia. reflexivity.
Qed.
Print Assumptions C20_change_buffer_refuted.

Example C20_example : exists h' d' ys,
  dl_run (B := dbg32)
     (ex_heap, dl_new ex_slice) (writes [of_int 10; of_int 11]) = Ret (h', d', ys) /\
  covers (B := dbg32) h' (MS (PAt 1 0) 2) [of_int 5; of_int 6] /\
  dl_read h' (dl_change_buffer d' (MS (PAt 1 0) 2)) = UB.
Proof.
  do 3 eexists. split; [reflexivity|]. split; [|reflexivity].
  split; [reflexivity|]. split; [vm_compute; discriminate|]. exists [], []. split; reflexivity.
Qed.

(** C21: over a null slice, or an empty slice with nothing allocated behind it, the
    first read and the first write are undefined behaviour. *)
Theorem C21_empty_delay_line_refuted : forall (F : Type) (NF : Num F) (B : Build)
    (h : heap F) s,
  (s = null_slice \/ exists b o blk, s = MS (PAt b o) 0 /\ nth_error h b = Some blk /\
                       o = Z.of_nat (length blk)) ->
  dl_read h (dl_new s) = UB /\ (forall v, dl_write_and_advance h (dl_new s) v = UB) /\
  (forall x, ap_tick h (ap_new s) x = UB) /\ (forall x, cb_tick h (cb_new s) x = UB).
Proof.
  intros F NF B h s H.
  assert (A : get_unchecked h s 0 = UB /\ forall v, assign_unchecked h s 0 v = UB).
  { destruct H as [->|(b & o & blk & -> & E & ->)]; [split; reflexivity|].
    split; [|intros v].
    - apply get_unchecked_past with blk; [exact E|lia].
    - apply assign_unchecked_past with blk; [exact E|lia]. }
  destruct A as [A1 A2]. unfold ap_tick, cb_tick, dl_read, dl_write_and_advance, ap_new, cb_new, dl_new.
  cbn [dl_buf dl_idx ap_dl cb_dl]. rewrite A1. repeat split. intros v. now rewrite A2.
Qed.
Print Assumptions C21_empty_delay_line_refuted.

Example C21_example : covers (B := dbg32) [[of_int 1]] (MS (PAt 0 1) 0) [] /\
  dl_read (F := f32) [[of_int 1]] (dl_new (MS (PAt 0 1) 0)) = UB.
Proof.
  split; [|reflexivity]. split; [reflexivity|]. split; [vm_compute; discriminate|].
  exists [of_int 1], []. split; reflexivity.
Qed.

(** C22: the comb filter is its recurrence, in f32, for every interleaving of ticks
    and parameter changes ([comb_spec], S_Delay.v). *)
Theorem C22_comb_recurrence : forall (NP : NanPolicy) (B : Build)
    (h : heap f32) s l (ops : list (comb_op f32)),
  covers h s l -> 0 < ms_len s ->
  exists h' c', comb_run h (cb_new s) ops =
      Ret (h', c', comb_spec l 0 (of_int 0) (lit 1 (-1)) (lit 1 (-1)) ops) /\
    same_except (in_slice s) h h'.
Proof.
  intros NP B h s l ops C Hn.
  destruct (comb_run_ok ops h (cb_new s) l 0 (nint 0) (ndy 1 (-1)) (ndy 1 (-1)))
    as (h' & c' & E & Fr).
  { split; [exact (dl_new_rel h s l C Hn)|]. split; [reflexivity|]. split; [reflexivity|].
    split; [symmetry; apply one_minus_half|reflexivity]. }
  exists h', c'. split; [exact E|exact Fr].
Qed.
Print Assumptions C22_comb_recurrence.

Example C22_example (NP : NanPolicy) :
  out_bits (comb_run (B := dbg32) ex_heap (cb_new ex_slice)
    [CTick (of_int 1); CDamp (of_int 0); CTick (of_int 1); CFeedback (of_int 1); CTick (of_int 1); CTick (of_int 0)])
  = Ret (map to_bits [of_int 1; of_int 2; of_int 3; lit 5 (-2)]).
Proof. vm_compute. reflexivity. Qed.

(** C23: default comb settings, inputs within M and contents within 2M (2M finite):
    everything stays finite and within 2M. *)
Theorem C23_comb_bounded : forall (NP : NanPolicy) (B : Build) (h : heap f32) s l (xs : list f32) (M : R),
  covers h s l -> 0 < ms_len s -> repr M -> (2 * M < big)%R ->
  Forall (bounded (2 * M)) l -> Forall (bounded M) xs ->
  exists h' c' ys, comb_run h (cb_new s) (map CTick xs) = Ret (h', c', ys) /\
    length ys = length xs /\ Forall (bounded (2 * M)) ys /\
    exists l', covers h' s l' /\ Forall (bounded (2 * M)) l'.
Proof.
  intros NP B h s l xs M C Hn HM Hb Hl Hx.
  destruct (C22_comb_recurrence NP B h s l (map CTick xs) C Hn) as (h' & c' & E & _).
  exists h', c'. eexists. split; [exact E|]. rewrite <- and_assoc. split.
  2:{ destruct xs as [|x xs]; [injection E as <- <-; now exists l|].
      assert (0 <= M)%R by (inversion Hx as [|? ? [_ Q] _]; subst; pose proof (Rabs_pos (val x)); lra).
      refine (comb_stored M (map CTick (x :: xs)) HM Hb h (cb_new s) l h' c' _ (dl_new_rel h s l C Hn) _ _ _ Hl _ _ E); auto.
      - split; [reflexivity|]. cbn [cb_new cb_state]. change (nint 0) with (of_int 0). rewrite (proj2 (of_int_exact 0 ltac:(lia))). rewrite Rabs_R0. lra.
      - apply Forall_map. exact Hx. }
  split.
  - clear. generalize (lit 1 (-1)) as z. generalize (of_int 0) as w. generalize 0%nat as m. revert l.
    induction xs as [|x xs IH]; intros; cbn; [reflexivity|]. f_equal. apply IH.
  - destruct xs as [|x xs]; [constructor|].
    assert (0 <= M)%R.
    { inversion Hx as [|? ? [_ Q] _]; subst. pose proof (Rabs_pos (val x)). lra. }
    apply comb_bounded; auto.
    + split; [reflexivity|]. rewrite (proj2 (of_int_exact 0 ltac:(lia))). rewrite Rabs_R0. lra.
    + apply Forall_map. exact Hx.
    + destruct C as (Hl2 & _). lia.
Qed.
Print Assumptions C23_comb_bounded.

Example C23_example : repr 1 /\ (2 * 1 < big)%R /\ Forall (bounded (2 * 1)) [of_int 2; of_int 1] /\
  Forall (bounded 1) [of_int 1; of_int (-1)].
Proof.
  split; [apply (repr_int 1); lia|]. split.
  { rewrite Rmult_1_r. apply (pow2_lt_big 1). lia. }
  split; repeat (constructor; [split; [reflexivity|];
    match goal with |- context [of_int ?z] => rewrite (proj2 (of_int_exact z ltac:(lia))) end;
    apply Rabs_le; lra|]); constructor.
Qed.

(** C24: the all-pass unit is its recurrence in f32 ([ap_spec], S_Delay.v). *)
Theorem C24_all_pass_recurrence : forall (F : Type) (NF : Num F) (B : Build) (h : heap F) s l (xs : list F),
  covers h s l -> 0 < ms_len s ->
  exists h' a', ap_run h (ap_new s) xs = Ret (h', a', ap_spec l 0 xs) /\
    same_except (in_slice s) h h'.
Proof.
  intros F NF B h s l xs C Hn.
  destruct (ap_run_ok xs h (ap_new s) l 0) as (h' & a' & E & Fr).
  { exact (dl_new_rel h s l C Hn). }
  exists h', a'. split; [exact E|exact Fr].
Qed.
Print Assumptions C24_all_pass_recurrence.

Example C24_example (NP : NanPolicy) :
  out_bits (ap_run (B := dbg32) ex_heap (ap_new ex_slice) [of_int 1; of_int 0; of_int 0; of_int 2])
  = Ret (map to_bits [of_int 0; of_int 2; of_int 3; lit (-1) (-1)]).
Proof. vm_compute. reflexivity. Qed.

(** C25: all-pass outputs stay finite and within the rounding of 3M. *)
Theorem C25_all_pass_bounded : forall (NP : NanPolicy) (B : Build) (h : heap f32) s l (xs : list f32) (M : R),
  covers h s l -> 0 < ms_len s -> repr M -> (rnd (3 * M) < big)%R ->
  Forall (bounded (2 * M)) l -> Forall (bounded M) xs ->
  exists h' a' ys, ap_run h (ap_new s) xs = Ret (h', a', ys) /\
    length ys = length xs /\ Forall (bounded (rnd (3 * M))) ys /\
    exists l', covers h' s l' /\ Forall (bounded (2 * M)) l'.
Proof.
  intros NP B h s l xs M C Hn HM Hb Hl Hx.
  destruct (C24_all_pass_recurrence f32 _ B h s l xs C Hn) as (h' & a' & E & _).
  exists h', a', (ap_spec l 0 xs). split; [exact E|]. rewrite <- and_assoc. split.
  2:{ destruct xs as [|x xs]; [injection E as <- <-; now exists l|].
      assert (0 <= M)%R by (inversion Hx as [|? ? [_ Q] _]; subst; pose proof (Rabs_pos (val x)); lra).
      refine (ap_stored M (x :: xs) HM _ h (ap_new s) l h' a' _ (dl_new_rel h s l C Hn) Hl Hx E).
      apply Rle_lt_trans with (2 := Hb). apply rnd_ge_repr; [now apply repr_double|lra]. }
  split.
  - clear. generalize 0%nat. revert l. induction xs; intros; cbn; auto.
  - apply ap_bounded; auto. destruct C as (Hl2 & _). lia.
Qed.
Print Assumptions C25_all_pass_bounded.

(** ... and the bound is reached: with M = 1, a stored 2 and an input -1 give 3. *)
Example C25_example (NP : NanPolicy) : Forall (bounded 1) [of_int (-1)] /\ Forall (bounded (2 * 1)) [of_int 2] /\
  out_bits (ap_run (B := dbg32) [[of_int 2]] (ap_new (MS (PAt 0 0) 1)) [of_int (-1)]) = Ret [to_bits (of_int 3)].
Proof.
  split; [|split; [|vm_compute; reflexivity]].
  all: repeat (constructor; [split; [reflexivity|];
    match goal with |- context [of_int ?z] => rewrite (proj2 (of_int_exact z ltac:(lia))) end;
    apply Rabs_le; lra|]); constructor.
Qed.

(** C26: in exact arithmetic the unit over n zeroed samples is the filter
    y[m] = y[m-n]/2 - x[m] + (3/2) x[m-n]. *)
Theorem C26_all_pass_transfer : forall (B : Build) (h : heap R) s n (xs : list R) m,
  (0 < n)%nat -> covers h s (repeat 0%R n) -> (m < length xs)%nat ->
  exists h' a' ys, ap_run h (ap_new s) xs = Ret (h', a', ys) /\
    nth m ys 0%R = (/ 2 * past ys m n - nth m xs 0 + 3 / 2 * past xs m n)%R.
Proof.
  intros B h s n xs m Hn C Hm.
  assert (Hl : 0 < ms_len s). { destruct C as (-> & _). rewrite repeat_length. lia. }
  destruct (C24_all_pass_recurrence R _ B h s _ xs C Hl) as (h' & a' & E & _).
  exists h', a'. eexists. split; [exact E|]. now apply ap_difference.
Qed.
Print Assumptions C26_all_pass_transfer.

(** Its gain for constants is 1: fed with c from rest, it gives c (1 - 2 / 2^j) during the
    j-th pass through the buffer (so -c at first). *)
Theorem C26_all_pass_dc_gain : forall (B : Build) (h : heap R) s n N c m,
  (0 < n)%nat -> covers h s (repeat 0%R n) -> (m < N)%nat ->
  exists h' a' ys, ap_run h (ap_new s) (repeat c N) = Ret (h', a', ys) /\
    nth m ys 0%R = (c * (1 - 2 * (/ 2) ^ (m / n)))%R.
Proof.
  intros B h s n N c m Hn C Hm.
  assert (Hl : 0 < ms_len s). { destruct C as (-> & _). rewrite repeat_length. lia. }
  destruct (C24_all_pass_recurrence R _ B h s _ (repeat c N) C Hl) as (h' & a' & E & _).
  exists h', a'. eexists. split; [exact E|]. revert Hm.
  assert (NR : forall i, (i < N)%nat -> nth i (repeat c N) 0%R = c).
  { clear. induction N as [|N IH]; intros i Hi; [lia|]. destruct i as [|i]; [reflexivity|]. cbn [repeat nth]. apply IH. lia. }
  induction m as [m IH] using lt_wf_ind. intros Hm.
  rewrite (ap_difference n (repeat c N) m Hn) by (rewrite repeat_length; exact Hm). unfold past. rewrite NR by exact Hm.
  destruct (Nat.ltb_spec m n) as [L|L].
  - rewrite Nat.div_small by exact L. cbn [pow]. lra.
  - rewrite NR by lia. rewrite IH by lia. replace (m / n)%nat with (S ((m - n) / n)).
    + cbn [pow]. lra.
    + replace m with ((m - n) + 1 * n)%nat at 2 by lia. rewrite Nat.div_add by lia. lia.
Qed.
Print Assumptions C26_all_pass_dc_gain.

(** The energy of its impulse response is 1 + (4/3)(1 - 4^-k) after k*n + 1 samples
    (and up to the next multiple of n): more than the impulse's 1 as soon as k > 0. *)
Theorem C26_all_pass_energy_refuted : forall (B : Build) (h : heap R) s n N k j,
  (0 < n)%nat -> covers h s (repeat 0%R n) -> (j < n)%nat -> (k * n + 1 + j <= N)%nat ->
  exists h' a' ys, ap_run h (ap_new s) (impulse N) = Ret (h', a', ys) /\
    energy (impulse N) = 1%R /\
    energy (firstn (k * n + 1 + j) ys) = (1 + 4 / 3 * (1 - (/ 4) ^ k))%R /\
    ((0 < k)%nat -> (2 <= energy (firstn (k * n + 1 + j) ys))%R).
Proof.
  intros B h s n N k j Hn C Hj HN.
  assert (Hl : 0 < ms_len s). { destruct C as (-> & _). rewrite repeat_length. lia. }
  destruct (C24_all_pass_recurrence R _ B h s _ (impulse N) C Hl) as (h' & a' & E & _).
  exists h', a', (ap_spec (repeat 0%R n) 0 (impulse N)). split; [exact E|].
  rewrite ap_energy_block by assumption. split; [|split; [reflexivity|]].
  - destruct N; [lia|]. cbn [impulse energy fold_right]. clear. unfold energy. cbn [fold_right].
    assert (H : fold_right (fun y e => (y * y + e)%R) 0%R (repeat 0%R N) = 0%R).
    { induction N as [|N IH]; cbn [repeat fold_right]; [reflexivity|]. rewrite IH. lra. }
    rewrite H. lra.
  - intros Hk. destruct k as [|k]; [lia|]. cbn [pow].
    assert (((/ 4) ^ k <= 1)%R).
    { clear. induction k as [|k IH]; cbn [pow]; [lra|]. assert (0 <= (/ 4) ^ k)%R by (apply pow_le; lra). lra. }
    lra.
Qed.
Print Assumptions C26_all_pass_energy_refuted.

Example C26_example : covers (B := dbg32) [repeat 0%R 5] (MS (PAt 0 0) 5) (repeat 0%R 5).
Proof.
  split; [reflexivity|]. split; [vm_compute; discriminate|]. exists [], []. split; reflexivity.
Qed.
