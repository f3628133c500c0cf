(** * Theorems: raw slices of memory slices and delay units (C84). *)

From Coq Require Import ZArith List Bool Lia.
From Verif Require Import Base F32 Num M_Memory M_Delay M_RawSlice S_Memory S_Delay P_Memory P_Delay.
Import ListNotations.
Open Scope Z_scope.

(** Specification: a ring of n cells and a position; a write stores at the position, and both
    write and advance move it on by one, round the ring. *)
Definition ring_step {F} (st : list F * Z) (op : dl_op F) : list F * Z :=
  let '(l, p) := st in
  let p' := (p + 1) mod Z.of_nat (length l) in
  match op with
  | DWrite v => (upd l (Z.to_nat p) v, p')
  | DAdvance => (l, p')
  | _ => (l, p)
  end.
Definition ring {F} (l : list F) (ops : list (dl_op F)) : list F * Z := fold_left ring_step ops (l, 0).

(** C84: the raw slice of a memory slice shows exactly the samples of the slice, the same as [get]
    does, and a store through it is the same as [assign]; indices past its end are refused. *)
Theorem C84_raw_slice_same_samples : forall (F : Type) (B : Build) (h : heap F) s l i v,
  covers h s l -> 0 <= i ->
  as_slice s = as_slice_mut s /\
  (i < ms_len s -> exists x, nthz l i = Some x /\ raw_index h (as_slice s) i = Ret x /\ get h s i = Ret (Ok x)) /\
  (i < ms_len s -> exists h', raw_store h (as_slice_mut s) i v = Ret h' /\ assign h s i v = Ret (h', Ok tt)) /\
  (ms_len s <= i -> raw_index h (as_slice s) i = Panic /\ raw_store h (as_slice_mut s) i v = Panic).
Proof.
  intros F B h s l i v C Hi. pose proof C as (Hl & _). split; [reflexivity|]. split; [|split].
  - intros Lt. destruct (nthz_ex l i) as [x Hx]; [lia|]. exists x. split; [exact Hx|]. split.
    + unfold raw_index, as_slice. cbn [rs_len rs_ptr]. rewrite (proj2 (Z.ltb_lt _ _) Lt). exact (get_unchecked_ok h s l i x C Hx).
    + rewrite (get_spec h s l i C Hi), Hx. reflexivity.
  - intros Lt. pose proof (assign_unchecked_ok h s l i v C ltac:(lia)) as (h' & E & _). exists h'. split.
    + unfold raw_store, as_slice_mut. cbn [rs_len rs_ptr]. rewrite (proj2 (Z.ltb_lt _ _) Lt). exact E.
    + unfold assign. destruct (Z.leb_spec (ms_len s) i); [lia|]. rewrite E. reflexivity.
  - intros Le. unfold raw_index, raw_store, as_slice, as_slice_mut. cbn [rs_len rs_ptr]. destruct (Z.ltb_spec i (ms_len s)); [lia|]. auto.
Qed.
Print Assumptions C84_raw_slice_same_samples.

Section Ring.
Context {F : Type} {B : Build}.
Definition ring_rel (h : heap F) (d : delay_line) (st : list F * Z) : Prop :=
  covers h (dl_buf d) (fst st) /\ dl_idx d = snd st /\ 0 <= snd st < ms_len (dl_buf d).

Lemma advance_idx (d : delay_line) n : ms_len (dl_buf d) = n -> 4 * n <= isize_max -> 0 <= dl_idx d < n ->
  dl_advance d = Ret (DL (dl_buf d) ((dl_idx d + 1) mod n)).
Proof.
  intros E M H. pose proof usize_isize. unfold dl_advance. rewrite E, usize_sub_ok by lia. cbn [bind]. destruct (Z.eqb_spec (dl_idx d) (n - 1)) as [L|L].
  - rewrite L, Z.sub_add, Z_mod_same_full. reflexivity.
  - rewrite usize_add_ok by lia. cbn [bind]. now rewrite Z.mod_small by lia.
Qed.

Lemma ring_step_ok h d st op : ring_rel h d st -> offset_ok (ms_len (dl_buf d)) op ->
  exists h' d' y, dl_step (h, d) op = Ret (h', d', y) /\ dl_buf d' = dl_buf d /\ ring_rel h' d' (ring_step st op).
Proof.
  destruct st as [l p]. intros (C & I & R) O. cbn [fst snd] in *. pose proof C as (Hl & Hm & _).
  assert (Hp : 0 <= (p + 1) mod Z.of_nat (length l) < ms_len (dl_buf d)) by (rewrite Hl; apply Z.mod_pos_bound; lia).
  destruct op as [|j|v|]; cbn [dl_step ring_step].
  - destruct (nthz_ex l p) as [x Hx]; [lia|]. unfold dl_read. rewrite I, (get_unchecked_ok _ _ _ _ _ C Hx). cbn [bind].
    exists h, d, (Some x). split; [reflexivity|]. split; [reflexivity|]. split; [exact C|]. split; [exact I|exact R].
  - cbn [offset_ok] in O. unfold dl_read_wrapped_at. rewrite as_isize_id by (rewrite isize_min_max; lia). rewrite I, isize_add_ok by lia. cbn [bind].
    destruct (get_wrapped_ok h (dl_buf d) l (p + j) C ltac:(lia) ltac:(unfold is_isize; lia)) as (x & _ & E). rewrite E. cbn [bind].
    exists h, d, (Some x). split; [reflexivity|]. split; [reflexivity|]. split; [exact C|]. split; [exact I|exact R].
  - unfold dl_write_and_advance. rewrite I. destruct (assign_unchecked_ok h (dl_buf d) l p v C ltac:(lia)) as (h' & E & C' & _).
    rewrite E. cbn [bind]. rewrite (advance_idx d (ms_len (dl_buf d))) by (auto; lia). cbn [bind]. rewrite I, Hl.
    eexists _, _, _. split; [reflexivity|]. split; [reflexivity|]. split; [exact C'|]. split; [reflexivity|exact Hp].
  - rewrite (advance_idx d (ms_len (dl_buf d))) by (auto; lia). cbn [bind]. rewrite I, Hl.
    eexists _, _, _. split; [reflexivity|]. split; [reflexivity|]. split; [exact C|]. split; [reflexivity|exact Hp].
Qed.
Lemma ring_run_ok ops : forall h d st, ring_rel h d st -> Forall (offset_ok (ms_len (dl_buf d))) ops ->
  exists h' d' ys, dl_run (h, d) ops = Ret (h', d', ys) /\ dl_buf d' = dl_buf d /\ ring_rel h' d' (fold_left ring_step ops st).
Proof.
  induction ops as [|op ops IH]; intros h d st R O; cbn [dl_run fold_left].
  - exists h, d, []. auto.
  - inversion O as [|? ? O1 O2]; subst. destruct (ring_step_ok h d st op R O1) as (h1 & d1 & y & E1 & B1 & R1). rewrite E1. cbn [bind].
    rewrite <- B1 in O2. destruct (IH h1 d1 _ R1 O2) as (h2 & d2 & ys & E2 & B2 & R2). rewrite E2. cbn [bind].
    exists h2, d2, (y :: ys). split; [reflexivity|]. split; [congruence|exact R2].
Qed.
Lemma ring_length ops : forall (l : list F) p, length (fst (fold_left ring_step ops (l, p))) = length l.
Proof.
  induction ops as [|op ops IH]; intros l p; cbn [fold_left]; [reflexivity|]. destruct op; cbn [ring_step]; rewrite IH; auto. apply upd_length.
Qed.
Lemma ring_pos ops : forall (l : list F) p, 0 <= p < Z.of_nat (length l) ->
  snd (fold_left ring_step ops (l, p)) = (p + Z.of_nat (steps ops)) mod Z.of_nat (length l).
Proof.
  induction ops as [|op ops IH]; intros l p H; cbn [fold_left].
  - unfold steps. cbn. rewrite Z.add_0_r, Z.mod_small by lia. reflexivity.
  - assert (M : 0 <= (p + 1) mod Z.of_nat (length l) < Z.of_nat (length l)) by (apply Z.mod_pos_bound; lia).
    destruct op; cbn [ring_step]; rewrite IH; rewrite ?upd_length; auto; unfold steps; cbn [filter length]; auto.
    + rewrite Zplus_mod_idemp_l. f_equal. lia.
    + rewrite Zplus_mod_idemp_l. f_equal. lia.
Qed.
End Ring.

(** C84: however a delay line has been used, its raw slice is the buffer it was given (same address,
    same length), and its cells in order are those of a plain ring buffer that received the same
    calls. *)
Theorem C84_delay_line_raw_view : forall (F : Type) (B : Build) (h : heap F) s l (ops : list (dl_op F)),
  covers h s l -> 0 < ms_len s -> Forall (offset_ok (ms_len s)) ops ->
  exists h' d' ys, dl_run (h, dl_new s) ops = Ret (h', d', ys) /\
    dl_get_ptr_slice_mut d' = as_slice s /\
    length (fst (ring l ops)) = length l /\
    forall j, 0 <= j < ms_len s -> exists x, nthz (fst (ring l ops)) j = Some x /\ raw_index h' (dl_get_ptr_slice_mut d') j = Ret x.
Proof.
  intros F B h s l ops C Hn O.
  destruct (ring_run_ok ops h (dl_new s) (l, 0)) as (h' & d' & ys & E & Eb & R); [|exact O|].
  { split; [exact C|]. cbn. split; [reflexivity|lia]. }
  exists h', d', ys. split; [exact E|]. cbn in Eb. unfold dl_get_ptr_slice_mut. rewrite Eb. split; [reflexivity|].
  split; [apply ring_length|]. intros j Hj. destruct R as (C' & _ & _). rewrite Eb in C'.
  destruct (nthz_ex (fst (fold_left ring_step ops (l, 0))) j) as [x Hx]; [pose proof C' as (Hl & _); lia|].
  exists x. split; [exact Hx|]. destruct (C84_raw_slice_same_samples F B h' s _ j x C' ltac:(lia)) as (_ & Q & _).
  destruct (Q ltac:(lia)) as (y & Hy & Hr & _). rewrite Hx in Hy. injection Hy as <-. exact Hr.
Qed.
Print Assumptions C84_delay_line_raw_view.

Theorem C84_comb_all_pass_raw_view : forall (F : Type) (NF : Num F) (B : Build) (h : heap F) s l,
  covers h s l -> 0 < ms_len s ->
  (forall (ops : list (comb_op F)) h' c' ys, comb_run h (cb_new s) ops = Ret (h', c', ys) -> cb_get_ptr_slice_mut c' = as_slice s) /\
  (forall xs h' a' ys, ap_run h (ap_new s) xs = Ret (h', a', ys) -> ap_get_ptr_slice_mut a' = as_slice s).
Proof.
  intros F NF B h s l C Hn. unfold cb_get_ptr_slice_mut, ap_get_ptr_slice_mut, dl_get_ptr_slice_mut. 
  assert (W : forall (h : heap F) d v h' d', dl_write_and_advance h d v = Ret (h', d') -> dl_buf d' = dl_buf d).
  { intros h0 d v h' d' E. unfold dl_write_and_advance in E. destruct (assign_unchecked _ _ _ _); try discriminate E. cbn [bind] in E.
    unfold dl_advance in E. destruct (usize_sub _ _); try discriminate E. cbn [bind] in E. destruct (_ =? _); cbn [bind] in E.
    - now injection E as <- <-.
    - destruct (usize_add _ _); try discriminate E. cbn [bind] in E. now injection E as <- <-. }
  split.
  - intros ops. assert (G : forall ops h (c : comb F) h' c' ys, comb_run h c ops = Ret (h', c', ys) -> dl_buf (cb_dl c') = dl_buf (cb_dl c)).
    { clear - W. induction ops as [|op ops IH]; intros h c h' c' ys E; cbn [comb_run] in E.
      - now injection E as <- <- <-.
      - destruct op as [x|v|v]; [|now rewrite (IH _ _ _ _ _ E)..].
        unfold cb_tick in E. destruct (dl_read h (cb_dl c)); try discriminate E. cbn [bind] in E.
        destruct (dl_write_and_advance _ _ _) as [[h1 d1]| |] eqn:Ew; try discriminate E. cbn [bind] in E.
        destruct (comb_run h1 _ ops) as [[[h2 c2] ys2]| |] eqn:E2; try discriminate E. cbn [bind] in E. injection E as <- <- <-.
        rewrite (IH _ _ _ _ _ E2). cbn. exact (W _ _ _ _ _ Ew). }
    intros h' c' ys E. rewrite (G _ _ _ _ _ _ E). reflexivity.
  - intros xs. assert (G : forall xs h a h' a' ys, ap_run h a xs = Ret (h', a', ys) -> dl_buf (ap_dl a') = dl_buf (ap_dl a)).
    { clear - W. induction xs as [|x xs IH]; intros h a h' a' ys E; cbn [ap_run] in E.
      - now injection E as <- <- <-.
      - unfold ap_tick in E. destruct (dl_read h (ap_dl a)); try discriminate E. cbn [bind] in E.
        destruct (dl_write_and_advance _ _ _) as [[h1 d1]| |] eqn:Ew; try discriminate E. cbn [bind] in E.
        destruct (ap_run h1 _ xs) as [[[h2 c2] ys2]| |] eqn:E2; try discriminate E. cbn [bind] in E. injection E as <- <- <-.
        rewrite (IH _ _ _ _ _ E2). cbn. exact (W _ _ _ _ _ Ew). }
    intros h' a' ys E. rewrite (G _ _ _ _ _ _ E). reflexivity.
Qed.
Print Assumptions C84_comb_all_pass_raw_view.

(** C84: a sample stored through the raw slice is what the line reads when its position comes to
    that cell, and no other tap changes: with p position steps taken so far, a tap at offset k reads
    the new sample iff p + k = j modulo the length. *)
Theorem C84_raw_store_seen : forall (F : Type) (B : Build) (h : heap F) s l (ops : list (dl_op F)) h' d' ys j v,
  covers h s l -> 0 < ms_len s -> Forall (offset_ok (ms_len s)) ops -> dl_run (h, dl_new s) ops = Ret (h', d', ys) ->
  0 <= j < ms_len s ->
  exists h2, raw_store h' (dl_get_ptr_slice_mut d') j v = Ret h2 /\
    forall k, isize_min <= k /\ k + (ms_len s - 1) <= isize_max ->
      dl_read_wrapped_at h2 d' k =
        if (Z.of_nat (steps ops) + k) mod ms_len s =? j then Ret v else dl_read_wrapped_at h' d' k.
Proof.
  intros F B h s l ops h' d' ys j v C Hn O E Hj.
  destruct (ring_run_ok ops h (dl_new s) (l, 0)) as (h1 & d1 & ys1 & E1 & Eb & R); [|exact O|].
  { split; [exact C|]. cbn. split; [reflexivity|lia]. }
  rewrite E in E1. injection E1 as <- <- <-. cbn in Eb. destruct R as (C' & I & RI). rewrite Eb in C', RI.
  pose proof C as (Hl & Hm & _). rewrite ring_pos in I, RI by lia. rewrite Z.add_0_l, <- Hl in I, RI.
  set (l' := fst (fold_left ring_step ops (l, 0))) in *. pose proof C' as (Hl' & _).
  destruct (assign_unchecked_ok h' s l' j v C' Hj) as (h2 & E2 & C2 & _). exists h2. split.
  { unfold raw_store, dl_get_ptr_slice_mut. rewrite Eb. cbn [rs_len rs_ptr as_slice_mut]. rewrite (proj2 (Z.ltb_lt _ _) (proj2 Hj)). exact E2. }
  intros k Hk. unfold dl_read_wrapped_at. rewrite I, Eb. set (p := Z.of_nat (steps ops) mod ms_len s) in *.
  rewrite as_isize_id by (rewrite isize_min_max; lia). rewrite isize_add_ok by lia. cbn [bind].
  destruct (get_wrapped_ok h2 s _ (p + k) C2 Hn ltac:(unfold is_isize; lia)) as (x & Hx & Ex).
  destruct (get_wrapped_ok h' s _ (p + k) C' Hn ltac:(unfold is_isize; lia)) as (y & Hy & Ey). rewrite Ex, Ey.
  rewrite nthz_upd in Hx by lia. unfold p in Hx, Hy. rewrite Zplus_mod_idemp_l in Hx, Hy.
  destruct ((Z.of_nat (steps ops) + k) mod ms_len s =? j); congruence.
Qed.
Print Assumptions C84_raw_store_seen.

(** Three cells, four writes and an advance: cell 0 was written again, the position is at cell 2. *)
Example C84_met : let B := {| ptr_w := W32; ovf_checks := true |} in
  let h := [[10; 11; 12]] in let s := from_slice 0 0 3 in
  let ops := [DWrite 1; DWrite 2; DWrite 3; DRead; DAdvance; DWrite 5] in
  covers h s [10; 11; 12] /\ Forall (offset_ok 3) ops /\ ring [10; 11; 12] ops = ([1; 5; 3], 2) /\
  exists h' d' ys, dl_run (h, dl_new s) ops = Ret (h', d', ys) /\
    raw_index h' (dl_get_ptr_slice_mut d') 1 = Ret 5 /\ raw_index h' (dl_get_ptr_slice_mut d') 3 = Panic.
Proof.
  cbv zeta. split; [|split].
  - split; [reflexivity|]. split; [vm_compute; discriminate|]. exists [], []. split; reflexivity.
  - repeat constructor.
  - split; [reflexivity|]. eexists _, _, _. split; [reflexivity|]. split; reflexivity.
Qed.
