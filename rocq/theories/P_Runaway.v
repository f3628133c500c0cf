(** * Lemmas for C109. *)

From Coq Require Import ZArith List Bool Lia.
From Verif Require Import Base Num M_Memory M_Delay S_Memory S_Delay S_Runaway P_Memory P_Delay.
Import ListNotations.
Open Scope Z_scope.

Section Runaway.
Context {F : Type} {NF : Num F} {B : Build}.
Implicit Types (h : heap F) (s r : mslice).

(** A line over [s] at [p + k] and a line over [r] at [k] stand on the same sample, [r] ending its allocation. *)
Definition level h s r p : Prop := exists b o blk,
  ms_ptr s = PAt b o /\ nth_error h b = Some blk /\ 0 <= o /\ 1 <= ms_len s <= p /\
  r = MS (PAt b (o + p)) (Z.max 0 (Z.of_nat (length blk) - (o + p))) /\ 4 * Z.of_nat (length blk) <= isize_max.

Lemma level_start h d l : heap_ok h -> covers h (dl_buf d) l -> past_end d ->
  level h (dl_buf d) (rest h (dl_buf d) (dl_idx d)) (dl_idx d).
Proof.
  intros Hk (Hl & Hm & Hp) P. unfold past_end in P. unfold level, rest. destruct (ms_ptr (dl_buf d)) as [|b o].
  - subst l. simpl in Hl. lia.
  - destruct Hp as (pre & post & E & ->). rewrite E. do 3 eexists.
    split; [reflexivity|]. split; [exact E|]. split; [lia|]. split; [exact P|]. split; [reflexivity|].
    exact (Hk _ _ E).
Qed.

Lemma level_read h s r p k : level h s r p -> 0 <= k -> get_unchecked h s (p + k) = get_unchecked h r k.
Proof.
  intros (b & o & blk & E & N & Ho & _ & -> & _) Hk. unfold get_unchecked. rewrite E. cbn [ms_ptr ptr_add].
  rewrite N. now replace (o + (p + k)) with (o + p + k) by lia.
Qed.
Lemma level_assign h s r p k v : level h s r p -> 0 <= k -> assign_unchecked h s (p + k) v = assign_unchecked h r k v.
Proof.
  intros (b & o & blk & E & N & Ho & _ & -> & _) Hk. unfold assign_unchecked. rewrite E. cbn [ms_ptr ptr_add].
  rewrite N. now replace (o + (p + k)) with (o + p + k) by lia.
Qed.
Lemma level_read_past h s r p k : level h s r p -> ms_len r <= k -> get_unchecked h s (p + k) = UB.
Proof.
  intros (b & o & blk & E & N & Ho & _ & -> & _) Hk. cbn [ms_len] in Hk. destruct s as [q n]. cbn in E. subst q.
  apply get_unchecked_past with blk; [exact N|lia].
Qed.
Lemma level_read_some h s r p k : level h s r p -> 0 <= k < ms_len r -> exists v, get_unchecked h r k = Ret v.
Proof.
  intros (b & o & blk & E & N & Ho & Hs & -> & _) Hk. cbn [ms_len] in Hk. destruct (nthz_ex blk (o + p + k)) as [v Hv]; [lia|].
  exists v. unfold get_unchecked. cbn [ms_ptr ptr_add]. rewrite N.
  rewrite (proj2 (Z.leb_le _ _)), (proj2 (Z.leb_le _ _)) by lia. cbn [andb bind ptr_read]. unfold cell. now rewrite N, Hv.
Qed.
Lemma level_assign_some h s r p k v : level h s r p -> 0 <= k < ms_len r ->
  exists h', assign_unchecked h r k v = Ret h' /\ level h' s r p /\
    forall b o, addr s (p + k) = Some (b, o) -> forall bb oo, cell h' bb oo = if (Nat.eqb b bb && (o =? oo))%bool then Some v else cell h bb oo.
Proof.
  intros (b & o & blk & E & N & Ho & Hs & -> & Hk4) Hk. cbn [ms_len] in Hk. destruct (nthz_ex blk (o + p + k)) as [w Hw]; [lia|].
  exists (upd h b (upd blk (Z.to_nat (o + p + k)) v)). split; [|split].
  - unfold assign_unchecked. cbn [ms_ptr ptr_add]. rewrite N.
    rewrite (proj2 (Z.leb_le _ _)), (proj2 (Z.leb_le _ _)) by lia. cbn [andb bind ptr_write]. unfold cell. now rewrite N, Hw.
  - exists b, o, (upd blk (Z.to_nat (o + p + k)) v). split; [exact E|]. split.
    { rewrite nth_error_upd, Nat.eqb_refl. assert (Hb : (b < length h)%nat) by (apply nth_error_Some; congruence).
      now rewrite (proj2 (Nat.ltb_lt _ _) Hb). }
    rewrite upd_length. auto.
  - intros b' o' A bb oo. unfold addr in A. rewrite E in A. injection A as <- <-.
    replace (o + (p + k)) with (o + p + k) by lia. apply cell_write; [exact N|lia].
Qed.

(** The line over [r], modulo the wrap at its end. *)
Definition at_ r k : delay_line := DL r (if k =? ms_len r then 0 else k).

Lemma level_write h s r p k v : level h s r p -> 0 <= k < ms_len r ->
  exists h', dl_write_and_advance h (DL s (p + k)) v = Ret (h', DL s (p + (k + 1))) /\
    dl_write_and_advance h (at_ r k) v = Ret (h', at_ r (k + 1)) /\ level h' s r p /\
    forall b o, addr s (p + k) = Some (b, o) -> forall bb oo, cell h' bb oo = if (Nat.eqb b bb && (o =? oo))%bool then Some v else cell h bb oo.
Proof.
  intros L Hk. destruct (level_assign_some h s r p k v L Hk) as (h' & A & L' & Cl). exists h'.
  pose proof (level_assign h s r p k v L) as A'. rewrite A in A'.
  destruct L as (b & o & blk & E & N & Ho & Hs & Er & H4).
  assert (Hr : ms_len r <= isize_max) by (subst r; cbn [ms_len]; lia).
  pose proof usize_isize as IU.
  split; [|split; [|split; [exact L'|exact Cl]]]; unfold dl_write_and_advance, at_; cbn [dl_buf dl_idx].
  - rewrite A' by lia. cbn [bind]. unfold dl_advance. cbn [dl_buf dl_idx].
    rewrite usize_sub_ok by lia. cbn [bind]. destruct (Z.eqb_spec (p + k) (ms_len s - 1)); [lia|].
    rewrite usize_add_ok by (subst r; cbn [ms_len] in *; lia). cbn [bind]. do 2 f_equal. f_equal. lia.
  - destruct (Z.eqb_spec k (ms_len r)); [lia|]. rewrite A. cbn [bind]. unfold dl_advance. cbn [dl_buf dl_idx].
    rewrite usize_sub_ok by lia. cbn [bind].
    destruct (Z.eqb_spec k (ms_len r - 1)); destruct (Z.eqb_spec (k + 1) (ms_len r)); try lia; [reflexivity|].
    now rewrite usize_add_ok by lia.
Qed.


Lemma at_read h s r p k : level h s r p -> 0 <= k < ms_len r ->
  exists v, dl_read h (DL s (p + k)) = Ret v /\ dl_read h (at_ r k) = Ret v.
Proof.
  intros L Hk. destruct (level_read_some h s r p k L Hk) as (v & Rv). exists v.
  unfold dl_read, at_. cbn [dl_buf dl_idx]. destruct (Z.eqb_spec k (ms_len r)); [lia|].
  rewrite (level_read h s r p k L) by lia. auto.
Qed.
Lemma past_read h s r p k : level h s r p -> ms_len r <= k -> dl_read h (DL s (p + k)) = UB.
Proof. exact (level_read_past h s r p k). Qed.

Lemma line_runs (ws : list F) : forall h s r p k, level h s r p -> 0 <= k -> k + Z.of_nat (length ws) <= ms_len r ->
  exists h' ys, dl_run (h, DL s (p + k)) (rw_ops ws) = Ret (h', DL s (p + (k + Z.of_nat (length ws))), ys) /\
    dl_run (h, at_ r k) (rw_ops ws) = Ret (h', at_ r (k + Z.of_nat (length ws)), ys).
Proof.
  induction ws as [|w ws IH]; intros h s r p k L Hk Hl.
  - exists h, []. cbn [length rw_ops dl_run]. rewrite !Z.add_0_r. auto.
  - cbn [length] in Hl. rewrite Nat2Z.inj_succ in Hl.
    assert (Hk' : 0 <= k < ms_len r) by lia.
    destruct (at_read h s r p k L Hk') as (v & R1 & R2).
    destruct (level_write h s r p k w L Hk') as (h1 & W1 & W2 & L1 & _).
    destruct (IH h1 s r p (k + 1) L1) as (h' & ys & Q1 & Q2); [lia|lia|].
    exists h', (Some v :: None :: ys).
    replace (k + Z.of_nat (length (w :: ws))) with (k + 1 + Z.of_nat (length ws)) by (cbn [length]; lia).
    cbn [rw_ops dl_run dl_step]. rewrite R1, R2. cbn [bind dl_run dl_step]. rewrite W1, W2. cbn [bind]. rewrite Q1, Q2. auto.
Qed.

Lemma line_cells (ws : list F) : forall h s r p k b o h' d' ys, level h s r p -> 0 <= k -> k + Z.of_nat (length ws) <= ms_len r ->
  addr s (p + k) = Some (b, o) -> dl_run (h, DL s (p + k)) (rw_ops ws) = Ret (h', d', ys) ->
  (forall bb oo, cell h' bb oo = match (if Nat.eqb b bb then nthz ws (oo - o) else None) with Some w => Some w | None => cell h bb oo end) /\
  (forall m, (m < length ws)%nat -> nth_error ys (2 * m) = Some (cell h b (o + Z.of_nat m))).
Proof.
  induction ws as [|w ws IH]; intros h s r p k b o h' d' ys L Hk Hl Ha E.
  - cbn in E. injection E as <- <- <-. split; [|intros m Hm; cbn in Hm; lia].
    intros bb oo. destruct (Nat.eqb b bb); [|reflexivity]. now rewrite nthz_None by (cbn [length]; lia).
  - cbn [length] in Hl. rewrite Nat2Z.inj_succ in Hl.
    assert (Hk' : 0 <= k < ms_len r) by lia.
    destruct (at_read h s r p k L Hk') as (v & R1 & _).
    destruct (level_write h s r p k w L Hk') as (h1 & W1 & _ & L1 & Cl). specialize (Cl b o Ha).
    cbn [rw_ops dl_run dl_step] in E. rewrite R1 in E. cbn [bind dl_run dl_step] in E. rewrite W1 in E. cbn [bind] in E.
    destruct (dl_run (h1, DL s (p + (k + 1))) (rw_ops ws)) as [[[h2 d2] ys2]| |] eqn:E2; cbn [bind] in E; try discriminate.
    injection E as <- <- <-.
    assert (Ha1 : addr s (p + (k + 1)) = Some (b, o + 1)).
    { unfold addr in *. destruct (ms_ptr s); [discriminate|]. injection Ha as <- <-. f_equal. f_equal. lia. }
    destruct (IH h1 s r p (k + 1) b (o + 1) h2 d2 ys2 L1 ltac:(lia) ltac:(lia) Ha1 E2) as (I1 & I2).
    split.
    + intros bb oo. rewrite I1, Cl. destruct (Nat.eqb_spec b bb) as [<-|]; [|reflexivity]. cbn [andb].
      destruct (Z.eqb_spec o oo) as [<-|Ne].
      * rewrite nthz_None by lia. now replace (o - o) with 0 by lia.
      * destruct (Z.lt_ge_cases oo o) as [Hlt|Hge].
        { rewrite !nthz_None by lia. reflexivity. }
        assert (Es : nthz (w :: ws) (oo - o) = nthz ws (oo - (o + 1))).
        { unfold nthz. rewrite !(proj2 (Z.ltb_ge _ _)) by lia. replace (Z.to_nat (oo - o)) with (S (Z.to_nat (oo - (o + 1)))) by lia. reflexivity. }
        now rewrite Es.
    + intros [|m] Hm.
      * cbn. do 2 f_equal. unfold dl_read, get_unchecked in R1. cbn [dl_buf dl_idx] in R1. unfold addr in Ha.
        destruct (ms_ptr s) as [|b0 o0]; [discriminate|]. injection Ha as <- <-. cbn [ptr_add] in R1.
        destruct (nth_error h b0) as [blk|] eqn:N; [|discriminate].
        destruct ((0 <=? o0 + (p + k)) && (o0 + (p + k) <=? Z.of_nat (length blk))); [|discriminate]. cbn [bind ptr_read] in R1.
        rewrite Z.add_0_r. destruct (cell h b0 (o0 + (p + k))); [congruence|discriminate].
      * replace (2 * S m)%nat with (S (S (2 * m))) by lia. cbn [nth_error]. cbn [length] in Hm. rewrite I2 by lia.
        rewrite Cl. destruct (Z.eqb_spec o (o + 1 + Z.of_nat m)); [lia|]. rewrite andb_false_r. do 2 f_equal. lia.
Qed.
Lemma line_ends (ws : list F) : forall h s r p k, level h s r p -> 0 <= k <= ms_len r -> ms_len r < k + Z.of_nat (length ws) ->
  dl_run (h, DL s (p + k)) (rw_ops ws) = UB.
Proof.
  induction ws as [|w ws IH]; intros h s r p k L Hk Hl; [cbn [length] in Hl; lia|].
  cbn [length] in Hl. rewrite Nat2Z.inj_succ in Hl. cbn [rw_ops dl_run dl_step].
  destruct (Z.eq_dec k (ms_len r)) as [->|Ne].
  - rewrite (past_read h s r p (ms_len r) L) by lia. reflexivity.
  - destruct (at_read h s r p k L) as (v & R1 & R2); [lia|].
    destruct (level_write h s r p k w L) as (h1 & W1 & W2 & L1 & _); [lia|].
    rewrite R1. cbn [bind dl_run dl_step]. rewrite W1. cbn [bind]. rewrite (IH h1 s r p (k + 1) L1) by lia. reflexivity.
Qed.

Lemma all_pass_runs (xs : list F) : forall h s r p k, level h s r p -> 0 <= k -> k + Z.of_nat (length xs) <= ms_len r ->
  exists h' ys, ap_run h (AP (DL s (p + k))) xs = Ret (h', AP (DL s (p + (k + Z.of_nat (length xs)))), ys) /\
    ap_run h (AP (at_ r k)) xs = Ret (h', AP (at_ r (k + Z.of_nat (length xs))), ys).
Proof.
  induction xs as [|x xs IH]; intros h s r p k L Hk Hl.
  - exists h, []. cbn [length ap_run]. rewrite !Z.add_0_r. auto.
  - cbn [length] in Hl. rewrite Nat2Z.inj_succ in Hl.
    assert (Hk' : 0 <= k < ms_len r) by lia.
    destruct (at_read h s r p k L Hk') as (v & R1 & R2).
    destruct (level_write h s r p k (nadd x (nmul v (ndy 1 (-1)))) L Hk') as (h1 & W1 & W2 & L1 & _).
    destruct (IH h1 s r p (k + 1) L1) as (h' & ys & Q1 & Q2); [lia|lia|].
    exists h', (nadd (nneg x) v :: ys).
    replace (k + Z.of_nat (length (x :: xs))) with (k + 1 + Z.of_nat (length xs)) by (cbn [length]; lia).
    cbn [ap_run]. unfold ap_tick. cbn [ap_dl]. rewrite R1, R2. cbn [bind]. rewrite W1, W2. cbn [bind]. rewrite Q1, Q2. auto.
Qed.
Lemma all_pass_ends (xs : list F) : forall h s r p k, level h s r p -> 0 <= k <= ms_len r -> ms_len r < k + Z.of_nat (length xs) ->
  ap_run h (AP (DL s (p + k))) xs = UB.
Proof.
  induction xs as [|x xs IH]; intros h s r p k L Hk Hl; [cbn [length] in Hl; lia|].
  cbn [length] in Hl. rewrite Nat2Z.inj_succ in Hl. cbn [ap_run]. unfold ap_tick. cbn [ap_dl].
  destruct (Z.eq_dec k (ms_len r)) as [->|Ne].
  - rewrite (past_read h s r p (ms_len r) L) by lia. reflexivity.
  - destruct (at_read h s r p k L) as (v & R1 & R2); [lia|].
    destruct (level_write h s r p k (nadd x (nmul v (ndy 1 (-1)))) L) as (h1 & W1 & W2 & L1 & _); [lia|].
    rewrite R1. cbn [bind]. rewrite W1. cbn [bind]. rewrite (IH h1 s r p (k + 1) L1) by lia. reflexivity.
Qed.

Lemma comb_runs (ops : list (comb_op F)) : forall h s r p k fb st da di, level h s r p -> 0 <= k ->
  k + Z.of_nat (comb_ticks ops) <= ms_len r ->
  exists h' ys fb' st' da' di',
    comb_run h (CB (DL s (p + k)) fb st da di) ops = Ret (h', CB (DL s (p + (k + Z.of_nat (comb_ticks ops)))) fb' st' da' di', ys) /\
    comb_run h (CB (at_ r k) fb st da di) ops = Ret (h', CB (at_ r (k + Z.of_nat (comb_ticks ops))) fb' st' da' di', ys).
Proof.
  induction ops as [|[x|v|v] ops IH]; intros h s r p k fb st da di L Hk Hl.
  - exists h, [], fb, st, da, di. cbn [comb_ticks comb_run]. rewrite !Z.add_0_r. auto.
  - cbn [comb_ticks] in *. rewrite Nat2Z.inj_succ in *.
    assert (Hk' : 0 <= k < ms_len r) by lia.
    destruct (at_read h s r p k L Hk') as (v & R1 & R2).
    set (st1 := nadd (nmul v di) (nmul st da)).
    destruct (level_write h s r p k (nadd x (nmul st1 fb)) L Hk') as (h1 & W1 & W2 & L1 & _).
    destruct (IH h1 s r p (k + 1) fb st1 da di L1) as (h' & ys & fb' & st' & da' & di' & Q1 & Q2); [lia|lia|].
    exists h', (v :: ys), fb', st', da', di'.
    replace (k + Z.succ (Z.of_nat (comb_ticks ops))) with (k + 1 + Z.of_nat (comb_ticks ops)) by lia.
    cbn [comb_run]. unfold cb_tick. cbn [cb_dl cb_damp cb_damp_inv cb_state cb_feedback]. rewrite R1, R2. cbn [bind]. fold st1.
    rewrite W1, W2. cbn [bind]. rewrite Q1, Q2. auto.
  - cbn [comb_ticks comb_run] in *. unfold cb_set_dampening. cbn [cb_dl cb_damp cb_damp_inv cb_state cb_feedback]. apply IH; assumption.
  - cbn [comb_ticks comb_run] in *. unfold cb_set_feedback. cbn [cb_dl cb_damp cb_damp_inv cb_state cb_feedback]. apply IH; assumption.
Qed.
Lemma comb_ends (ops : list (comb_op F)) : forall h s r p k fb st da di, level h s r p -> 0 <= k <= ms_len r ->
  ms_len r < k + Z.of_nat (comb_ticks ops) -> comb_run h (CB (DL s (p + k)) fb st da di) ops = UB.
Proof.
  induction ops as [|[x|v|v] ops IH]; intros h s r p k fb st da di L Hk Hl.
  - cbn [comb_ticks] in Hl. lia.
  - cbn [comb_ticks] in *. rewrite Nat2Z.inj_succ in *. cbn [comb_run]. unfold cb_tick. cbn [cb_dl cb_damp cb_damp_inv cb_state cb_feedback].
    destruct (Z.eq_dec k (ms_len r)) as [->|Ne].
    + rewrite (past_read h s r p (ms_len r) L) by lia. reflexivity.
    + destruct (at_read h s r p k L) as (v & R1 & R2); [lia|].
      set (st1 := nadd (nmul v di) (nmul st da)).
      destruct (level_write h s r p k (nadd x (nmul st1 fb)) L) as (h1 & W1 & W2 & L1 & _); [lia|].
      rewrite R1. cbn [bind]. fold st1. rewrite W1. cbn [bind]. rewrite (IH h1 s r p (k + 1) fb st1 da di L1) by lia. reflexivity.
  - cbn [comb_ticks comb_run] in *. unfold cb_set_dampening. cbn [cb_dl cb_damp cb_damp_inv cb_state cb_feedback]. apply (IH h s r p k); assumption.
  - cbn [comb_ticks comb_run] in *. unfold cb_set_feedback. cbn [cb_dl cb_damp cb_damp_inv cb_state cb_feedback]. apply (IH h s r p k); assumption.
Qed.

(** The rest of the allocation and the buffer have no sample in common. *)
Lemma rest_outside h d l b o : covers h (dl_buf d) l -> past_end d ->
  in_slice (rest h (dl_buf d) (dl_idx d)) b o -> ~ in_slice (dl_buf d) b o.
Proof.
  intros (Hl & _ & Hp) P (i & Hi & Ai) (j & Hj & Aj). unfold past_end in P. unfold rest, addr in *.
  destruct (ms_ptr (dl_buf d)) as [|b0 o0]; [discriminate|]. destruct Hp as (pre & post & E & ->). rewrite E in *.
  cbn [ms_ptr ms_len] in *. injection Ai as <- <-. injection Aj as Ej. lia.
Qed.
End Runaway.
