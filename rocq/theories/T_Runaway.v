(** * C109: a unit past the end of its buffer runs through the memory behind it.

    [change_buffer] keeps the position of a line (C20).  If the new buffer is not longer than that position and is part
    of a larger allocation, nothing stops the line, and its position never wraps again: it is only reset when it is
    exactly one less than the length (src/delay_line.rs:49, 57).  Memory as in M_Memory.v: an access is undefined
    behaviour where the allocation ends. *)

From Coq Require Import ZArith List Bool Lia.
From Verif Require Import Base F32 Num M_Memory M_Delay S_Memory S_Delay S_Runaway P_Memory P_Delay P_Rack P_Runaway Examples.
Import ListNotations.
Open Scope Z_scope.

(** The m-th read returns, and the m-th write overwrites, the m-th sample behind the position, which belongs to the
    allocation but not to the buffer; no other sample changes and the position only grows.  The line behaves as one
    that was given the rest of the allocation as its buffer, until that is used up: then it is undefined behaviour. *)
Theorem C109_line_runs_on_refuted : forall (F : Type) (NF : Num F) (B : Build) (h : heap F) (d : delay_line) l (ws : list F) b o,
  heap_ok h -> covers h (dl_buf d) l -> past_end d -> addr (dl_buf d) (dl_idx d) = Some (b, o) ->
  let r := rest h (dl_buf d) (dl_idx d) in
  (forall b o, in_slice r b o -> ~ in_slice (dl_buf d) b o) /\
  (Z.of_nat (length ws) <= ms_len r ->
     exists h' d' e' ys, dl_run (h, d) (rw_ops ws) = Ret (h', d', ys) /\ dl_run (h, dl_new r) (rw_ops ws) = Ret (h', e', ys) /\
       d' = DL (dl_buf d) (dl_idx d + Z.of_nat (length ws)) /\
       (forall m, (m < length ws)%nat -> nth_error ys (2 * m) = Some (cell h b (o + Z.of_nat m))) /\
       (forall m w, nth_error ws m = Some w -> cell h' b (o + Z.of_nat m) = Some w) /\
       (forall b' o', ~ (b' = b /\ o <= o' < o + Z.of_nat (length ws)) -> cell h' b' o' = cell h b' o')) /\
  (ms_len r < Z.of_nat (length ws) -> dl_run (h, d) (rw_ops ws) = UB).
Proof.
  intros F NF B h d l ws b o Hk C P Ha r. pose proof (level_start h d l Hk C P) as L. fold r in L.
  assert (Ed : d = DL (dl_buf d) (dl_idx d + 0)) by (rewrite Z.add_0_r; now destruct d).
  assert (Hr : 0 <= ms_len r) by (destruct L as (b0 & o0 & blk & _ & _ & _ & _ & -> & _); cbn [ms_len]; lia).
  split; [|split].
  - intros b' o'. exact (rest_outside h d l b' o' C P).
  - intros Hl. destruct (line_runs ws h (dl_buf d) r (dl_idx d) 0 L ltac:(lia) ltac:(lia)) as (h' & ys & R1 & R2).
    assert (Ha' : addr (dl_buf d) (dl_idx d + 0) = Some (b, o)) by (rewrite Z.add_0_r; exact Ha).
    destruct (line_cells ws h (dl_buf d) r (dl_idx d) 0 b o _ _ _ L ltac:(lia) ltac:(lia) Ha' R1) as (K1 & K2).
    exists h', (DL (dl_buf d) (dl_idx d + Z.of_nat (length ws))), (at_ r (0 + Z.of_nat (length ws))), ys.
    split; [rewrite Ed at 1; exact R1|]. split.
    { unfold at_ in R2 at 1. replace (if 0 =? ms_len r then 0 else 0) with 0 in R2 by (now destruct (0 =? ms_len r)). exact R2. }
    split; [reflexivity|]. split; [exact K2|]. split.
    + intros m w Hm. rewrite K1, Nat.eqb_refl. replace (o + Z.of_nat m - o) with (Z.of_nat m) by lia.
      unfold nthz. rewrite (proj2 (Z.ltb_ge _ _)) by lia. now rewrite Nat2Z.id, Hm.
    + intros b' o' N. rewrite K1. destruct (Nat.eqb_spec b b') as [<-|]; [|reflexivity].
      destruct (Z.lt_ge_cases o' o); [now rewrite nthz_None by lia|].
      destruct (Z.lt_ge_cases o' (o + Z.of_nat (length ws))); [exfalso; apply N; split; [reflexivity|lia]|now rewrite nthz_None by lia].
  - intros Hl. rewrite Ed at 1. exact (line_ends ws h (dl_buf d) r (dl_idx d) 0 L ltac:(lia) ltac:(lia)).
Qed.
Print Assumptions C109_line_runs_on_refuted.

(** The comb and the all-pass likewise: as if they had been given the rest of the allocation, then undefined. *)
Theorem C109_comb_runs_on_refuted : forall (F : Type) (NF : Num F) (B : Build) (h : heap F) (c : comb F) l (ops : list (comb_op F)),
  heap_ok h -> covers h (dl_buf (cb_dl c)) l -> past_end (cb_dl c) ->
  let r := rest h (dl_buf (cb_dl c)) (dl_idx (cb_dl c)) in
  (Z.of_nat (comb_ticks ops) <= ms_len r -> exists h' c' e' ys,
     comb_run h c ops = Ret (h', c', ys) /\ comb_run h (over c r) ops = Ret (h', e', ys) /\
     dl_idx (cb_dl c') = dl_idx (cb_dl c) + Z.of_nat (comb_ticks ops)) /\
  (ms_len r < Z.of_nat (comb_ticks ops) -> comb_run h c ops = UB).
Proof.
  intros F NF B h [d fb st da di] l ops Hk C P r. cbn [cb_dl] in *. pose proof (level_start h d l Hk C P) as L. fold r in L.
  assert (Ed : d = DL (dl_buf d) (dl_idx d + 0)) by (rewrite Z.add_0_r; now destruct d).
  assert (Hr : 0 <= ms_len r) by (destruct L as (b0 & o0 & blk & _ & _ & _ & _ & -> & _); cbn [ms_len]; lia).
  split.
  - intros Hl. destruct (comb_runs ops h (dl_buf d) r (dl_idx d) 0 fb st da di L ltac:(lia) ltac:(lia))
      as (h' & ys & fb' & st' & da' & di' & R1 & R2).
    do 4 eexists. split; [rewrite Ed at 1; exact R1|]. split.
    { unfold at_ in R2 at 1. replace (if 0 =? ms_len r then 0 else 0) with 0 in R2 by (now destruct (0 =? ms_len r)). exact R2. }
    cbn [cb_dl dl_idx]. lia.
  - intros Hl. rewrite Ed at 1. exact (comb_ends ops h (dl_buf d) r (dl_idx d) 0 fb st da di L ltac:(lia) ltac:(lia)).
Qed.
Print Assumptions C109_comb_runs_on_refuted.

Theorem C109_all_pass_runs_on_refuted : forall (F : Type) (NF : Num F) (B : Build) (h : heap F) (a : all_pass) l (xs : list F),
  heap_ok h -> covers h (dl_buf (ap_dl a)) l -> past_end (ap_dl a) ->
  let r := rest h (dl_buf (ap_dl a)) (dl_idx (ap_dl a)) in
  (Z.of_nat (length xs) <= ms_len r -> exists h' a' e' ys,
     ap_run h a xs = Ret (h', a', ys) /\ ap_run h (ap_new r) xs = Ret (h', e', ys) /\
     dl_idx (ap_dl a') = dl_idx (ap_dl a) + Z.of_nat (length xs)) /\
  (ms_len r < Z.of_nat (length xs) -> ap_run h a xs = UB).
Proof.
  intros F NF B h [d] l xs Hk C P r. cbn [ap_dl] in *. pose proof (level_start h d l Hk C P) as L. fold r in L.
  assert (Ed : d = DL (dl_buf d) (dl_idx d + 0)) by (rewrite Z.add_0_r; now destruct d).
  assert (Hr : 0 <= ms_len r) by (destruct L as (b0 & o0 & blk & _ & _ & _ & _ & -> & _); cbn [ms_len]; lia).
  split.
  - intros Hl. destruct (all_pass_runs xs h (dl_buf d) r (dl_idx d) 0 L ltac:(lia) ltac:(lia)) as (h' & ys & R1 & R2).
    do 4 eexists. split; [rewrite Ed at 1; exact R1|]. split.
    { unfold at_ in R2 at 1. replace (if 0 =? ms_len r then 0 else 0) with 0 in R2 by (now destruct (0 =? ms_len r)). exact R2. }
    cbn [ap_dl dl_idx]. lia.
  - intros Hl. rewrite Ed at 1. exact (all_pass_ends xs h (dl_buf d) r (dl_idx d) 0 L ltac:(lia) ltac:(lia)).
Qed.
Print Assumptions C109_all_pass_runs_on_refuted.

Lemma past_step {F} {NF : Num F} {B : Build} (h : heap F) (d : delay_line) l op h' d' y :
  covers h (dl_buf d) l -> past_end d -> dl_idx d + 1 <= usize_max -> dl_step (h, d) op = Ret (h', d', y) ->
  covers h' (dl_buf d) l /\ dl_buf d' = dl_buf d /\ dl_idx d' = dl_idx d + Z.of_nat (steps [op]).
Proof.
  intros C P Hu E. pose proof (covers_len _ _ _ C) as Hl. pose proof usize_isize as IU.
  assert (Adv : dl_advance d = Ret (DL (dl_buf d) (dl_idx d + 1))).
  { unfold dl_advance. unfold past_end in P. rewrite usize_sub_ok by lia. cbn [bind]. destruct (Z.eqb_spec (dl_idx d) (ms_len (dl_buf d) - 1)); [lia|].
    now rewrite usize_add_ok by lia. }
  destruct op as [|j|v|]; cbn [dl_step] in E.
  - destruct (dl_read h d) as [x| |]; cbn [bind] in E; try discriminate. injection E as <- <- <-. cbn. rewrite Z.add_0_r. auto.
  - destruct (dl_read_wrapped_at h d j) as [x| |]; cbn [bind] in E; try discriminate. injection E as <- <- <-. cbn. rewrite Z.add_0_r. auto.
  - unfold dl_write_and_advance in E. destruct (assign_unchecked h (dl_buf d) (dl_idx d) v) as [h1| |] eqn:A; cbn [bind] in E; try discriminate.
    rewrite Adv in E. cbn [bind] in E. injection E as <- <- <-. cbn [dl_buf dl_idx]. split; [|split; reflexivity].
    destruct (store_inv h (dl_buf d) (dl_idx d) v h1 A) as (b & o & Ao & Sh & Ce).
    apply (covers_kept h); [exact Sh| |exact C]. intros b' o' (i & Hi & Ai). rewrite Ce. unfold addr in *.
    destruct (ms_ptr (dl_buf d)) as [|b0 o0]; [discriminate|]. injection Ao as <- <-. injection Ai as <- <-.
    rewrite Nat.eqb_refl. unfold past_end in P. destruct (Z.eqb_spec (o0 + dl_idx d) (o0 + i)); [lia|reflexivity].
  - rewrite Adv in E. cbn [bind] in E. injection E as <- <- <-. cbn. auto.
Qed.

(** The taps of such a line do stay in the buffer, but what they read is frozen: whatever is called, the samples of the
    buffer are those it had, and a tap picks one of them by position and offset modulo its length. *)
Theorem C109_taps_frozen_refuted : forall (F : Type) (NF : Num F) (B : Build) (h : heap F) (d : delay_line) l (ops : list (dl_op F)) h' d' ys j,
  covers h (dl_buf d) l -> past_end d -> dl_run (h, d) ops = Ret (h', d', ys) ->
  let p := dl_idx d + Z.of_nat (steps ops) in
  p <= isize_max -> isize_min <= p + j <= isize_max ->
  covers h' (dl_buf d') l /\ past_end d' /\ dl_idx d' = p /\
  exists v, nthz l ((p + j) mod ms_len (dl_buf d)) = Some v /\ dl_read_wrapped_at h' d' j = Ret v.
Proof.
  intros F NF B h d l ops. revert h d. induction ops as [|op ops IH]; intros h d h' d' ys j C P E p Hp Hj.
  - cbn in E. injection E as <- <- <-. unfold p in *. cbn in *. rewrite Z.add_0_r in *. split; [exact C|]. split; [exact P|]. split; [reflexivity|].
    unfold past_end in P. destruct (get_wrapped_ok h (dl_buf d) l (dl_idx d + j) C ltac:(lia) Hj) as (v & Hv & Rv). exists v. split; [exact Hv|].
    unfold dl_read_wrapped_at. rewrite as_isize_id by (rewrite isize_min_max; lia). rewrite isize_add_ok by lia. exact Rv.
  - cbn [dl_run] in E. destruct (dl_step (h, d) op) as [[[h1 d1] y]| |] eqn:E1; cbn [bind] in E; try discriminate.
    destruct (dl_run (h1, d1) ops) as [[[h2 d2] ys2]| |] eqn:E2; cbn [bind] in E; try discriminate. injection E as <- <- <-.
    assert (St : Z.of_nat (steps (op :: ops)) = Z.of_nat (steps [op]) + Z.of_nat (steps ops)).
    { unfold steps. destruct op; cbn [filter length]; lia. }
    pose proof usize_isize as IU. pose proof P as PL. unfold past_end in PL. unfold p in *. clear p.
    destruct (past_step h d l op h1 d1 y C P) as (C1 & B1 & I1); [lia|exact E1|].
    assert (P1 : past_end d1) by (unfold past_end in *; rewrite B1, I1; lia).
    rewrite <- B1 in C1 |- *. rewrite St in *. rewrite Z.add_assoc, <- I1 in *. apply (IH h1 d1 h2 d2 ys2 j); assumption.
Qed.
Print Assumptions C109_taps_frozen_refuted.

(** The situation is reached by safe calls: a line over the samples 0-3 of an allocation of eight, at position 3, is
    given the two samples 4-5; it then overwrites sample 7 of another buffer, and the second write is undefined. *)
Example C109_met : let B := dbg32 in
  let h := [[0; 1; 2; 3; 4; 5; 6; 7]] in let s1 := MS (PAt 0 0) 4 in let s2 := MS (PAt 0 4) 2 in
  exists h1 d1 ys1, dl_run (h, dl_new s1) (writes [10; 11; 12]) = Ret (h1, d1, ys1) /\
    let d := dl_change_buffer d1 s2 in
    heap_ok h1 /\ covers h1 s2 [4; 5] /\ past_end d /\ rest h1 s2 (dl_idx d) = MS (PAt 0 7) 1 /\
    dl_run (h1, d) (rw_ops [70]) = Ret ([[10; 11; 12; 3; 4; 5; 6; 70]], DL s2 4, [Some 7; None]) /\
    dl_run (h1, d) (rw_ops [70; 71]) = UB.
Proof.
  do 3 eexists. split; [reflexivity|]. split.
  { intros [|[|b]] blk E; cbn in E; try discriminate. injection E as <-. vm_compute. discriminate. }
  split; [split; [reflexivity|]; split; [vm_compute; discriminate|]; exists [10; 11; 12; 3], [6; 7]; split; reflexivity|].
  split; [split; vm_compute; discriminate|]. split; [reflexivity|]. split; reflexivity.
Qed.

Example C109_taps_met : let B := dbg32 in
  let h := [[10; 11; 12; 3; 4; 5; 6; 7]] in let s2 := MS (PAt 0 4) 2 in let d := DL s2 3 in
  exists h' d' ys, covers h s2 [4; 5] /\ past_end d /\ dl_run (h, d) [DWrite 70; DAdvance; DReadAt (-1)] = Ret (h', d', ys) /\
    ys = [None; None; Some 4] /\ dl_read_wrapped_at h' d' (-2) = Ret 5.
Proof.
  do 3 eexists. split; [split; [reflexivity|]; split; [vm_compute; discriminate|]; exists [10; 11; 12; 3], [6; 7]; split; reflexivity|].
  split; [split; vm_compute; discriminate|]. split; [reflexivity|]. split; reflexivity.
Qed.
