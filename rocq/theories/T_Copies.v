(** * Theorems: copies of a unit share its samples but not its position (C108). *)

From Coq Require Import ZArith List Bool Reals Lia.
From Verif Require Import Base F32 F32Lemmas Num M_Memory M_Delay S_Memory S_Delay S_Copies P_Memory P_Delay Examples.
Import ListNotations.
Open Scope Z_scope.

Section Proofs.
Context {F : Type} {B : Build}.
Implicit Types (h : heap F) (s : mslice) (l q : list F) (d : delay_line).

(** A write through a line, seen from a copy made before it. *)
Lemma write_seen h d q v : dl_rel h d q -> exists h' d', dl_write_and_advance h d v = Ret (h', d') /\ dl_advance d = Ret d' /\
  dl_buf d' = dl_buf d /\ dl_rel h' d' (tl q ++ [v]) /\ dl_rel h' d (v :: tl q).
Proof.
  intros R. destruct (write_rel h d q v R) as (h' & d' & Ew & Eb & R' & _).
  destruct (advance_rel h d q R) as (d2 & Ed & _).
  destruct R as (l & C & Hi & ->). pose proof C as (Hl & _).
  destruct (assign_unchecked_ok h (dl_buf d) l (dl_idx d) v C Hi) as (h2 & Ea & C' & _).
  assert (E2 : (h', d') = (h2, d2)).
  { unfold dl_write_and_advance in Ew. rewrite Ea in Ew. cbn [bind] in Ew. rewrite Ed in Ew. cbn [bind] in Ew. congruence. }
  injection E2 as -> ->. exists h2, d2. repeat (split; [assumption|]).
  set (k := Z.to_nat (dl_idx d)) in *. assert (Hk : (k < length l)%nat) by lia.
  exists (upd l k v). split; [exact C'|]. split; [exact Hi|]. fold k.
  destruct (nth_error l k) as [v0|] eqn:Ev; [|apply nth_error_None in Ev; lia].
  rewrite (skipn_cons_nth l k v0 Ev), (skipn_cons_nth (upd l k v) k v) by (apply nth_error_upd_eq; lia). cbn [app tl]. f_equal. f_equal.
  - rewrite upd_split by lia. rewrite skipn_app, (skipn_all2 (firstn k l)) by (rewrite firstn_length; lia).
    rewrite firstn_length. replace (S k - Nat.min k (length l))%nat with 1%nat by lia. reflexivity.
  - rewrite upd_split by lia. rewrite firstn_app, firstn_length. replace (k - Nat.min k (length l))%nat with 0%nat by lia. simpl.
    rewrite app_nil_r. now rewrite firstn_firstn, Nat.min_id.
Qed.

Lemma both_ok : forall xys h d q, dl_rel h d q -> exists h' d' os, both_run h d d xys = Ret (h', d', d', os) /\
  length os = length xys /\
  forall m x y, nth_error xys m = Some (x, y) -> exists u, nth_error os m = Some (u, x) /\ nth_error (q ++ map snd xys) m = Some u.
Proof.
  induction xys as [|[x y] r IH]; intros h d q R.
  - exists h, d, []. split; [reflexivity|]. split; [reflexivity|]. intros [|m] ? ? E; discriminate.
  - destruct (dl_read_ok _ _ _ R) as (u & Eu & Er). destruct (write_seen h d q x R) as (h1 & d1 & E1 & Ea & Eb & R1 & Rc).
    destruct (dl_read_ok _ _ _ Rc) as (v & Ev & Er2). cbn [hd_error] in Ev. injection Ev as <-.
    destruct (write_seen h1 d _ y Rc) as (h2 & d2 & E2 & Ea2 & Eb2 & R2 & _). cbn [tl] in R2.
    assert (d2 = d1) by congruence. subst d2.
    destruct (IH h2 d1 _ R2) as (h3 & d3 & os & E3 & L & N).
    exists h3, d3, ((u, x) :: os). split; [|split; [cbn [length]; now rewrite L|]].
    + cbn [both_run]. rewrite Er. cbn [bind]. rewrite E1. cbn [bind]. rewrite Er2. cbn [bind]. rewrite E2. cbn [bind]. rewrite E3. reflexivity.
    + destruct q as [|u' q]; [discriminate|]. cbn [hd_error] in Eu. injection Eu as ->. cbn [tl] in N.
      intros [|m] x' y' E; cbn [nth_error] in *.
      * injection E as <- <-. exists u. auto.
      * destruct (N m x' y' E) as (w & W1 & W2). exists w. split; [exact W1|]. rewrite <- app_assoc in W2. exact W2.
Qed.

(** ** Read and write heads *)
Lemma read_next h d q : dl_rel h d q -> exists v d', dl_read h d = Ret v /\ dl_advance d = Ret d' /\ dl_buf d' = dl_buf d /\
  hd_error q = Some v /\ dl_rel h d' (tl q ++ [v]).
Proof.
  intros R. destruct (dl_read_ok _ _ _ R) as (v & Ev & Er). destruct (advance_rel h d q R) as (d' & Ed & Eb & R').
  exists v, d'. repeat (split; [assumption|]). destruct q; [discriminate|]. cbn in Ev. injection Ev as ->. exact R'.
Qed.

(** A write [k] cells ahead of the read head. *)
Lemma write_ahead h a b q (k : nat) v : dl_rel h b q -> dl_buf a = dl_buf b -> (k < length q)%nat ->
  dl_idx a = (dl_idx b + Z.of_nat k) mod ms_len (dl_buf b) ->
  exists h' a', dl_write_and_advance h a v = Ret (h', a') /\ dl_buf a' = dl_buf b /\
    dl_idx a' = (dl_idx b + Z.of_nat (S k)) mod ms_len (dl_buf b) /\ dl_rel h' b (upd q k v).
Proof.
  intros R Eb Hk Ei. pose proof (dl_rel_len _ _ _ R) as Lq. destruct R as (l & C & Hi & ->). pose proof C as (Hl & _).
  set (N := ms_len (dl_buf b)) in *.
  assert (Ha : 0 <= dl_idx a < N) by (rewrite Ei; apply Z.mod_pos_bound; lia).
  assert (Ra : dl_rel h a (skipn (Z.to_nat (dl_idx a)) l ++ firstn (Z.to_nat (dl_idx a)) l)).
  { exists l. rewrite Eb. split; [exact C|]. split; [exact Ha|reflexivity]. }
  destruct (write_seen h a _ v Ra) as (h' & a' & Ew & Ea & Eb' & _).
  pose proof (advance_idx h a _ a' Ra Ea) as Ix. rewrite Eb in Ix. fold N in Ix.
  destruct (assign_unchecked_ok h (dl_buf b) l (dl_idx a) v C Ha) as (h2 & Es & C' & _).
  assert (h2 = h').
  { unfold dl_write_and_advance in Ew. rewrite Eb, Es in Ew. cbn [bind] in Ew. rewrite Ea in Ew. cbn [bind] in Ew. congruence. }
  subst h2. exists h', a'. split; [exact Ew|]. split; [congruence|]. split.
  - rewrite Ix, Ei, Zplus_mod_idemp_l. f_equal. lia.
  - exists (upd l (Z.to_nat (dl_idx a)) v). split; [exact C'|]. split; [exact Hi|].
    set (n := Z.to_nat (dl_idx b)) in *. apply list_ext.
    + rewrite upd_length, !app_length, !skipn_length, !firstn_length, upd_length. lia.
    + intros i. destruct (Nat.lt_ge_cases i (length l)) as [Li|Li].
      2:{ transitivity (@None F); [|symmetry]; apply nth_error_None; rewrite ?upd_length, !app_length, !skipn_length, !firstn_length, ?upd_length; lia. }
      assert (Z1 : forall g : list F, nth_error g i = nthz g (Z.of_nat i)).
      { intros g. unfold nthz. destruct (Z.ltb_spec (Z.of_nat i) 0); [lia|]. now rewrite Nat2Z.id. }
      rewrite !Z1. replace k with (Z.to_nat (Z.of_nat k)) by lia.
      rewrite nthz_upd by (rewrite app_length, skipn_length, firstn_length in *; lia).
      rewrite !rot_nth by (rewrite ?upd_length; lia). rewrite upd_length, nthz_upd by lia.
      replace (Z.of_nat n) with (dl_idx b) by (unfold n; lia). rewrite <- Hl, Ei.
      destruct (Z.eqb_spec (Z.of_nat i) (Z.of_nat k)) as [->|Ne]; [now rewrite Z.eqb_refl|].
      destruct (Z.eqb_spec ((dl_idx b + Z.of_nat i) mod N) ((dl_idx b + Z.of_nat k) mod N)) as [E|]; [|reflexivity].
      exfalso. apply Ne.
      assert (D : (Z.of_nat i - Z.of_nat k) mod N = 0).
      { replace (Z.of_nat i - Z.of_nat k) with ((dl_idx b + Z.of_nat i) - (dl_idx b + Z.of_nat k)) by lia.
        rewrite Zminus_mod, E, Z.sub_diag. apply Z.mod_0_l. lia. }
      apply Z.mod_divide in D; [|lia]. destruct D as [z D]. rewrite app_length, skipn_length, firstn_length in Hk.
      assert (z = 0) by nia. nia.
Qed.

Lemma write_all_ok : forall ws h a b q (k : nat), dl_rel h b q -> dl_buf a = dl_buf b -> (k + length ws <= length q)%nat ->
  dl_idx a = (dl_idx b + Z.of_nat k) mod ms_len (dl_buf b) ->
  exists h' a' q', write_all h a ws = Ret (h', a') /\ dl_buf a' = dl_buf b /\
    dl_idx a' = (dl_idx b + Z.of_nat (k + length ws)) mod ms_len (dl_buf b) /\ dl_rel h' b q' /\ length q' = length q /\
    firstn (k + length ws) q' = firstn k q ++ ws.
Proof.
  induction ws as [|w ws IH]; intros h a b q k R Eb Hk Ei.
  - exists h, a, q. cbn [length write_all]. rewrite Nat.add_0_r, app_nil_r. auto 6.
  - cbn [length] in *. destruct (write_ahead h a b q k w R Eb ltac:(lia) Ei) as (h1 & a1 & E1 & Eb1 & Ei1 & R1).
    destruct (IH h1 a1 b (upd q k w) (S k) R1 Eb1 ltac:(rewrite upd_length; lia) Ei1) as (h2 & a2 & q2 & E2 & Eb2 & Ei2 & R2 & L2 & F2).
    exists h2, a2, q2. rewrite upd_length in L2. replace (k + S (length ws))%nat with (S k + length ws)%nat by lia.
    cbn [write_all]. rewrite E1. cbn [bind]. repeat (split; [assumption|]). rewrite F2.
    rewrite upd_split by lia. rewrite (firstn_app (S k)), firstn_firstn, firstn_length.
    replace (Nat.min (S k) k) with k by lia. replace (S k - Nat.min k (length q))%nat with 1%nat by lia.
    cbn [firstn]. rewrite <- app_assoc. reflexivity.
Qed.

Lemma heads_ok : forall xs h a b q pend, dl_rel h b q -> dl_buf a = dl_buf b -> (length pend < length q)%nat ->
  dl_idx a = (dl_idx b + Z.of_nat (length pend)) mod ms_len (dl_buf b) -> firstn (length pend) q = pend ->
  exists h' a' b' os, heads_run h a b xs = Ret (h', a', b', os) /\ length os = length xs /\
    forall m, (m < length xs)%nat -> nth_error os m = nth_error (pend ++ xs) m.
Proof.
  induction xs as [|x xs IH]; intros h a b q pend R Eb Hk Ei Fp.
  - exists h, a, b, []. split; [reflexivity|]. split; [reflexivity|]. intros m H. cbn in H. lia.
  - destruct (write_ahead h a b q (length pend) x R Eb Hk Ei) as (h1 & a1 & E1 & Eb1 & Ei1 & R1).
    destruct (read_next h1 b _ R1) as (v & b1 & Er & Ea & Ebb & Hv & R2).
    pose proof (advance_idx h1 b _ b1 R1 Ea) as Ib. pose proof (dl_rel_len _ _ _ R) as Lq.
    assert (U : upd q (length pend) x = pend ++ x :: skipn (S (length pend)) q) by (rewrite upd_split, Fp by lia; reflexivity).
    rewrite U in Hv, R2.
    assert (Hp : exists pend', pend ++ [x] = v :: pend' /\ length pend' = length pend).
    { destruct pend as [|p pend0]; cbn in Hv; injection Hv as ->; [exists []|exists (pend0 ++ [x])]; cbn; auto.
      split; [reflexivity|]. rewrite app_length. cbn. lia. }
    destruct Hp as (pend' & Ep & Lp).
    assert (T : tl (pend ++ x :: skipn (S (length pend)) q) = pend' ++ skipn (S (length pend)) q).
    { replace (pend ++ x :: skipn (S (length pend)) q) with ((pend ++ [x]) ++ skipn (S (length pend)) q) by (rewrite <- app_assoc; reflexivity).
      rewrite Ep. reflexivity. }
    rewrite T, <- app_assoc in R2.
    destruct (IH h1 a1 b1 _ pend' R2) as (h2 & a2 & b2 & os & E2 & L & Nn).
    + congruence.
    + rewrite !app_length, skipn_length, Lp. cbn. lia.
    + rewrite Ei1, Ib, Ebb, Lp, Zplus_mod_idemp_l. f_equal. lia.
    + now rewrite firstn_app, Nat.sub_diag, firstn_all, firstn_O, app_nil_r.
    + exists h2, a2, b2, (v :: os). split; [|split; [cbn [length]; now rewrite L|]].
      * cbn [heads_run]. rewrite E1. cbn [bind]. rewrite Er. cbn [bind]. rewrite Ea. cbn [bind]. rewrite E2. reflexivity.
      * intros m Hm. replace (pend ++ x :: xs) with ((pend ++ [x]) ++ xs) by (rewrite <- app_assoc; reflexivity). rewrite Ep.
        destruct m as [|m]; cbn [app nth_error]; [reflexivity|]. apply Nn. cbn [length] in Hm. lia.
Qed.
End Proofs.

(** C108: a copy does not have a history of its own.  After any history of a line, let the line and a copy of it be used
    alternately, each reading and then writing a sample.  The copy reads back at once what has just been written through
    the line, without any delay, and the line reads what was written through the copy one buffer length ago. *)
Theorem C108_copied_line_refuted : forall (F : Type) (B : Build) (h : heap F) s l (ops : list (dl_op F)) (xys : list (F * F)),
  covers h s l -> 0 < ms_len s -> Forall (offset_ok (ms_len s)) ops ->
  exists h1 d ys h2 d' os,
    dl_run (h, dl_new s) ops = Ret (h1, d, ys) /\ both_run h1 d d xys = Ret (h2, d', d', os) /\ length os = length xys /\
    let q := fst (queue_run l ops) in Z.of_nat (length q) = ms_len s /\
    (forall m x y, nth_error xys m = Some (x, y) -> exists u, nth_error os m = Some (u, x) /\ nth_error (q ++ map snd xys) m = Some u).
Proof.
  intros F B h s l ops xys C Hn Ho. destruct (dl_run_ok ops h (dl_new s) l (dl_new_rel h s l C Hn) Ho) as (h1 & d & E & Eb & R & _).
  destruct (both_ok xys h1 d _ R) as (h2 & d' & os & E2 & L & N). exists h1, d, (snd (queue_run l ops)), h2, d', os.
  split; [exact E|]. split; [exact E2|]. split; [exact L|]. split; [|exact N]. rewrite (dl_rel_len _ _ _ R), Eb. reflexivity.
Qed.
Print Assumptions C108_copied_line_refuted.

Example C108_line_met : exists st, both_run (B := dbg32) ex_heap (dl_new ex_slice) (dl_new ex_slice)
    [(of_int 10, of_int 20); (of_int 11, of_int 21); (of_int 12, of_int 22); (of_int 13, of_int 23)] =
  Ret (st, [(of_int 1, of_int 10); (of_int 2, of_int 11); (of_int 3, of_int 12); (of_int 20, of_int 13)]).
Proof. eexists. reflexivity. Qed.

(** C108: what copies are good for.  After any history, write k samples through the line, k below the buffer length, and from
    then on use the line to write and the copy made before to read and advance: together they are a delay of k samples. *)
Theorem C108_read_head : forall (F : Type) (B : Build) (h : heap F) s l (ops : list (dl_op F)) (ws xs : list F),
  covers h s l -> 0 < ms_len s -> Forall (offset_ok (ms_len s)) ops -> Z.of_nat (length ws) < ms_len s ->
  exists h1 copy ys h2 line h3 line' copy' os,
    dl_run (h, dl_new s) ops = Ret (h1, copy, ys) /\ write_all h1 copy ws = Ret (h2, line) /\
    heads_run h2 line copy xs = Ret (h3, line', copy', os) /\ length os = length xs /\
    forall m, (m < length xs)%nat -> nth_error os m = nth_error (ws ++ xs) m.
Proof.
  intros F B h s l ops ws xs C Hn Ho Hw. destruct (dl_run_ok ops h (dl_new s) l (dl_new_rel h s l C Hn) Ho) as (h1 & d & E & Eb & R & _).
  cbn [dl_new dl_buf] in Eb. set (q := fst (queue_run l ops)) in *. pose proof (dl_rel_len _ _ _ R) as Lq. rewrite Eb in Lq.
  assert (Ei : dl_idx d = (dl_idx d + Z.of_nat 0) mod ms_len (dl_buf d)).
  { destruct R as (? & _ & Hi & _). rewrite Z.add_0_r, Z.mod_small by lia. reflexivity. }
  destruct (write_all_ok ws h1 d d q 0 R eq_refl ltac:(lia) Ei) as (h2 & a & q' & E2 & Eb2 & Ei2 & R2 & L2 & F2). cbn [Nat.add firstn app] in *.
  destruct (heads_ok xs h2 a d q' ws R2 Eb2 ltac:(lia) Ei2 F2) as (h3 & a' & b' & os & E3 & L3 & N).
  exists h1, d, (snd (queue_run l ops)), h2, a, h3, a', b', os. auto.
Qed.
Print Assumptions C108_read_head.

Example C108_head_met : exists st2 st3, write_all (B := dbg32) ex_heap (dl_new ex_slice) [of_int 10; of_int 11] = Ret st2 /\
  heads_run (B := dbg32) (fst st2) (snd st2) (dl_new ex_slice) [of_int 12; of_int 13; of_int 14; of_int 15] =
  Ret (st3, [of_int 10; of_int 11; of_int 12; of_int 13]).
Proof. do 2 eexists. split; [reflexivity|]. reflexivity. Qed.

(** C108: the same for the all-pass and the comb.  After any history, tick the unit with [x] and then the copy made before
    with [y]: the copy hears [x] at once.  Both end at the same position. *)
Theorem C108_copied_units_refuted : forall (F : Type) (NF : Num F) (B : Build) (h : heap F) s l (x y : F),
  covers h s l -> 0 < ms_len s ->
  (forall xs h1 a ys, ap_run h (ap_new s) xs = Ret (h1, a, ys) ->
     exists delayed h2 a' h3, ap_tick h1 a x = Ret (h2, a', nadd (nneg x) delayed) /\
       ap_tick h2 a y = Ret (h3, a', nadd (nneg y) (nadd x (nmul delayed (ndy 1 (-1)))))) /\
  (forall ops h1 c ys, comb_run h (cb_new s) ops = Ret (h1, c, ys) ->
     exists delayed h2 c' h3 c'', cb_tick h1 c x = Ret (h2, c', delayed) /\
       cb_tick h2 c y = Ret (h3, c'', nadd x (nmul (cb_state c') (cb_feedback c))) /\ cb_dl c'' = cb_dl c').
Proof.
  intros F NF B h s l x y C Hn. split.
  - intros xs h1 a ys E.
    assert (R : exists q, dl_rel h1 (ap_dl a) q).
    { assert (G : forall xs h a h1 a1 ys q, dl_rel h (ap_dl a) q -> ap_run h a xs = Ret (h1, a1, ys) -> exists q1, dl_rel h1 (ap_dl a1) q1).
      { clear. induction xs as [|x xs IH]; intros h a h1 a1 ys q R E; cbn [ap_run] in E.
        - injection E as <- <- <-. eauto.
        - unfold ap_tick in E. destruct (dl_read_ok _ _ _ R) as (v & _ & Er). rewrite Er in E. cbn [bind] in E.
          destruct (write_seen h (ap_dl a) q (nadd x (nmul v (ndy 1 (-1)))) R) as (h2 & d2 & E2 & _ & _ & R2 & _). rewrite E2 in E. cbn [bind] in E.
          destruct (ap_run h2 (AP d2) xs) as [[[h3 a3] ys3]| |] eqn:E3; try discriminate. cbn [bind] in E. injection E as <- <- <-.
          exact (IH h2 (AP d2) h3 a3 ys3 _ R2 E3). }
      exact (G xs h (ap_new s) h1 a ys l (dl_new_rel h s l C Hn) E). }
    destruct R as [q R]. destruct (dl_read_ok _ _ _ R) as (v & _ & Er).
    destruct (write_seen h1 (ap_dl a) q (nadd x (nmul v (ndy 1 (-1)))) R) as (h2 & d2 & E2 & Ea & _ & _ & R2).
    destruct (dl_read_ok _ _ _ R2) as (v2 & Ev2 & Er2). cbn [hd_error] in Ev2. injection Ev2 as <-.
    destruct (write_seen h2 (ap_dl a) _ (nadd y (nmul (nadd x (nmul v (ndy 1 (-1)))) (ndy 1 (-1)))) R2) as (h3 & d3 & E3 & Ea3 & _).
    assert (d3 = d2) by congruence. subst d3. exists v, h2, (AP d2), h3. unfold ap_tick.
    rewrite Er. cbn [bind]. rewrite E2. cbn [bind]. rewrite Er2. cbn [bind]. rewrite E3. cbn [bind]. auto.
  - intros ops h1 c ys E.
    assert (R : exists q, dl_rel h1 (cb_dl c) q).
    { assert (G : forall ops h c h1 c1 ys q, dl_rel h (cb_dl c) q -> comb_run h c ops = Ret (h1, c1, ys) -> exists q1, dl_rel h1 (cb_dl c1) q1).
      { clear. induction ops as [|[x|v|v] ops IH]; intros h c h1 c1 ys q R E; cbn [comb_run] in E.
        - injection E as <- <- <-. eauto.
        - destruct (cb_tick_rel h c q x R) as (h2 & d2 & y2 & _ & E2 & _ & R2 & _). cbv zeta in E2, R2. rewrite E2 in E. cbn [bind] in E.
          set (c2 := CB d2 _ _ _ _) in *. destruct (comb_run h2 c2 ops) as [[[h3 c3] ys3]| |] eqn:E3; try discriminate. cbn [bind] in E. injection E as <- <- <-.
          exact (IH h2 c2 h3 c3 ys3 _ R2 E3).
        - exact (IH h (cb_set_dampening c v) h1 c1 ys q R E).
        - exact (IH h (cb_set_feedback c v) h1 c1 ys q R E). }
      exact (G ops h (cb_new s) h1 c ys l (dl_new_rel h s l C Hn) E). }
    destruct R as [q R]. destruct (dl_read_ok _ _ _ R) as (v & _ & Er).
    set (st := nadd (nmul v (cb_damp_inv c)) (nmul (cb_state c) (cb_damp c))).
    destruct (write_seen h1 (cb_dl c) q (nadd x (nmul st (cb_feedback c))) R) as (h2 & d2 & E2 & Ea & _ & _ & R2).
    destruct (dl_read_ok _ _ _ R2) as (v2 & Ev2 & Er2). cbn [hd_error] in Ev2. injection Ev2 as <-.
    set (v2 := nadd x (nmul st (cb_feedback c))) in *. set (st2 := nadd (nmul v2 (cb_damp_inv c)) (nmul (cb_state c) (cb_damp c))).
    destruct (write_seen h2 (cb_dl c) _ (nadd y (nmul st2 (cb_feedback c))) R2) as (h3 & d3 & E3 & Ea3 & _).
    assert (d3 = d2) by congruence. subst d3.
    exists v, h2, (CB d2 (cb_feedback c) st (cb_damp c) (cb_damp_inv c)), h3, (CB d2 (cb_feedback c) st2 (cb_damp c) (cb_damp_inv c)).
    unfold cb_tick. rewrite Er. cbn [bind]. fold st. fold v2. rewrite E2. cbn [bind]. rewrite Er2. cbn [bind]. fold st2. rewrite E3. cbn [bind]. auto.
Qed.
Print Assumptions C108_copied_units_refuted.

Example C108_units_met (NP : NanPolicy) : exists h1 a ys, ap_run (B := dbg32) ex_heap (ap_new ex_slice) [of_int 4] = Ret (h1, a, ys).
Proof. do 3 eexists. reflexivity. Qed.
