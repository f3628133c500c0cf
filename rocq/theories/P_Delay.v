From Coq Require Import ZArith List Bool Lia.
From Verif Require Import Base F32 Num M_Memory M_Delay S_Memory P_Memory S_Delay.
Import ListNotations.
Open Scope Z_scope.

Section Delay.
Context {F : Type} {NF : Num F} {MO : MathOps F} {B : Build}.
Implicit Types (h : heap F) (s : mslice) (l q : list F) (d : delay_line).

(** The ring buffer read as a queue. *)
Definition dl_rel h d q : Prop :=
  exists l, covers h (dl_buf d) l /\ 0 <= dl_idx d < ms_len (dl_buf d) /\
    q = skipn (Z.to_nat (dl_idx d)) l ++ firstn (Z.to_nat (dl_idx d)) l.

Lemma dl_rel_len h d q : dl_rel h d q -> Z.of_nat (length q) = ms_len (dl_buf d).
Proof.
  intros (l & (Hl & _) & Hi & ->). rewrite app_length, skipn_length, firstn_length. lia.
Qed.

Lemma rot_nth l (k : nat) j : (k <= length l)%nat -> 0 <= j < Z.of_nat (length l) ->
  nthz (skipn k l ++ firstn k l) j = nthz l ((Z.of_nat k + j) mod Z.of_nat (length l)).
Proof.
  intros Hk Hj. unfold nthz.
  pose proof (Z.mod_pos_bound (Z.of_nat k + j) (Z.of_nat (length l))) as Hm.
  destruct (Z.ltb_spec j 0); [lia|].
  destruct (Z.ltb_spec ((Z.of_nat k + j) mod Z.of_nat (length l)) 0); [lia|].
  assert (Hs : length (skipn k l) = (length l - k)%nat) by apply skipn_length.
  destruct (Z.lt_ge_cases (Z.of_nat k + j) (Z.of_nat (length l))) as [L|L].
  - rewrite Z.mod_small by lia.
    rewrite nth_error_app1 by lia.
    replace (Z.to_nat (Z.of_nat k + j)) with (k + Z.to_nat j)%nat by lia.
    clear. revert l. induction k as [|k IH]; intros l; simpl; auto.
    destruct l; simpl; auto. now destruct (Z.to_nat j).
  - replace ((Z.of_nat k + j) mod Z.of_nat (length l)) with (Z.of_nat k + j - Z.of_nat (length l)).
    2:{ replace (Z.of_nat k + j) with (Z.of_nat k + j - Z.of_nat (length l) + 1 * Z.of_nat (length l)) at 2 by lia.
        rewrite Z.mod_add by lia. rewrite Z.mod_small by lia. reflexivity. }
    rewrite nth_error_app2 by lia. rewrite Hs.
    replace (Z.to_nat (Z.of_nat k + j - Z.of_nat (length l))) with (Z.to_nat j - (length l - k))%nat by lia.
    assert (Hlt : (Z.to_nat j - (length l - k) < k)%nat) by lia.
    revert Hlt. generalize (Z.to_nat j - (length l - k))%nat. clear.
    revert l. induction k as [|k IH]; intros l i H; [lia|].
    destruct l; simpl; [now destruct i|]. destruct i; simpl; auto. apply IH. lia.
Qed.

Lemma rel_nth h d q : dl_rel h d q -> exists l, covers h (dl_buf d) l /\
  0 <= dl_idx d < ms_len (dl_buf d) /\
  forall j, 0 <= j < ms_len (dl_buf d) -> nthz q j = nthz l ((dl_idx d + j) mod ms_len (dl_buf d)).
Proof.
  intros (l & C & Hi & ->). exists l. split; [auto|]. split; [auto|].
  intros j Hj. pose proof C as (Hl & _). rewrite Hl in *. rewrite rot_nth by lia.
  now rewrite Z2Nat.id by lia.
Qed.

Lemma dl_read_ok h d q : dl_rel h d q -> exists v, hd_error q = Some v /\ dl_read h d = Ret v.
Proof.
  intros R. destruct (rel_nth _ _ _ R) as (l & C & Hi & N). pose proof C as (Hl & _).
  destruct (nthz_ex l (dl_idx d)) as [v Hv]; [lia|]. exists v. split.
  - specialize (N 0 ltac:(lia)). rewrite Z.add_0_r, Z.mod_small in N by lia. rewrite Hv in N.
    destruct q; [discriminate|]. exact N.
  - unfold dl_read. now apply get_unchecked_ok with l.
Qed.

Lemma dl_read_at_ok h d q j : dl_rel h d q -> is_isize (dl_idx d + j) ->
  exists v, nthz q (j mod ms_len (dl_buf d)) = Some v /\ dl_read_wrapped_at h d j = Ret v.
Proof.
  intros R Hj. destruct (rel_nth _ _ _ R) as (l & C & Hi & N). pose proof C as (Hl & Hm & _).
  destruct (get_wrapped_ok h (dl_buf d) l (dl_idx d + j) C ltac:(lia) Hj) as (v & Hv & Hg).
  exists v. split.
  - rewrite N by (apply Z.mod_pos_bound; lia). rewrite Zplus_mod_idemp_r. exact Hv.
  - unfold dl_read_wrapped_at. rewrite as_isize_id by (rewrite isize_min_max; lia).
    unfold is_isize in Hj. rewrite isize_add_ok by lia. exact Hg.
Qed.

Lemma firstn_S_nth l (k : nat) v : nth_error l k = Some v -> firstn (S k) l = firstn k l ++ [v].
Proof.
  revert l. induction k as [|k IH]; intros [|x l] H; simpl in *; try discriminate.
  - now injection H as ->.
  - f_equal. now apply IH.
Qed.
Lemma skipn_cons_nth l (k : nat) v : nth_error l k = Some v -> skipn k l = v :: skipn (S k) l.
Proof.
  revert l. induction k as [|k IH]; intros [|x l] H; simpl in *; try discriminate.
  - now injection H as ->.
  - now apply IH.
Qed.

Lemma advance_rel h d q : dl_rel h d q -> exists d', dl_advance d = Ret d' /\ dl_buf d' = dl_buf d /\
  dl_rel h d' (match q with [] => [] | x :: r => r ++ [x] end).
Proof.
  intros (l & C & Hi & ->). pose proof C as (Hl & Hm & _).
  set (k := Z.to_nat (dl_idx d)). assert (Hk : (k < length l)%nat) by lia.
  destruct (nth_error l k) as [v|] eqn:Ev; [|apply nth_error_None in Ev; lia].
  rewrite (skipn_cons_nth _ _ _ Ev). cbn [app].
  unfold dl_advance. rewrite usize_sub_ok by lia. cbn [bind].
  destruct (Z.eqb_spec (dl_idx d) (ms_len (dl_buf d) - 1)) as [E|E].
  - eexists. split; [reflexivity|]. split; [reflexivity|].
    exists l. cbn [dl_buf dl_idx]. split; [auto|]. split; [lia|].
    change (Z.to_nat 0) with O. rewrite skipn_O, firstn_O, app_nil_r.
    rewrite (skipn_all2 l) by lia. cbn [app].
    rewrite <- (firstn_S_nth _ _ _ Ev). apply firstn_all2. lia.
  - rewrite usize_add_ok by (rewrite usize_isize; lia). cbn [bind].
    eexists. split; [reflexivity|]. split; [reflexivity|].
    exists l. cbn [dl_buf dl_idx]. split; [auto|]. split; [lia|].
    replace (Z.to_nat (dl_idx d + 1)) with (S k) by lia.
    rewrite (firstn_S_nth _ _ _ Ev). now rewrite app_assoc.
Qed.

Lemma write_rel h d q v : dl_rel h d q -> exists h' d', dl_write_and_advance h d v = Ret (h', d') /\
  dl_buf d' = dl_buf d /\ dl_rel h' d' (tl q ++ [v]) /\
  same_except (in_slice (dl_buf d)) h h' /\ length h' = length h /\
  (forall b, option_map (@length F) (nth_error h' b) = option_map (@length F) (nth_error h b)).
Proof.
  intros (l & C & Hi & ->). pose proof C as (Hl & Hm & _).
  set (k := Z.to_nat (dl_idx d)). assert (Hk : (k < length l)%nat) by lia.
  destruct (assign_unchecked_ok h (dl_buf d) l (dl_idx d) v C Hi) as (h' & Ea & C' & Ln & Lb & Fr).
  fold k in C'.
  set (l' := upd l k v) in *. set (q' := skipn k l' ++ firstn k l').
  assert (R' : dl_rel h' d q').
  { exists l'. split; [exact C'|]. split; [exact Hi|]. reflexivity. }
  destruct (advance_rel h' d q' R') as (d' & Ed & Eb & R'').
  exists h', d'. unfold dl_write_and_advance. rewrite Ea. cbn [bind]. rewrite Ed. cbn [bind].
  split; [reflexivity|]. split; [exact Eb|]. split; [|split; [|split; auto]].
  - assert (Eq : match q' with [] => [] | x :: r => r ++ [x] end
                 = tl (skipn k l ++ firstn k l) ++ [v]); [|rewrite <- Eq; exact R''].
    destruct (nth_error l k) as [v0|] eqn:Ev; [|apply nth_error_None in Ev; lia].
    assert (Ev' : nth_error l' k = Some v) by (apply nth_error_upd_eq; lia).
    unfold q'. rewrite (skipn_cons_nth _ _ _ Ev), (skipn_cons_nth _ _ _ Ev'). cbn [app tl].
    f_equal. f_equal.
    + unfold l'. rewrite upd_split by lia. rewrite skipn_app.
      rewrite (skipn_all2 (firstn k l)) by (rewrite firstn_length; lia).
      rewrite firstn_length. replace (S k - Nat.min k (length l))%nat with 1%nat by lia.
      reflexivity.
    + unfold l'. rewrite upd_split by lia. rewrite firstn_app, firstn_length.
      replace (k - Nat.min k (length l))%nat with 0%nat by lia. simpl. rewrite app_nil_r.
      now rewrite firstn_firstn, Nat.min_id.
  - intros b o Hn. rewrite Fr. destruct (addr (dl_buf d) (dl_idx d)) as [[b0 o0]|] eqn:Ad; auto.
    destruct (Nat.eqb_spec b0 b) as [->|]; auto. destruct (Z.eqb_spec o0 o) as [->|]; auto.
    elim Hn. exists (dl_idx d). auto.
Qed.

Lemma dl_step_ok h d q op : dl_rel h d q -> offset_ok (ms_len (dl_buf d)) op ->
  exists h' d', dl_step (h, d) op = Ret (h', d', snd (queue_step q op)) /\
    dl_buf d' = dl_buf d /\ dl_rel h' d' (fst (queue_step q op)) /\
    same_except (in_slice (dl_buf d)) h h' /\
    (forall b, option_map (@length F) (nth_error h' b) = option_map (@length F) (nth_error h b)).
Proof.
  intros R Ho. destruct op as [|j|v|]; cbn [dl_step queue_step fst snd].
  - destruct (dl_read_ok h d q R) as (v & Ev & E). exists h, d. rewrite E. cbn [bind]. rewrite Ev.
    split; [reflexivity|]. split; [reflexivity|]. split; [exact R|]. split; [|reflexivity].
    intros b o _. reflexivity.
  - cbn in Ho. pose proof (dl_rel_len _ _ _ R) as Hlen.
    destruct (dl_read_at_ok h d q j R) as (v & Ev & E).
    { destruct R as (l & C & Hi & _). unfold is_isize. lia. }
    exists h, d. rewrite E. cbn [bind]. rewrite Hlen, Ev.
    split; [reflexivity|]. split; [reflexivity|]. split; [exact R|]. split; [|reflexivity].
    intros b o _. reflexivity.
  - destruct (write_rel h d q v R) as (h' & d' & E & Eb & R' & Fr & _ & L). exists h', d'.
    rewrite E. cbn [bind]. auto.
  - destruct (advance_rel h d q R) as (d' & E & Eb & R'). exists h, d'. rewrite E. cbn [bind].
    split; [reflexivity|]. split; [exact Eb|]. split; [exact R'|]. split; [|reflexivity].
    intros b o _. reflexivity.
Qed.

Lemma same_except_trans P h1 h2 h3 : same_except (F := F) P h1 h2 -> same_except P h2 h3 -> same_except P h1 h3.
Proof. intros A C b o N. rewrite (C b o N). apply A, N. Qed.

Lemma dl_run_ok ops : forall h d q, dl_rel h d q -> Forall (offset_ok (ms_len (dl_buf d))) ops ->
  exists h' d', dl_run (h, d) ops = Ret (h', d', snd (queue_run q ops)) /\
    dl_buf d' = dl_buf d /\ dl_rel h' d' (fst (queue_run q ops)) /\
    same_except (in_slice (dl_buf d)) h h' /\
    (forall b, option_map (@length F) (nth_error h' b) = option_map (@length F) (nth_error h b)).
Proof.
  induction ops as [|op ops IH]; intros h d q R Ho.
  - exists h, d. split; [reflexivity|]. split; [reflexivity|]. split; [exact R|].
    split; [intros b o _; reflexivity | reflexivity].
  - inversion Ho as [|? ? Ho1 Ho2]; subst.
    destruct (dl_step_ok h d q op R Ho1) as (h1 & d1 & E1 & B1 & R1 & Fr1 & L1).
    cbn [dl_run queue_run]. rewrite E1. cbn [bind].
    destruct (queue_step q op) as [q1 y] eqn:Eq. cbn [fst snd] in *.
    rewrite <- B1 in Ho2.
    destruct (IH h1 d1 q1 R1 Ho2) as (h2 & d2 & E2 & B2 & R2 & Fr2 & L2).
    rewrite E2. cbn [bind]. destruct (queue_run q1 ops) as [q2 ys]. cbn [fst snd] in *.
    exists h2, d2. split; [reflexivity|]. rewrite B2. split; [exact B1|]. split; [exact R2|]. split.
    + rewrite B1 in Fr2. now apply same_except_trans with h1.
    + intros b. now rewrite L2, L1.
Qed.

Lemma dl_new_rel h s l : covers h s l -> 0 < ms_len s -> dl_rel h (dl_new s) l.
Proof.
  intros C Hn. exists l. cbn. split; [exact C|]. split; [lia|]. now rewrite app_nil_r.
Qed.

(** FIFO law for read/write pairs. *)
Lemma rw_ops_ok n (ws : list F) : Forall (offset_ok n) (rw_ops ws).
Proof. induction ws; simpl; auto. repeat constructor. exact IHws. Qed.

Lemma rw_queue (ws : list F) : forall q, q <> [] ->
  fst (queue_run q (rw_ops ws)) = skipn (length ws) (q ++ ws) /\
  forall m, (m < length ws)%nat ->
    nth_error (snd (queue_run q (rw_ops ws))) (2 * m) = Some (nth_error (q ++ ws) m).
Proof.
  induction ws as [|w ws IH]; intros q Hq.
  - simpl. rewrite app_nil_r. split; auto. intros m H. lia.
  - destruct q as [|x q']; [congruence|]. cbn [rw_ops queue_run queue_step tl hd_error].
    assert (Hne : q' ++ [w] <> []) by (destruct q'; discriminate).
    destruct (IH (q' ++ [w]) Hne) as [IH1 IH2].
    destruct (queue_run (q' ++ [w]) (rw_ops ws)) as [q2 ys]. cbn [fst snd] in *.
    rewrite <- app_assoc in IH1, IH2. cbn [app] in IH1, IH2.
    split.
    + rewrite IH1. reflexivity.
    + intros m Hm. destruct m as [|m]; [reflexivity|].
      replace (2 * S m)%nat with (S (S (2 * m))) by lia. cbn [nth_error app].
      apply IH2. simpl in Hm. lia.
Qed.

(** ** Comb *)
Lemma cb_tick_rel h (c : comb F) q x : dl_rel h (cb_dl c) q ->
  exists h' d' y, hd_error q = Some y /\
    let st := nadd (nmul y (cb_damp_inv c)) (nmul (cb_state c) (cb_damp c)) in
    cb_tick h c x = Ret (h', CB d' (cb_feedback c) st (cb_damp c) (cb_damp_inv c), y) /\
    dl_buf d' = dl_buf (cb_dl c) /\
    dl_rel h' d' (tl q ++ [nadd x (nmul st (cb_feedback c))]) /\
    same_except (in_slice (dl_buf (cb_dl c))) h h'.
Proof.
  intros R. destruct (dl_read_ok _ _ _ R) as (y & Ey & E).
  set (st := nadd (nmul y (cb_damp_inv c)) (nmul (cb_state c) (cb_damp c))).
  destruct (write_rel h (cb_dl c) q (nadd x (nmul st (cb_feedback c))) R) as (h' & d' & Ew & Eb & R' & Fr & _).
  exists h', d', y. split; [exact Ey|]. cbv zeta. fold st.
  unfold cb_tick. rewrite E. cbn [bind]. fold st. rewrite Ew. cbn [bind]. auto.
Qed.

(** Invariant of the comb against its specification. *)
Definition comb_rel h (c : comb F) (d : list F) (m : nat) (s damp fb : F) : Prop :=
  dl_rel h (cb_dl c) (skipn m d) /\ cb_state c = s /\ cb_damp c = damp /\
  cb_damp_inv c = nsub (nint 1) damp /\ cb_feedback c = fb.

Lemma hd_skipn (d : list F) m y def : hd_error (skipn m d) = Some y -> nth m d def = y /\ (m < length d)%nat /\
   tl (skipn m d) = skipn (S m) d.
Proof.
  revert d. induction m as [|m IH]; intros [|x d] H; simpl in *; try discriminate.
  - injection H as ->. repeat split; auto. lia.
  - destruct (IH d H) as (A1 & A2 & A3). repeat split; auto. lia.
Qed.

Lemma comb_run_ok ops : forall h c (d : list F) m (s damp fb : F), comb_rel h c d m s damp fb ->
  exists h' c', comb_run h c ops = Ret (h', c', comb_spec d m s damp fb ops) /\
    same_except (in_slice (dl_buf (cb_dl c))) h h'.
Proof.
  induction ops as [|op ops IH]; intros h c d m s damp fb (R & <- & <- & Di & <-).
  - exists h, c. split; [reflexivity|]. intros b o _. reflexivity.
  - destruct op as [x|v|v]; cbn [comb_run comb_spec].
    + destruct (cb_tick_rel h c _ x R) as (h1 & d1 & y & Ey & Et & Eb & R1 & Fr). cbv zeta in *.
      rewrite Et. cbn [bind].
      destruct (hd_skipn d m y (nint 0) Ey) as (En & Hlt & Htl). rewrite En.
      rewrite Di in *. set (st := nadd (nmul y (nsub (nint 1) (cb_damp c))) (nmul (cb_state c) (cb_damp c))) in *.
      set (w := nadd x (nmul st (cb_feedback c))) in *.
      destruct (IH h1 (CB d1 (cb_feedback c) st (cb_damp c) (nsub (nint 1) (cb_damp c)))
                 (d ++ [w]) (S m) st (cb_damp c) (cb_feedback c)) as (h2 & c2 & E2 & Fr2).
      { repeat split; auto. cbn [cb_dl].
        replace (skipn (S m) (d ++ [w])) with (tl (skipn m d) ++ [w]); auto.
        rewrite Htl, skipn_app. f_equal.
        replace (S m - length d)%nat with 0%nat by lia. reflexivity. }
      rewrite E2. cbn [bind]. exists h2, c2. split; [reflexivity|].
      cbn [cb_dl] in Fr2. rewrite Eb in Fr2. now apply same_except_trans with h1.
    + apply (IH h (cb_set_dampening c v)). repeat split; auto.
    + apply (IH h (cb_set_feedback c v)). repeat split; auto.
Qed.

(** ** All-pass *)
Lemma ap_run_ok xs : forall h a (d : list F) m, dl_rel h (ap_dl a) (skipn m d) ->
  exists h' a', ap_run h a xs = Ret (h', a', ap_spec d m xs) /\
    same_except (in_slice (dl_buf (ap_dl a))) h h'.
Proof.
  induction xs as [|x xs IH]; intros h a d m R.
  - exists h, a. split; [reflexivity|]. intros b o _. reflexivity.
  - cbn [ap_run ap_spec]. unfold ap_tick.
    destruct (dl_read_ok _ _ _ R) as (y & Ey & E). rewrite E. cbn [bind].
    destruct (hd_skipn d m y (nint 0) Ey) as (En & Hlt & Htl). rewrite En.
    set (w := nadd x (nmul y (ndy 1 (-1)))).
    destruct (write_rel h (ap_dl a) _ w R) as (h1 & d1 & Ew & Eb & R' & Fr & _).
    rewrite Ew. cbn [bind].
    destruct (IH h1 (AP d1) (d ++ [w]) (S m)) as (h2 & a2 & E2 & Fr2).
    { cbn [ap_dl]. replace (skipn (S m) (d ++ [w])) with (tl (skipn m d) ++ [w]); auto.
      rewrite Htl, skipn_app. f_equal.
      replace (S m - length d)%nat with 0%nat by lia. reflexivity. }
    rewrite E2. cbn [bind]. exists h2, a2. split; [reflexivity|].
    cbn [ap_dl] in Fr2. rewrite Eb in Fr2. now apply same_except_trans with h1.
Qed.

(** ** Changing the buffer, empty lines *)
Lemma change_buffer_safe h d s l : covers h s l -> 0 <= dl_idx d ->
  (dl_idx d < ms_len s -> exists q, dl_rel h (dl_change_buffer d s) q).
Proof.
  intros C Hi Hlt. eexists. exists l. cbn. split; [exact C|]. split; [lia|]. reflexivity.
Qed.

Lemma get_unchecked_past h b o n i blk : nth_error h b = Some blk -> Z.of_nat (length blk) <= o + i ->
  get_unchecked h (MS (PAt b o) n) i = UB.
Proof.
  intros E H. unfold get_unchecked, ptr_add. cbn [ms_ptr]. rewrite E.
  destruct ((0 <=? o + i) && (o + i <=? Z.of_nat (length blk))) eqn:G; auto.
  cbn [bind ptr_read]. unfold cell. rewrite E, nthz_None by lia. reflexivity.
Qed.
Lemma assign_unchecked_past h b o n i blk v : nth_error h b = Some blk -> Z.of_nat (length blk) <= o + i ->
  assign_unchecked h (MS (PAt b o) n) i v = UB.
Proof.
  intros E H. unfold assign_unchecked, ptr_add. cbn [ms_ptr]. rewrite E.
  destruct ((0 <=? o + i) && (o + i <=? Z.of_nat (length blk))) eqn:G; auto.
  cbn [bind ptr_write]. unfold cell. rewrite E, nthz_None by lia. reflexivity.
Qed.

(** Position after a history. *)
Lemma advance_idx (h : heap F) d q d' : dl_rel h d q -> dl_advance d = Ret d' ->
  dl_idx d' = (dl_idx d + 1) mod ms_len (dl_buf d).
Proof.
  intros (l & C & Hi & _) E. pose proof C as (Hl & Hm & _).
  unfold dl_advance in E. rewrite usize_sub_ok in E by lia. cbn [bind] in E.
  destruct (Z.eqb_spec (dl_idx d) (ms_len (dl_buf d) - 1)) as [Q|Q].
  - injection E as <-. cbn [dl_idx]. rewrite Q.
    replace (ms_len (dl_buf d) - 1 + 1) with (ms_len (dl_buf d)) by lia.
    now rewrite Z.mod_same by lia.
  - rewrite usize_add_ok in E by (rewrite usize_isize; pose proof isize_max_pos; lia).
    cbn [bind] in E. injection E as <-. cbn [dl_idx]. rewrite Z.mod_small by lia. reflexivity.
Qed.

Lemma run_idx (ops : list (dl_op F)) : forall h d q h' d' ys, dl_rel h d q -> Forall (offset_ok (ms_len (dl_buf d))) ops ->
  dl_run (h, d) ops = Ret (h', d', ys) ->
  dl_idx d' = (dl_idx d + Z.of_nat (steps ops)) mod ms_len (dl_buf d).
Proof.
  induction ops as [|op ops IH]; intros h d q h' d' ys R Ho E.
  - cbn in E. injection E as <- <- <-. destruct R as (l & C & Hi & _). cbn. rewrite Z.add_0_r.
    now rewrite Z.mod_small by lia.
  - inversion Ho as [|? ? Ho1 Ho2]; subst. cbn [dl_run] in E.
    destruct (dl_step_ok h d q op R Ho1) as (h1 & d1 & Es & Eb & R1 & _). rewrite Es in E. cbn [bind] in E.
    destruct (dl_run (h1, d1) ops) as [[[h2 d2] zs]| |] eqn:Er; try discriminate. cbn [bind] in E.
    injection E as <- <- <-.
    rewrite <- Eb in Ho2. pose proof (IH _ _ _ _ _ _ R1 Ho2 Er) as I1. rewrite Eb in I1. rewrite I1. clear I1.
    assert (K : dl_idx d1 = match op with DWrite _ | DAdvance => (dl_idx d + 1) mod ms_len (dl_buf d)
                                        | _ => dl_idx d end).
    { destruct op as [|j|v|]; cbn [dl_step] in Es.
      - destruct (dl_read h d); cbn [bind] in Es; congruence.
      - destruct (dl_read_wrapped_at h d j); cbn [bind] in Es; congruence.
      - unfold dl_write_and_advance in Es. destruct (assign_unchecked h (dl_buf d) (dl_idx d) v); cbn [bind] in Es; try discriminate.
        destruct (dl_advance d) as [dd| |] eqn:Ea; cbn [bind] in Es; try discriminate.
        injection Es as _ Q. rewrite <- Q in *. eapply advance_idx; eauto.
      - destruct (dl_advance d) as [dd| |] eqn:Ea; cbn [bind] in Es; try discriminate.
        injection Es as _ Q. rewrite <- Q in *. eapply advance_idx; eauto. }
    rewrite K. unfold steps. destruct op; cbn [filter length]; try reflexivity;
      rewrite Zplus_mod_idemp_l; f_equal; lia.
Qed.

Lemma writes_queue (ws : list F) : forall q, q <> [] -> fst (queue_run q (writes ws)) = skipn (length ws) (q ++ ws).
Proof.
  induction ws as [|w ws IH]; intros q Hq; [now rewrite app_nil_r|].
  destruct q as [|x q']; [congruence|]. cbn [writes map queue_run queue_step tl].
  fold (writes ws). specialize (IH (q' ++ [w])).
  destruct (queue_run (q' ++ [w]) (writes ws)) as [q2 ys]. cbn [fst] in *.
  rewrite IH by (destruct q'; discriminate). rewrite <- app_assoc. reflexivity.
Qed.

Lemma queue_run_app (a : list (dl_op F)) : forall q b,
  fst (queue_run q (a ++ b)) = fst (queue_run (fst (queue_run q a)) b).
Proof.
  induction a as [|op a IH]; intros q b; [reflexivity|].
  cbn [app queue_run]. destruct (queue_step q op) as [q1 y]. specialize (IH q1 b).
  destruct (queue_run q1 (a ++ b)) as [u1 u2]. destruct (queue_run q1 a) as [w1 w2].
  cbn [fst] in *. exact IH.
Qed.
Lemma queue_run_len (a : list (dl_op F)) : forall q, length (fst (queue_run q a)) = length q \/ q = [].
Proof.
  induction a as [|op a IH]; intros q; [auto|].
  cbn [queue_run]. destruct (queue_step q op) as [q1 y] eqn:E.
  specialize (IH q1). destruct (queue_run q1 a) as [w1 w2]. cbn [fst] in *.
  destruct q as [|x q]; [auto|]. left.
  assert (L : length q1 = length (x :: q)).
  { destruct op; cbn [queue_step tl] in E; injection E as <- _; rewrite ?app_length; cbn; lia. }
  rewrite <- L. destruct IH as [IH| ->]; auto. discriminate L.
Qed.

Lemma as_isize_range z : is_isize (as_isize z).
Proof.
  unfold is_isize, as_isize, isize_min, isize_max, usize_mod, usize_bits.
  pose proof (Z.mod_pos_bound (z + 2 ^ (match ptr_w with W16 => 16 | W32 => 32 | W64 => 64 end - 1))
    (2 ^ match ptr_w with W16 => 16 | W32 => 32 | W64 => 64 end)) as H.
  destruct ptr_w; specialize (H eq_refl); lia.
Qed.

(** Offsets of any size: a call may panic on overflow, but never leaves the buffer. *)
Definition offset_any (op : dl_op F) : Prop := match op with DReadAt j => is_isize j | _ => True end.

Lemma dl_step_any h d q op : dl_rel h d q -> offset_any op ->
  (dl_step (h, d) op = Panic /\ ovf_checks = true /\ exists j, op = DReadAt j) \/
  exists h' d' y q', dl_step (h, d) op = Ret (h', d', y) /\
    dl_buf d' = dl_buf d /\ dl_rel h' d' q' /\ same_except (in_slice (dl_buf d)) h h'.
Proof.
  intros R Ho. destruct op as [|j|v|].
  2:{ cbn [dl_step]. unfold dl_read_wrapped_at.
    destruct (rel_nth _ _ _ R) as (l & C & Hi & _). pose proof C as (Hl & Hm & _).
    assert (G : forall i, is_isize i -> exists v, get_wrapped h (dl_buf d) i = Ret v).
    { intros i Hii. destruct (get_wrapped_ok h (dl_buf d) l i C ltac:(lia) Hii) as (v & _ & E). eauto. }
    unfold isize_add. destruct (_ && _) eqn:Q.
    - cbn [bind]. destruct (G (as_isize (dl_idx d) + j)) as [v E].
      { unfold is_isize. apply andb_prop in Q. rewrite !Z.leb_le in Q. lia. }
      rewrite E. cbn [bind]. right. exists h, d, (Some v), q. repeat split; auto.
    - destruct ovf_checks eqn:V; [left; eauto|]. right. cbn [bind].
      destruct (G (as_isize (as_isize (dl_idx d) + j))) as [v E].
      { apply as_isize_range. }
      rewrite E. cbn [bind]. exists h, d, (Some v), q. repeat split; auto. }
  all: right; match goal with |- context [dl_step _ ?op] =>
    destruct (dl_step_ok h d q op R I) as (h1 & d1 & E & Eb & R1 & Fr & _) end;
    exists h1, d1; eexists; eexists; split; [exact E|]; split; [exact Eb|]; split; [exact R1|exact Fr].
Qed.

Lemma dl_run_any ops : forall h d q, dl_rel h d q -> Forall offset_any ops ->
  (dl_run (h, d) ops = Panic /\ ovf_checks = true /\ exists j, In (DReadAt j) ops) \/
  exists h' d' ys q', dl_run (h, d) ops = Ret (h', d', ys) /\
    dl_buf d' = dl_buf d /\ dl_rel h' d' q' /\ same_except (in_slice (dl_buf d)) h h'.
Proof.
  induction ops as [|op ops IH]; intros h d q R Ho.
  - right. exists h, d, [], q. repeat split; auto.
  - inversion Ho as [|? ? Ho1 Ho2]; subst. cbn [dl_run].
    destruct (dl_step_any h d q op R Ho1) as [(E & V & j & ->)|(h1 & d1 & y & q1 & E & Eb & R1 & Fr)].
    { left. rewrite E. cbn [bind]. repeat split; auto. exists j. now left. }
    rewrite E. cbn [bind].
    destruct (IH _ _ _ R1 Ho2) as [(E2 & V & j & Hj)|(h2 & d2 & ys & q2 & E2 & Eb2 & R2 & Fr2)].
    { left. rewrite E2. cbn [bind]. repeat split; auto. exists j. now right. }
    right. rewrite E2. cbn [bind]. exists h2, d2, (y :: ys), q2.
    split; [reflexivity|]. split; [congruence|]. split; [exact R2|].
    rewrite Eb in Fr2. eapply same_except_trans; eauto.
Qed.
End Delay.
