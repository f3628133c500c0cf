From Coq Require Import ZArith List Bool Lia.
From Verif Require Import Base F32 Num M_Memory S_Memory.
Import ListNotations.
Open Scope Z_scope.

(** ** Integers *)
Section Ints.
Context {B : Build}.

Lemma isize_max_pos : 32767 <= isize_max.
Proof. unfold isize_max, usize_bits. destruct ptr_w; lia. Qed.
Lemma usize_isize : usize_max = 2 * isize_max + 1.
Proof. unfold usize_max, usize_mod, isize_max, usize_bits. destruct ptr_w; lia. Qed.
Lemma isize_min_max : isize_min = - isize_max - 1.
Proof. unfold isize_min, isize_max, usize_bits. destruct ptr_w; lia. Qed.
Lemma usize_mod_max : usize_mod = usize_max + 1.
Proof. unfold usize_max. lia. Qed.
Lemma isize_max_le : isize_max <= 2 ^ 63 - 1.
Proof. unfold isize_max, usize_bits. destruct ptr_w; lia. Qed.
Lemma usize_max_le : usize_max <= 2 ^ 64 - 1.
Proof. unfold usize_max, usize_mod, usize_bits. destruct ptr_w; lia. Qed.

Lemma as_usize_id z : 0 <= z <= usize_max -> as_usize z = z.
Proof. intros H. unfold as_usize. apply Z.mod_small. rewrite usize_mod_max. lia. Qed.
Lemma as_isize_id z : isize_min <= z <= isize_max -> as_isize z = z.
Proof.
  intros H. unfold as_isize. rewrite isize_min_max in H.
  assert (E : 2 ^ (usize_bits - 1) = isize_max + 1) by (unfold isize_max; lia).
  rewrite E. rewrite Z.mod_small; [lia|]. rewrite usize_mod_max, usize_isize. lia.
Qed.
Lemma usize_add_ok a b : a + b <= usize_max -> usize_add a b = Ret (a + b).
Proof. intros H. unfold usize_add. now rewrite (proj2 (Z.leb_le _ _) H). Qed.
Lemma usize_sub_ok a b : b <= a -> usize_sub a b = Ret (a - b).
Proof. intros H. unfold usize_sub. now rewrite (proj2 (Z.leb_le _ _) H). Qed.
Lemma isize_add_ok a b : isize_min <= a + b <= isize_max -> isize_add a b = Ret (a + b).
Proof.
  intros [H1 H2]. unfold isize_add.
  now rewrite (proj2 (Z.leb_le _ _) H1), (proj2 (Z.leb_le _ _) H2).
Qed.
Lemma rem_euclid_pos a b : 0 < b -> isize_rem_euclid a b = Ret (a mod b).
Proof.
  intros H. unfold isize_rem_euclid.
  destruct (Z.eqb_spec b 0); [lia|]. destruct (Z.eqb_spec b (-1)); [lia|].
  rewrite andb_false_r. now rewrite Z.abs_eq by lia.
Qed.
End Ints.

(** ** Lists *)
Section Lists.
Context {A : Type}.
Implicit Types l : list A.

Lemma nthz_Some l i v : nthz l i = Some v <-> 0 <= i /\ nth_error l (Z.to_nat i) = Some v.
Proof.
  unfold nthz. destruct (Z.ltb_spec i 0); split; intros H'.
  - discriminate.
  - lia.
  - split; auto; lia.
  - tauto.
Qed.
Lemma nthz_bounds l i v : nthz l i = Some v -> 0 <= i < Z.of_nat (length l).
Proof.
  intros H. apply nthz_Some in H as [H0 H].
  assert (Z.to_nat i < length l)%nat by (apply nth_error_Some; congruence). lia.
Qed.
Lemma nthz_ex l i : 0 <= i < Z.of_nat (length l) -> exists v, nthz l i = Some v.
Proof.
  intros H. destruct (nth_error l (Z.to_nat i)) as [v|] eqn:E.
  - exists v. apply nthz_Some. split; [lia | exact E].
  - apply nth_error_None in E. lia.
Qed.
Lemma nthz_None l i : ~ 0 <= i < Z.of_nat (length l) -> nthz l i = None.
Proof.
  intros H. destruct (nthz l i) eqn:E; auto. apply nthz_bounds in E. lia.
Qed.
Lemma nthz_app_mid pre l post i : 0 <= i < Z.of_nat (length l) ->
  nthz (pre ++ l ++ post) (Z.of_nat (length pre) + i) = nthz l i.
Proof.
  intros H. unfold nthz.
  destruct (Z.ltb_spec (Z.of_nat (length pre) + i) 0); [lia|].
  destruct (Z.ltb_spec i 0); [lia|].
  rewrite nth_error_app2 by lia. rewrite nth_error_app1 by lia. f_equal. lia.
Qed.

Lemma upd_length l i v : length (upd l i v) = length l.
Proof. revert i. induction l; destruct i; simpl; auto. Qed.
Lemma nth_error_upd l i v j :
  nth_error (upd l i v) j = if (Nat.eqb i j && Nat.ltb i (length l))%bool then Some v else nth_error l j.
Proof.
  revert i j. induction l as [|x l IH]; intros [|i] [|j]; simpl; auto.
  - destruct (Nat.eqb i j); auto.
  - rewrite IH. reflexivity.
Qed.
Lemma nth_error_upd_eq l i v : (i < length l)%nat -> nth_error (upd l i v) i = Some v.
Proof. intros H. rewrite nth_error_upd, Nat.eqb_refl. apply Nat.ltb_lt in H. now rewrite H. Qed.
Lemma nth_error_upd_neq l i v j : i <> j -> nth_error (upd l i v) j = nth_error l j.
Proof. intros H. rewrite nth_error_upd. apply Nat.eqb_neq in H. now rewrite H. Qed.
Lemma upd_app2 l1 l2 i v : (length l1 <= i)%nat -> upd (l1 ++ l2) i v = l1 ++ upd l2 (i - length l1) v.
Proof.
  revert i. induction l1 as [|x l1 IH]; intros i H; simpl in *.
  - now rewrite Nat.sub_0_r.
  - destruct i; [lia|]. simpl. rewrite IH by lia. reflexivity.
Qed.
Lemma upd_app1 l1 l2 i v : (i < length l1)%nat -> upd (l1 ++ l2) i v = upd l1 i v ++ l2.
Proof.
  revert i. induction l1 as [|x l1 IH]; intros i H; simpl in *; [lia|].
  destruct i; simpl; auto. now rewrite IH by lia.
Qed.
Lemma upd_split l i v : (i < length l)%nat -> upd l i v = firstn i l ++ v :: skipn (S i) l.
Proof.
  revert i. induction l as [|x l IH]; intros i H; simpl in *; [lia|].
  destruct i; simpl; auto. now rewrite IH by lia.
Qed.
Lemma nthz_upd l i v j : 0 <= i < Z.of_nat (length l) ->
  nthz (upd l (Z.to_nat i) v) j = if j =? i then Some v else nthz l j.
Proof.
  intros H. unfold nthz. destruct (Z.ltb_spec j 0).
  - destruct (Z.eqb_spec j i); [lia|reflexivity].
  - rewrite nth_error_upd. destruct (Z.eqb_spec j i) as [->|N].
    + rewrite Nat.eqb_refl. now rewrite (proj2 (Nat.ltb_lt _ _)) by lia.
    + destruct (Nat.eqb_spec (Z.to_nat i) (Z.to_nat j)); [lia|reflexivity].
Qed.
End Lists.

(** ** Slices *)
Section Slices.
Context {F : Type} {NF : Num F} {MO : MathOps F} {B : Build}.
Implicit Types (h : heap F) (s : mslice) (l : list F).

Lemma covers_len h s l : covers h s l -> 0 <= ms_len s /\ 4 * ms_len s <= isize_max.
Proof. intros (H & H' & _). lia. Qed.
Lemma covers_as_isize h s l : covers h s l -> as_isize (ms_len s) = ms_len s.
Proof. intros H. apply covers_len in H. apply as_isize_id. rewrite isize_min_max. lia. Qed.

Lemma get_unchecked_ok h s l i v : covers h s l -> nthz l i = Some v -> get_unchecked h s i = Ret v.
Proof.
  intros (Hl & _ & Hp) Hv. pose proof (nthz_bounds _ _ _ Hv) as Hi.
  unfold get_unchecked, ptr_add, ptr_read, cell. destruct (ms_ptr s) as [|b o].
  - subst l. simpl in Hi. lia.
  - destruct Hp as (pre & post & E & ->). rewrite E.
    rewrite !app_length.
    destruct (Z.leb_spec 0 (Z.of_nat (length pre) + i)); [|lia].
    destruct (Z.leb_spec (Z.of_nat (length pre) + i) (Z.of_nat (length pre + (length l + length post)))); [|lia].
    simpl. rewrite E. rewrite nthz_app_mid by lia. now rewrite Hv.
Qed.

(** A read at any address that holds a sample, inside the slice or not. *)
Lemma get_unchecked_cell h b o n i v : cell h b (o + i) = Some v -> get_unchecked h (MS (PAt b o) n) i = Ret v.
Proof.
  intros Hv. unfold get_unchecked, ptr_add, ptr_read. cbn [ms_ptr]. pose proof Hv as H. unfold cell in H.
  destruct (nth_error h b) as [blk|]; [|discriminate]. pose proof (nthz_bounds _ _ _ H) as Hb.
  rewrite (proj2 (Z.leb_le _ _)), (proj2 (Z.leb_le _ _)) by lia. cbn [andb bind]. now rewrite Hv.
Qed.

Lemma get_spec h s l i : covers h s l -> 0 <= i ->
  get h s i = Ret (match nthz l i with Some v => Ok v | None => Err IndexOutOfBound end).
Proof.
  intros C Hi. unfold get. pose proof C as (Hl & _).
  destruct (Z.leb_spec (ms_len s) i).
  - rewrite nthz_None by lia. reflexivity.
  - destruct (nthz_ex l i) as [v Hv]; [lia|]. rewrite Hv.
    now rewrite (get_unchecked_ok h s l i v C Hv).
Qed.

Lemma covers_addr h s l i : covers h s l -> 0 <= i < ms_len s -> exists b o,
  addr s i = Some (b, o) /\ cell h b o = nthz l i.
Proof.
  intros (Hl & _ & Hp) Hi. unfold addr, cell. destruct (ms_ptr s) as [|b o].
  - subst l. simpl in Hl. lia.
  - destruct Hp as (pre & post & E & ->). exists b, (Z.of_nat (length pre) + i).
    split; auto. rewrite E. apply nthz_app_mid. lia.
Qed.

Lemma cell_write h b o v bb oo l0 : nth_error h b = Some l0 -> 0 <= o < Z.of_nat (length l0) ->
  cell (upd h b (upd l0 (Z.to_nat o) v)) bb oo =
  if (Nat.eqb b bb && (o =? oo))%bool then Some v else cell h bb oo.
Proof.
  intros E Ho. unfold cell. rewrite nth_error_upd.
  assert (Hb : (b < length h)%nat) by (apply nth_error_Some; congruence).
  destruct (Nat.eqb_spec b bb) as [<-|Hne].
  - rewrite (proj2 (Nat.ltb_lt _ _) Hb). simpl. rewrite E.
    rewrite nthz_upd by lia. rewrite Z.eqb_sym. reflexivity.
  - reflexivity.
Qed.

(** A write through a slice: effect on the slice and on everything else. *)
Lemma assign_unchecked_ok h s l i v : covers h s l -> 0 <= i < ms_len s ->
  exists h', assign_unchecked h s i v = Ret h' /\
    covers h' s (upd l (Z.to_nat i) v) /\
    length h' = length h /\
    (forall b, option_map (@length F) (nth_error h' b) = option_map (@length F) (nth_error h b)) /\
    (forall b o, cell h' b o = if match addr s i with
                                  | Some (b0, o0) => Nat.eqb b0 b && (o0 =? o)
                                  | None => false end then Some v else cell h b o).
Proof.
  intros C Hi. pose proof C as (Hl & Hm & Hp).
  unfold assign_unchecked, ptr_add, ptr_write, addr, cell.
  destruct (ms_ptr s) as [|b o] eqn:Ep.
  - subst l. simpl in Hl. lia.
  - destruct Hp as (pre & post & E & ->). rewrite E. rewrite !app_length.
    destruct (Z.leb_spec 0 (Z.of_nat (length pre) + i)); [|lia].
    destruct (Z.leb_spec (Z.of_nat (length pre) + i) (Z.of_nat (length pre + (length l + length post)))); [|lia].
    simpl. rewrite E. destruct (nthz_ex l i) as [v0 Hv0]; [lia|].
    rewrite nthz_app_mid, Hv0 by lia.
    assert (Hb : (b < length h)%nat) by (apply nth_error_Some; congruence).
    assert (Hlen : 0 <= Z.of_nat (length pre) + i < Z.of_nat (length (pre ++ l ++ post)))
      by (rewrite !app_length; lia).
    eexists. split; [reflexivity|]. split; [|split; [|split]].
    + unfold covers. rewrite Ep, upd_length. split; [exact Hl|]. split; [exact Hm|].
      exists pre, post. split; auto.
      rewrite nth_error_upd_eq by exact Hb. f_equal.
      rewrite upd_app2 by lia. f_equal.
      replace (Z.to_nat (Z.of_nat (length pre) + i) - length pre)%nat with (Z.to_nat i) by lia.
      apply upd_app1. lia.
    + apply upd_length.
    + intros bb. rewrite nth_error_upd. destruct (Nat.eqb_spec b bb) as [<-|].
      * rewrite (proj2 (Nat.ltb_lt _ _) Hb). simpl. rewrite E. simpl. now rewrite upd_length.
      * reflexivity.
    + intros bb oo. apply (cell_write h b _ v bb oo _ E Hlen).
Qed.

(** A list is determined by its cells: how [covers] of any other slice changes. *)
Lemma list_ext {A} (l1 l2 : list A) : length l1 = length l2 ->
  (forall i, nth_error l1 i = nth_error l2 i) -> l1 = l2.
Proof.
  revert l2. induction l1 as [|x l1 IH]; intros [|y l2] Hl H; simpl in *; try discriminate; auto.
  f_equal.
  - specialize (H O). simpl in H. congruence.
  - apply IH; [lia|]. intros i. apply (H (S i)).
Qed.

Lemma covers_unique h s l l' : covers h s l -> covers h s l' -> l = l'.
Proof.
  intros C C'. pose proof C as (Hl & _). pose proof C' as (Hl' & _).
  apply list_ext; [lia|]. intros i.
  destruct (Nat.lt_ge_cases i (length l)) as [H|H].
  - destruct (covers_addr h s l (Z.of_nat i) C) as (b & o & A & E); [lia|].
    destruct (covers_addr h s l' (Z.of_nat i) C') as (b' & o' & A' & E'); [lia|].
    assert (nthz l (Z.of_nat i) = nthz l' (Z.of_nat i)) by congruence.
    unfold nthz in H0. destruct (Z.ltb_spec (Z.of_nat i) 0); [lia|].
    now rewrite Nat2Z.id in H0.
  - transitivity (@None F); [|symmetry]; apply nth_error_None; lia.
Qed.

(** Building [covers] back from the cells of the allocation. *)
Lemma covers_intro h b o (n : Z) : 0 <= o -> 0 <= n -> 4 * n <= isize_max ->
  (exists blk, nth_error h b = Some blk /\ o + n <= Z.of_nat (length blk)) ->
  exists l, covers h (MS (PAt b o) n) l.
Proof.
  intros Ho Hn Hm (blk & E & Hle).
  exists (firstn (Z.to_nat n) (skipn (Z.to_nat o) blk)).
  assert (Hlen : length (firstn (Z.to_nat n) (skipn (Z.to_nat o) blk)) = Z.to_nat n).
  { rewrite firstn_length, skipn_length. lia. }
  unfold covers. cbn [ms_len ms_ptr]. rewrite Hlen. split; [lia|]. split; [lia|].
  exists (firstn (Z.to_nat o) blk), (skipn (Z.to_nat n) (skipn (Z.to_nat o) blk)).
  split.
  - rewrite firstn_skipn. rewrite firstn_skipn. exact E.
  - rewrite firstn_length. lia.
Qed.

Lemma covers_frame h h' s l :
  (forall b, option_map (@length F) (nth_error h' b) = option_map (@length F) (nth_error h b)) ->
  covers h s l -> exists l', covers h' s l'.
Proof.
  intros Hlen C. pose proof C as (Hl & Hm & Hp). destruct s as [p n]. cbn [ms_len ms_ptr] in *.
  destruct p as [|b o].
  - exists []. subst l. unfold covers. cbn [ms_len ms_ptr]. auto.
  - destruct Hp as (pre & post & E & ->).
    apply covers_intro; try lia.
    specialize (Hlen b). rewrite E in Hlen. destruct (nth_error h' b) as [blk|]; [|discriminate].
    simpl in Hlen. injection Hlen as Hlen. rewrite !app_length in Hlen.
    exists blk. split; auto. lia.
Qed.

Lemma assign_spec h s l i v : covers h s l -> 0 <= i ->
  if i <? ms_len s then
    exists h', assign h s i v = Ret (h', Ok tt) /\
      covers h' s (upd l (Z.to_nat i) v) /\
      (forall b o, cell h' b o = if match addr s i with
                                  | Some (b0, o0) => Nat.eqb b0 b && (o0 =? o)
                                  | None => false end then Some v else cell h b o) /\
      (forall s2 l2, covers h s2 l2 -> exists l2', covers h' s2 l2' /\
         length l2' = length l2 /\
         forall j, 0 <= j < ms_len s2 ->
           nthz l2' j = if match addr s i, addr s2 j with
                           | Some (b0, o0), Some (b1, o1) => Nat.eqb b0 b1 && (o0 =? o1)
                           | _, _ => false end then Some v else nthz l2 j)
  else assign h s i v = Ret (h, Err IndexOutOfBound).
Proof.
  intros C Hi. unfold assign. destruct (Z.ltb_spec i (ms_len s)) as [H|H].
  - destruct (Z.leb_spec (ms_len s) i); [lia|].
    destruct (assign_unchecked_ok h s l i v C) as (h' & E & C' & L1 & L2 & Fr); [lia|].
    exists h'. rewrite E. simpl. repeat split; auto; try apply C'.
    intros s2 l2 C2. destruct (covers_frame h h' s2 l2 L2 C2) as [l2' C2'].
    exists l2'. pose proof C2 as (E2 & _). pose proof C2' as (E2' & _).
    split; auto. split; [lia|].
    intros j Hj. destruct (covers_addr h s2 l2 j C2 Hj) as (b & o & A & Ec).
    destruct (covers_addr h' s2 l2' j C2' Hj) as (b' & o' & A' & Ec').
    rewrite A in A'. injection A' as <- <-. rewrite <- Ec', Fr, A, Ec.
    destruct (addr s i) as [[b0 o0]|]; reflexivity.
  - destruct (Z.leb_spec (ms_len s) i); [reflexivity|lia].
Qed.

(** Wrapped reads. *)
Lemma get_wrapped_unchecked_ok h s l i : covers h s l -> 0 < ms_len s ->
  exists v, nthz l (i mod ms_len s) = Some v /\ get_wrapped_unchecked h s i = Ret v.
Proof.
  intros C Hn. pose proof (covers_len _ _ _ C) as Hlen. pose proof C as (Hl & _).
  pose proof (Z.mod_pos_bound i (ms_len s) Hn) as Hr.
  destruct (nthz_ex l (i mod ms_len s)) as [v Hv]; [lia|].
  exists v. split; auto. unfold get_wrapped_unchecked.
  rewrite (covers_as_isize _ _ _ C), rem_euclid_pos by lia. simpl.
  rewrite as_usize_id by (rewrite usize_isize; lia).
  now apply get_unchecked_ok with l.
Qed.
Lemma get_wrapped_unchecked_0 h s l i : covers h s l -> ms_len s = 0 ->
  get_wrapped_unchecked h s i = Panic.
Proof.
  intros C Hn. unfold get_wrapped_unchecked. rewrite (covers_as_isize _ _ _ C), Hn. reflexivity.
Qed.

Lemma get_wrapped_ok h s l i : covers h s l -> 0 < ms_len s -> is_isize i ->
  exists v, nthz l (i mod ms_len s) = Some v /\ get_wrapped h s i = Ret v.
Proof.
  intros C Hn Hi. pose proof (covers_len _ _ _ C) as Hlen. pose proof C as (Hl & _).
  unfold get_wrapped. rewrite (covers_as_isize _ _ _ C).
  destruct (Z.leb_spec (ms_len s) i); [apply get_wrapped_unchecked_ok; auto|].
  destruct (Z.ltb_spec i 0); [apply get_wrapped_unchecked_ok; auto|]. simpl.
  rewrite Z.mod_small by lia.
  destruct (nthz_ex l i) as [v Hv]; [lia|].
  exists v. split; auto. rewrite as_usize_id by (rewrite usize_isize; lia).
  now apply get_unchecked_ok with l.
Qed.
Lemma get_wrapped_0 h s l i : covers h s l -> ms_len s = 0 -> get_wrapped h s i = Panic.
Proof.
  intros C Hn. unfold get_wrapped. rewrite (covers_as_isize _ _ _ C), Hn.
  destruct (Z.leb_spec 0 i); [now apply get_wrapped_unchecked_0 with l|].
  destruct (Z.ltb_spec i 0); [now apply get_wrapped_unchecked_0 with l|lia].
Qed.

(** Four-sample window. *)
Lemma four_ok h s l i : covers h s l -> 0 < ms_len s -> isize_min <= i <= isize_max - 3 ->
  exists a b c d,
    nthz l (i mod ms_len s) = Some a /\ nthz l ((i + 1) mod ms_len s) = Some b /\
    nthz l ((i + 2) mod ms_len s) = Some c /\ nthz l ((i + 3) mod ms_len s) = Some d /\
    get_slice_of_four_wrapped h s i = Ret (a, b, c, d).
Proof.
  intros C Hn Hi. pose proof (covers_len _ _ _ C) as Hlen. pose proof C as (Hl & _).
  unfold get_slice_of_four_wrapped. rewrite (covers_as_isize _ _ _ C).
  rewrite !isize_add_ok by lia. simpl. rewrite !Z.add_0_r.
  destruct ((ms_len s <=? i + 3) || (i <? 0)) eqn:E.
  - destruct (get_wrapped_unchecked_ok h s l i C Hn) as (a & A1 & A2).
    destruct (get_wrapped_unchecked_ok h s l (i + 1) C Hn) as (b & B1 & B2).
    destruct (get_wrapped_unchecked_ok h s l (i + 2) C Hn) as (c & C1 & C2).
    destruct (get_wrapped_unchecked_ok h s l (i + 3) C Hn) as (d & D1 & D2).
    exists a, b, c, d. rewrite A2, B2, C2, D2. simpl. auto 6.
  - apply orb_false_iff in E as [E1 E2]. apply Z.leb_gt in E1. apply Z.ltb_ge in E2.
    rewrite !Z.mod_small by lia.
    destruct (nthz_ex l i) as [a A]; [lia|]. destruct (nthz_ex l (i + 1)) as [b B']; [lia|].
    destruct (nthz_ex l (i + 2)) as [c C']; [lia|]. destruct (nthz_ex l (i + 3)) as [d D]; [lia|].
    exists a, b, c, d. rewrite !as_usize_id by (rewrite usize_isize; lia).
    rewrite (get_unchecked_ok _ _ _ _ _ C A), (get_unchecked_ok _ _ _ _ _ C B'),
      (get_unchecked_ok _ _ _ _ _ C C'), (get_unchecked_ok _ _ _ _ _ C D). simpl. auto 6.
Qed.
Lemma four_0 h s l i : covers h s l -> ms_len s = 0 -> isize_min <= i <= isize_max - 3 ->
  get_slice_of_four_wrapped h s i = Panic \/ (i < 0 /\ get_slice_of_four_wrapped h s i = Panic).
Proof.
  intros C Hn Hi. left.
  unfold get_slice_of_four_wrapped. rewrite (covers_as_isize _ _ _ C), Hn.
  rewrite !isize_add_ok by lia. cbn [bind].
  replace ((0 <=? i + 3) || (i <? 0)) with true.
  - rewrite (get_wrapped_unchecked_0 h s l _ C Hn). reflexivity.
  - symmetry. apply orb_true_iff. destruct (Z.ltb_spec i 0); [now right|left; apply Z.leb_le; lia].
Qed.

Lemma get_unchecked_oob h s l i : covers h s l -> heap_ok h -> isize_max < 4 * i -> i <= usize_max ->
  get_unchecked h s i = UB.
Proof.
  intros (Hl & Hm & Hp) Hok Hi Hi2. unfold get_unchecked, ptr_add.
  pose proof isize_max_pos.
  destruct (ms_ptr s) as [|b o].
  - destruct (Z.eqb_spec i 0); [lia|reflexivity].
  - destruct Hp as (pre & post & E & ->). rewrite E. specialize (Hok _ _ E).
    destruct (Z.leb_spec (Z.of_nat (length pre) + i) (Z.of_nat (length (pre ++ l ++ post)))); [lia|].
    now rewrite andb_false_r.
Qed.

Lemma four_overflow h s l i : covers h s l -> heap_ok h -> isize_max - 3 < i <= isize_max ->
  get_slice_of_four_wrapped h s i = if ovf_checks then Panic else UB.
Proof.
  intros C Hok Hi. pose proof (covers_len _ _ _ C) as Hlen. pose proof isize_max_pos.
  unfold get_slice_of_four_wrapped. rewrite (covers_as_isize _ _ _ C).
  assert (E : isize_add i 3 = if ovf_checks then Panic else Ret (i + 3 - usize_mod)).
  { unfold isize_add. destruct (Z.leb_spec (i + 3) isize_max); [lia|]. rewrite andb_false_r.
    destruct ovf_checks; auto. unfold as_isize. f_equal.
    assert (E : 2 ^ (usize_bits - 1) = isize_max + 1) by (unfold isize_max; lia). rewrite E.
    rewrite usize_mod_max, usize_isize.
    replace (i + 3 + (isize_max + 1)) with (i + 3 - isize_max - 1 + 1 * (2 * isize_max + 1 + 1)) by lia.
    rewrite Z.mod_add by lia. rewrite Z.mod_small by lia. lia. }
  rewrite E. destruct ovf_checks eqn:Ov; [reflexivity|]. cbn [bind].
  destruct (Z.leb_spec (ms_len s) (i + 3 - usize_mod)).
  { rewrite usize_mod_max, usize_isize in H0. lia. }
  destruct (Z.ltb_spec i 0); [lia|]. cbn [orb].
  rewrite isize_add_ok by (rewrite isize_min_max; lia). cbn [bind]. rewrite Z.add_0_r.
  rewrite as_usize_id by (rewrite usize_isize; lia).
  rewrite (get_unchecked_oob h s l); auto; rewrite ?usize_isize; lia.
Qed.

(** Sub-slices. *)
Lemma get_sub_slice_spec h s l o n : covers h s l -> 0 <= o -> 0 <= n -> o + n <= usize_max ->
  (ms_len s <= o -> get_sub_slice h s o n = Ret (Err IndexOutOfBound)) /\
  (o < ms_len s <= o + n -> get_sub_slice h s o n = Ret (Err LengthOutOfBound)) /\
  (o + n < ms_len s -> exists s', get_sub_slice h s o n = Ret (Ok s') /\
     covers h s' (firstn (Z.to_nat n) (skipn (Z.to_nat o) l)) /\ ms_len s' = n /\
     forall i, addr s' i = addr s (o + i)).
Proof.
  intros C Ho Hn Hov. pose proof C as (Hl & Hm & Hp). unfold get_sub_slice.
  rewrite usize_add_ok by lia. cbn [bind]. split; [|split]; intros H.
  - now rewrite (proj2 (Z.leb_le _ _) H).
  - destruct (Z.leb_spec (ms_len s) o); [lia|].
    now rewrite (proj2 (Z.leb_le (ms_len s) (o + n))) by lia.
  - destruct (Z.leb_spec (ms_len s) o); [lia|].
    destruct (Z.leb_spec (ms_len s) (o + n)); [lia|].
    unfold ptr_add, addr. destruct (ms_ptr s) as [|b p] eqn:Ep.
    + subst l. simpl in Hl. lia.
    + destruct Hp as (pre & post & E & ->). rewrite E, !app_length.
      destruct (Z.leb_spec 0 (Z.of_nat (length pre) + o)); [|lia].
      destruct (Z.leb_spec (Z.of_nat (length pre) + o) (Z.of_nat (length pre + (length l + length post)))); [|lia].
      cbn [andb bind]. eexists. split; [reflexivity|]. cbn [ms_len ms_ptr].
      split; [|split; [reflexivity|]].
      2:{ intros i. f_equal. f_equal. lia. }
      unfold covers. cbn [ms_len ms_ptr].
      assert (Hlen : length (firstn (Z.to_nat n) (skipn (Z.to_nat o) l)) = Z.to_nat n).
      { rewrite firstn_length, skipn_length. lia. }
      rewrite Hlen. split; [lia|]. split; [lia|].
      exists (pre ++ firstn (Z.to_nat o) l), (skipn (Z.to_nat n) (skipn (Z.to_nat o) l) ++ post).
      split.
      * rewrite E. f_equal. rewrite <- (firstn_skipn (Z.to_nat o) l) at 1.
        rewrite <- (firstn_skipn (Z.to_nat n) (skipn (Z.to_nat o) l)) at 1.
        now rewrite <- !app_assoc.
      * rewrite app_length, firstn_length. lia.
Qed.

Lemma sub_overflow_checks h s l o n : covers h s l -> 0 <= o < ms_len s -> usize_max < o + n ->
  ovf_checks = true -> get_sub_slice h s o n = Panic.
Proof.
  intros C Ho Hov Hc. unfold get_sub_slice. destruct (Z.leb_spec (ms_len s) o); [lia|].
  unfold usize_add. destruct (Z.leb_spec (o + n) usize_max); [lia|]. now rewrite Hc.
Qed.

Lemma sub_overflow_ub h s l : covers h s l -> heap_ok h -> 2 <= ms_len s -> ovf_checks = false ->
  exists o n s' i, 0 <= o < ms_len s /\ is_usize n /\ is_usize i /\
    get_sub_slice h s o n = Ret (Ok s') /\ ms_len s' = n /\ ms_len s < n /\
    get h s' i = UB.
Proof.
  intros C Hok H2 Hc. pose proof C as (Hl & Hm & Hp). pose proof isize_max_pos.
  exists 1, usize_max. unfold get_sub_slice.
  destruct (Z.leb_spec (ms_len s) 1); [lia|].
  assert (E : usize_add 1 usize_max = Ret 0).
  { unfold usize_add. destruct (Z.leb_spec (1 + usize_max) usize_max); [lia|]. rewrite Hc.
    unfold as_usize. rewrite usize_mod_max. replace (1 + usize_max) with (usize_max + 1) by lia.
    now rewrite Z.mod_same by (rewrite usize_isize; lia). }
  rewrite E. cbn [bind]. destruct (Z.leb_spec (ms_len s) 0); [lia|].
  unfold ptr_add. destruct (ms_ptr s) as [|b p] eqn:Ep.
  { subst l. simpl in Hl. lia. }
  destruct Hp as (pre & post & En & ->). rewrite En, !app_length.
  destruct (Z.leb_spec 0 (Z.of_nat (length pre) + 1)); [|lia].
  destruct (Z.leb_spec (Z.of_nat (length pre) + 1) (Z.of_nat (length pre + (length l + length post)))); [|lia].
  cbn [andb bind]. eexists. exists isize_max.
  split; [lia|]. split; [unfold is_usize; rewrite usize_isize; lia|].
  split; [unfold is_usize; rewrite usize_isize; lia|].
  split; [reflexivity|]. split; [reflexivity|]. split; [rewrite usize_isize; lia|].
  unfold get. cbn [ms_len]. destruct (Z.leb_spec usize_max isize_max); [rewrite usize_isize in *; lia|].
  unfold get_unchecked, ptr_add. cbn [ms_ptr]. rewrite En.
  specialize (Hok _ _ En).
  destruct (Z.leb_spec (Z.of_nat (length pre) + 1 + isize_max) (Z.of_nat (length (pre ++ l ++ post)))); [lia|].
  now rewrite andb_false_r.
Qed.
End Slices.

(** ** Sub-slices as aliases *)
Lemma nth_error_skipn {A} (l : list A) o i : nth_error (skipn o l) i = nth_error l (o + i).
Proof.
  revert o. induction l as [|x l IH]; intros [|o]; simpl; auto. now destruct i.
Qed.
Lemma nth_error_firstn {A} (l : list A) n i : (i < n)%nat -> nth_error (firstn n l) i = nth_error l i.
Proof.
  revert n i. induction l as [|x l IH]; intros [|n] [|i] H; simpl; auto; try lia. apply IH. lia.
Qed.
Lemma nth_error_sub {A} (l : list A) n o i : (i < n)%nat ->
  nth_error (firstn n (skipn o l)) i = nth_error l (o + i).
Proof. intros H. rewrite nth_error_firstn by exact H. apply nth_error_skipn. Qed.

Section Alias.
Context {F : Type} {B : Build}.
Implicit Types (h : heap F) (s : mslice) (l : list F).

Lemma sub_inv h s l o n s' : covers h s l -> 0 <= o -> 0 <= n -> o + n <= usize_max ->
  get_sub_slice h s o n = Ret (Ok s') ->
  o + n < ms_len s /\ exists b p, ms_ptr s = PAt b p /\ s' = MS (PAt b (p + o)) n.
Proof.
  intros C Ho Hn Hov E. pose proof C as (Hl & Hm & Hp).
  destruct (get_sub_slice_spec h s l o n C Ho Hn Hov) as (S1 & S2 & S3).
  destruct (Z.le_gt_cases (ms_len s) o); [rewrite S1 in E by lia; discriminate|].
  destruct (Z.le_gt_cases (ms_len s) (o + n)); [rewrite S2 in E by lia; discriminate|].
  destruct (S3 ltac:(lia)) as (s2 & E2 & C2 & L2 & A2). rewrite E2 in E. injection E as <-.
  split; [lia|]. specialize (A2 0). unfold addr in A2.
  destruct (ms_ptr s) as [|b p]; [subst l; simpl in Hl; lia|]. exists b, p. split; auto.
  destruct s2 as [p2 n2]. cbn in *. subst n2. destruct p2 as [|b2 o2]; [discriminate|].
  injection A2 as -> A2. f_equal. f_equal. lia.
Qed.

Lemma sub_alias h s l o n s' : covers h s l -> is_usize o -> is_usize n -> o + n <= usize_max ->
  get_sub_slice h s o n = Ret (Ok s') ->
  ms_len s' = n /\ o + n <= ms_len s /\
  (forall h2 l2, covers h2 s l2 -> covers h2 s' (firstn (Z.to_nat n) (skipn (Z.to_nat o) l2))) /\
  (forall h2 l2 i, covers h2 s l2 -> 0 <= i < n -> get h2 s' i = get h2 s (o + i)) /\
  (forall h2 l2 i v, covers h2 s l2 -> 0 <= i < n -> assign h2 s' i v = assign h2 s (o + i) v).
Proof.
  intros C Ho Hn Hov E. unfold is_usize in Ho, Hn.
  destruct (sub_inv h s l o n s' C ltac:(lia) ltac:(lia) Hov E) as (Hlt & b & p & Ep & ->).
  cbn [ms_len]. split; [reflexivity|]. split; [lia|].
  assert (Cov : forall h2 l2, covers h2 s l2 ->
            covers h2 (MS (PAt b (p + o)) n) (firstn (Z.to_nat n) (skipn (Z.to_nat o) l2))).
  { intros h2 l2 C2.
    destruct (get_sub_slice_spec h2 s l2 o n C2 ltac:(lia) ltac:(lia) Hov) as (_ & _ & S3).
    destruct (S3 Hlt) as (s3 & E3 & C3 & _).
    destruct (sub_inv h2 s l2 o n s3 C2 ltac:(lia) ltac:(lia) Hov E3) as (_ & b' & p' & Ep' & ->).
    rewrite Ep in Ep'. injection Ep' as <- <-. exact C3. }
  split; [exact Cov|]. split.
  - intros h2 l2 i C2 Hi. rewrite (get_spec h2 s l2 (o + i) C2) by lia.
    rewrite (get_spec h2 _ _ i (Cov h2 l2 C2)) by lia. pose proof C2 as (Hl2 & _).
    do 2 f_equal. unfold nthz. destruct (Z.ltb_spec i 0); [lia|]. destruct (Z.ltb_spec (o + i) 0); [lia|].
    replace (Z.to_nat (o + i)) with (Z.to_nat o + Z.to_nat i)%nat by lia.
    rewrite nth_error_sub by lia. reflexivity.
  - intros h2 l2 i v C2 Hi. unfold assign. cbn [ms_len].
    destruct (Z.leb_spec n i); [lia|]. destruct (Z.leb_spec (ms_len s) (o + i)); [lia|].
    unfold assign_unchecked. cbn [ms_ptr]. rewrite Ep. unfold ptr_add.
    now replace (p + o + i) with (p + (o + i)) by lia.
Qed.
End Alias.
