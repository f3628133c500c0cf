(** * Lemmas for C102, C103 and C104. *)

From Coq Require Import ZArith List Bool Lia.
From Verif Require Import Base F32 Num M_Memory M_Delay M_Threads S_Memory S_Delay S_Rack S_Threads
  P_Memory P_Delay.
Import ListNotations.
Open Scope Z_scope.

Section P.
Context {F : Type} {NF : Num F} {B : Build}.
Implicit Types (h : heap F) (ss : list mslice) (bank : list (list F)) (v : voice F).

(** ** Single accesses *)
Definition same_shape h h' : Prop :=
  forall b, option_map (@length F) (nth_error h' b) = option_map (@length F) (nth_error h b).

Lemma load_inv h s i y : get_unchecked h s i = Ret y ->
  exists b o, addr s i = Some (b, o) /\ cell h b o = Some y.
Proof.
  unfold get_unchecked, ptr_add, ptr_read, addr. destruct (ms_ptr s) as [|b o].
  - destruct (i =? 0); discriminate.
  - destruct (nth_error h b) eqn:E; [|discriminate].
    destruct (_ && _)%bool; [|discriminate]. cbn [bind].
    destruct (cell h b (o + i)) as [z|] eqn:C; [|discriminate].
    intros H. injection H as <-. eauto.
Qed.
Lemma load_ok h s i b o y : addr s i = Some (b, o) -> cell h b o = Some y -> get_unchecked h s i = Ret y.
Proof.
  unfold get_unchecked, ptr_add, ptr_read, addr. destruct (ms_ptr s) as [|b0 o0]; [discriminate|].
  intros H C. injection H as <- <-. pose proof C as C'. unfold cell in C'.
  destruct (nth_error h b0) as [l|] eqn:E; [|discriminate].
  apply nthz_bounds in C'.
  destruct (Z.leb_spec 0 (o0 + i)); [|lia]. destruct (Z.leb_spec (o0 + i) (Z.of_nat (length l))); [|lia].
  cbn [andb bind]. now rewrite C.
Qed.
Lemma store_inv h s i x h' : assign_unchecked h s i x = Ret h' ->
  exists b o, addr s i = Some (b, o) /\ same_shape h h' /\
    forall b' o', cell h' b' o' = if (Nat.eqb b b' && (o =? o'))%bool then Some x else cell h b' o'.
Proof.
  unfold assign_unchecked, ptr_add, ptr_write, addr. destruct (ms_ptr s) as [|b o].
  - destruct (i =? 0); discriminate.
  - destruct (nth_error h b) as [l|] eqn:E; [|discriminate].
    destruct (_ && _)%bool; [|discriminate]. cbn [bind]. rewrite E.
    destruct (cell h b (o + i)) as [z|] eqn:C; [|discriminate].
    intros H. injection H as <-. exists b, (o + i). split; [reflexivity|]. split.
    + intros b'. rewrite nth_error_upd. destruct (Nat.eqb_spec b b') as [<-|NE]; [|reflexivity].
      destruct (b <? length h)%nat; cbn [andb]; [|reflexivity]. rewrite E. cbn. now rewrite upd_length.
    + intros b' o'. unfold cell in C. rewrite E in C. apply nthz_bounds in C.
      now apply cell_write.
Qed.
Lemma store_ok h s i b o x : addr s i = Some (b, o) -> cell h b o <> None ->
  exists h', assign_unchecked h s i x = Ret h'.
Proof.
  unfold assign_unchecked, ptr_add, ptr_write, addr. destruct (ms_ptr s) as [|b0 o0]; [discriminate|].
  intros H C. injection H as <- <-. destruct (cell h b0 (o0 + i)) as [z|] eqn:C'; [|congruence].
  pose proof C' as C2. unfold cell in C2.
  destruct (nth_error h b0) as [l|] eqn:E; [|discriminate].
  apply nthz_bounds in C2.
  destruct (Z.leb_spec 0 (o0 + i)); [|lia]. destruct (Z.leb_spec (o0 + i) (Z.of_nat (length l))); [|lia].
  cbn [andb bind]. rewrite E, C'. eauto.
Qed.

(** A slice none of whose cells changed still covers the same samples. *)
Lemma covers_kept h h' s l : same_shape h h' ->
  (forall b o, in_slice s b o -> cell h' b o = cell h b o) ->
  covers h s l -> covers h' s l.
Proof.
  intros Hlen Hc C. destruct (covers_frame h h' s l Hlen C) as [l' C'].
  assert (l' = l); [|subst; exact C'].
  pose proof C as (Hl & _). pose proof C' as (Hl' & _).
  apply list_ext; [lia|]. intros i.
  destruct (Nat.lt_ge_cases i (length l)) as [H|H].
  - destruct (covers_addr h s l (Z.of_nat i) C) as (b & o & A & E); [lia|].
    destruct (covers_addr h' s l' (Z.of_nat i) C') as (b' & o' & A' & E'); [lia|].
    assert (b' = b /\ o' = o) as [-> ->] by (rewrite A in A'; now injection A').
    rewrite Hc in E' by (exists (Z.of_nat i); split; [lia|exact A]).
    assert (Q : nthz l' (Z.of_nat i) = nthz l (Z.of_nat i)) by congruence.
    unfold nthz in Q. destruct (Z.ltb_spec (Z.of_nat i) 0); [lia|].
    now rewrite Nat2Z.id in Q.
  - transitivity (@None F); [|symmetry]; apply nth_error_None; lia.
Qed.

(** ** Programs that run within a set of cells *)
Fixpoint runs {A} (P : nat -> Z -> Prop) h (p : prog F A) (post : heap F -> A -> Prop) : Prop :=
  match p with
  | Done o => exists a, o = Ret a /\ post h a
  | Load s i k => exists b o y, addr s i = Some (b, o) /\ P b o /\ cell h b o = Some y /\ runs P h (k y) post
  | Store s i x k => exists b o h', addr s i = Some (b, o) /\ P b o /\ assign_unchecked h s i x = Ret h' /\
      runs P h' k post
  end.

Lemma runs_bind {A C} P (p : prog F A) (k : A -> prog F C) post : forall h,
  runs P h p (fun h' a => runs P h' (k a) post) -> runs P h (pbind p k) post.
Proof.
  induction p as [o|s i f IH|s i x q IH]; intros h R; cbn [runs pbind] in *.
  - destruct R as (a & -> & R). exact R.
  - destruct R as (b & o & y & E1 & E2 & E3 & R). exists b, o, y. auto.
  - destruct R as (b & o & h' & E1 & E2 & E3 & R). exists b, o, h'. auto.
Qed.
Lemma runs_weaken {A} P (p : prog F A) (post post' : heap F -> A -> Prop) :
  (forall h a, post h a -> post' h a) -> forall h, runs P h p post -> runs P h p post'.
Proof.
  intros W. induction p as [o|s i f IH|s i x q IH]; intros h R; cbn [runs] in *.
  - destruct R as (a & -> & R). eauto.
  - destruct R as (b & o & y & E1 & E2 & E3 & R). exists b, o, y. auto.
  - destruct R as (b & o & h' & E1 & E2 & E3 & R). exists b, o, h'. auto.
Qed.

Lemma runs_exec {A} P (p : prog F A) post : forall h, runs P h p post ->
  exists h' a, exec h p = Ret (h', a) /\ post h' a /\ same_except P h h'.
Proof.
  induction p as [o|s i f IH|s i x q IH]; intros h R; cbn [runs exec] in *.
  - destruct R as (a & -> & R). exists h, a. split; [reflexivity|]. split; [exact R|]. intros b' o' _. reflexivity.
  - destruct R as (b & o & y & E1 & E2 & E3 & R). rewrite (load_ok h s i b o y E1 E3). cbn [bind]. now apply IH.
  - destruct R as (b & o & h' & E1 & E2 & E3 & R). rewrite E3. cbn [bind].
    destruct (IH h' R) as (h2 & a & E & Q & S). exists h2, a. split; [exact E|]. split; [exact Q|].
    destruct (store_inv _ _ _ _ _ E3) as (b1 & o1 & A1 & _ & C1). rewrite E1 in A1. injection A1 as <- <-.
    intros b' o' N. rewrite (S b' o' N), C1. destruct (Nat.eqb_spec b b') as [<-|]; [|reflexivity].
    destruct (Z.eqb_spec o o') as [<-|]; [|reflexivity]. contradiction.
Qed.

Definition agree_on (P : nat -> Z -> Prop) h h' : Prop :=
  same_shape h h' /\ forall b o, P b o -> cell h' b o = cell h b o.

Lemma runs_frame {A} P (p : prog F A) (post : heap F -> A -> Prop) :
  (forall h1 h2 a, agree_on P h1 h2 -> post h1 a -> post h2 a) ->
  forall h1 h2, agree_on P h1 h2 -> runs P h1 p post -> runs P h2 p post.
Proof.
  intros ST. induction p as [o|s i f IH|s i x q IH]; intros h1 h2 AG R; cbn [runs] in *.
  - destruct R as (a & -> & R). eauto.
  - destruct R as (b & o & y & E1 & E2 & E3 & R). exists b, o, y. split; [exact E1|]. split; [exact E2|].
    split; [rewrite (proj2 AG b o E2); exact E3|]. exact (IH y h1 h2 AG R).
  - destruct R as (b & o & h1' & E1 & E2 & E3 & R).
    destruct (store_inv _ _ _ _ _ E3) as (b1 & o1 & A1 & S1 & C1). rewrite E1 in A1. injection A1 as <- <-.
    destruct (store_ok h2 s i b o x E1) as [h2' E3'].
    { rewrite (proj2 AG b o E2). intros N.
      unfold assign_unchecked, ptr_add, ptr_write, addr in *. destruct (ms_ptr s) as [|b0 o0]; [discriminate|].
      injection E1 as <- <-. destruct (nth_error h1 b0) as [l|] eqn:EN; [|discriminate].
      destruct (_ && _)%bool; [|discriminate]. cbn [bind] in E3. rewrite EN, N in E3. discriminate. }
    destruct (store_inv _ _ _ _ _ E3') as (b2 & o2 & A2 & S2 & C2). rewrite E1 in A2. injection A2 as <- <-.
    exists b, o, h2'. split; [exact E1|]. split; [exact E2|]. split; [exact E3'|].
    apply (IH h1' h2'); [|exact R]. split.
    + intros b'. rewrite S2, (proj1 AG), S1. reflexivity.
    + intros b' o' HP. rewrite C1, C2. destruct (_ && _)%bool; [reflexivity|]. now apply (proj2 AG).
Qed.

(** ** Executing a program without interruption is the call *)
Lemma exec_bind {A C} (p : prog F A) (k : A -> prog F C) : forall h,
  exec h (pbind p k) = do r <- exec h p ; exec (fst r) (k (snd r)).
Proof.
  induction p as [o|s i f IH|s i x q IH]; intros h; cbn [exec pbind].
  - destruct o; reflexivity.
  - destruct (get_unchecked h s i); cbn [bind]; auto.
  - destruct (assign_unchecked h s i x); cbn [bind]; auto.
Qed.

Lemma exec_get h s i : exec h (p_get s i) = do r <- get h s i ; Ret (h, r).
Proof.
  unfold p_get, get. destruct (ms_len s <=? i); [reflexivity|]. cbn [exec].
  destruct (get_unchecked h s i); reflexivity.
Qed.
Lemma exec_assign h s i x : exec h (p_assign s i x) = assign h s i x.
Proof.
  unfold p_assign, assign. destruct (ms_len s <=? i); [reflexivity|]. cbn [exec].
  destruct (assign_unchecked h s i x); reflexivity.
Qed.
Lemma exec_get_wrapped h s i : exec h (p_get_wrapped s i) = do y <- get_wrapped h s i ; Ret (h, y).
Proof.
  unfold p_get_wrapped, get_wrapped, get_wrapped_unchecked. destruct (_ || _)%bool.
  - destruct (isize_rem_euclid i (as_isize (ms_len s))) as [r| |]; reflexivity.
  - cbn [exec]. destruct (get_unchecked h s (as_usize i)); reflexivity.
Qed.
Lemma exec_dl_read h d : exec h (p_dl_read d) = do y <- dl_read h d ; Ret (h, y).
Proof. unfold p_dl_read, dl_read. cbn [exec]. destruct (get_unchecked h _ _); reflexivity. Qed.
Lemma exec_dl_tap h d j : exec h (p_dl_read_wrapped_at d j) = do y <- dl_read_wrapped_at h d j ; Ret (h, y).
Proof.
  unfold p_dl_read_wrapped_at, dl_read_wrapped_at. rewrite exec_bind. cbn [exec].
  destruct (isize_add _ _) as [i| |]; try reflexivity. cbn [bind fst snd]. apply exec_get_wrapped.
Qed.
Lemma exec_dl_write h d x : exec h (p_dl_write_and_advance d x) = dl_write_and_advance h d x.
Proof.
  unfold p_dl_write_and_advance, dl_write_and_advance. cbn [exec].
  destruct (assign_unchecked h _ _ x); try reflexivity.
Qed.
Lemma exec_ap_tick h a x : exec h (p_ap_tick a x) =
  do r <- ap_tick h a x ; Ret (fst (fst r), (snd (fst r), snd r)).
Proof.
  unfold p_ap_tick, ap_tick. rewrite exec_bind, exec_dl_read.
  destruct (dl_read h (ap_dl a)) as [y| |]; try reflexivity. cbn [bind fst snd].
  rewrite exec_bind, exec_dl_write. destruct (dl_write_and_advance _ _ _) as [[h' d']| |]; reflexivity.
Qed.
Lemma exec_cb_tick h c x : exec h (p_cb_tick c x) =
  do r <- cb_tick h c x ; Ret (fst (fst r), (snd (fst r), snd r)).
Proof.
  unfold p_cb_tick, cb_tick. rewrite exec_bind, exec_dl_read.
  destruct (dl_read h (cb_dl c)) as [y| |]; try reflexivity. cbn [bind fst snd].
  rewrite exec_bind, exec_dl_write. destruct (dl_write_and_advance _ _ _) as [[h' d']| |]; reflexivity.
Qed.

Lemma exec_unit_step ss h u c : exec h (p_unit_step ss u c) = unit_step ss h u c.
Proof.
  destruct u as [s|d|a|cb], c as [i|i x| |j|x| |x|x|x|k]; cbn [p_unit_step unit_step]; try reflexivity;
    try (destruct (nth_error ss k); reflexivity); rewrite exec_bind.
  all: first
    [ rewrite exec_get; destruct (get _ _ _); reflexivity
    | rewrite exec_assign; destruct (assign _ _ _ _) as [[h' r]| |]; reflexivity
    | rewrite exec_dl_read; destruct (dl_read _ _); reflexivity
    | rewrite exec_dl_tap; destruct (dl_read_wrapped_at _ _ _); reflexivity
    | rewrite exec_dl_write; destruct (dl_write_and_advance _ _ _) as [[h' r]| |]; reflexivity
    | cbn [exec]; destruct (dl_advance d); reflexivity
    | rewrite exec_ap_tick; destruct (ap_tick _ _ _) as [[[h' r] y]| |]; reflexivity
    | rewrite exec_cb_tick; destruct (cb_tick _ _ _) as [[[h' r] y]| |]; reflexivity ].
Qed.

Lemma exec_rack ss : forall cs h us, exec h (p_rack ss us cs) = rack_run ss h us cs.
Proof.
  induction cs as [|[j c] cs IH]; intros h us; cbn [p_rack rack_run]; [reflexivity|].
  destruct (nth_error us j) as [u|].
  - rewrite exec_bind, exec_unit_step. destruct (unit_step ss h u c) as [[h1 a]| |]; try reflexivity.
    cbn [bind fst snd]. rewrite exec_bind, IH.
    destruct (rack_run ss h1 (upd us j (fst a)) cs) as [[h2 e]| |]; reflexivity.
  - rewrite exec_bind, IH. destruct (rack_run ss h us cs) as [[h2 e]| |]; reflexivity.
Qed.

(** ** Units against voices *)
Definition line_rel ss (d : delay_line) v : Prop :=
  nth_error ss (slot v) = Some (dl_buf d) /\ dl_idx d = Z.of_nat (pos v).

Definition unit_rel ss (u : unit_ F) v : Prop :=
  match u, what v with
  | USlice s, Slice => nth_error ss (slot v) = Some s
  | ULine d, Line => line_rel ss d v
  | UPass a, Pass => line_rel ss (ap_dl a) v
  | UComb c, Comb fb st damp => line_rel ss (cb_dl c) v /\ cb_feedback c = fb /\ cb_state c = st /\
      cb_damp c = damp /\ cb_damp_inv c = nsub (nint 1) damp
  | _, _ => False
  end.

Lemma slot_covers ss h bank v s : bank_in h ss bank -> nth_error ss (slot v) = Some s ->
  covers h s (list_of bank v) /\ nth_error bank (slot v) = Some (list_of bank v).
Proof.
  intros [L BI] Es. unfold list_of.
  assert (H : (slot v < length bank)%nat) by (rewrite <- L; apply nth_error_Some; congruence).
  pose proof (nth_error_nth' bank [] H) as E. split; [|exact E]. eauto.
Qed.

Lemma line_load ss h bank v s i y : bank_in h ss bank -> nth_error ss (slot v) = Some s ->
  nthz (list_of bank v) i = Some y ->
  exists b o, addr s i = Some (b, o) /\ in_any ss b o /\ cell h b o = Some y.
Proof.
  intros BI Es Ey. destruct (slot_covers _ _ _ _ _ BI Es) as [C _]. pose proof C as (Hl & _).
  pose proof (nthz_bounds _ _ _ Ey).
  destruct (covers_addr h s (list_of bank v) i C) as (b & o & A & E); [lia|].
  exists b, o. split; [exact A|]. split; [|congruence].
  exists s. split; [eapply nth_error_In; exact Es|]. exists i. split; [lia|exact A].
Qed.

Lemma line_store ss h bank v s i x : apart ss -> bank_in h ss bank -> nth_error ss (slot v) = Some s ->
  (i < length (list_of bank v))%nat ->
  exists b o h', addr s (Z.of_nat i) = Some (b, o) /\ in_any ss b o /\
    assign_unchecked h s (Z.of_nat i) x = Ret h' /\ bank_in h' ss (store bank v i x).
Proof.
  intros AP BI Es Hi. destruct (slot_covers _ _ _ _ _ BI Es) as [C El]. pose proof C as (Hl & _).
  destruct BI as [BL BI].
  destruct (covers_addr h s (list_of bank v) (Z.of_nat i) C) as (b & o & A & E); [lia|].
  assert (IS : in_slice s b o) by (exists (Z.of_nat i); split; [lia|exact A]).
  destruct (assign_unchecked_ok h s (list_of bank v) (Z.of_nat i) x C ltac:(lia)) as (h' & Ea & C' & _ & Lb & Fr).
  rewrite Nat2Z.id in C'.
  exists b, o, h'. split; [exact A|]. split; [exists s; split; [eapply nth_error_In; exact Es|exact IS]|].
  split; [exact Ea|]. unfold store. split; [rewrite upd_length; exact BL|].
  intros k t l0 Hs Hl0. destruct (Nat.eq_dec (slot v) k) as [<-|NE].
  - rewrite nth_error_upd_eq in Hl0 by (apply nth_error_Some; congruence).
    injection Hl0 as <-. replace t with s by congruence. exact C'.
  - rewrite nth_error_upd_neq in Hl0 by exact NE.
    apply (covers_kept h); [exact Lb| |eauto].
    intros b' o' I. rewrite Fr, A. destruct (Nat.eqb_spec b b') as [<-|]; [|reflexivity].
    destruct (Z.eqb_spec o o') as [<-|]; [|reflexivity].
    exfalso. apply NE. exact (AP _ _ _ _ _ _ Es Hs IS I).
Qed.

Lemma sample_nthz bank v y : sample bank v = Some y -> nthz (list_of bank v) (Z.of_nat (pos v)) = Some y.
Proof. intros H. apply nthz_Some. split; [lia|]. now rewrite Nat2Z.id. Qed.
Lemma sample_lt bank v y : sample bank v = Some y -> (pos v < length (list_of bank v))%nat.
Proof. intros H. apply nth_error_Some. unfold sample in H. congruence. Qed.

Lemma line_adv ss h bank d v y w : bank_in h ss bank -> line_rel ss d v -> sample bank v = Some y ->
  exists d', dl_advance d = Ret d' /\ line_rel ss d' (Voice (slot v) (next bank v) w).
Proof.
  intros BI [Es Ei] S. pose proof (sample_lt _ _ _ S) as Hp.
  destruct (slot_covers _ _ _ _ _ BI Es) as [(Hl & Hm & _) _].
  unfold dl_advance, next. rewrite usize_sub_ok by lia. cbn [bind].
  set (l := list_of bank v) in *.
  destruct (Z.eqb_spec (dl_idx d) (ms_len (dl_buf d) - 1)) as [E|E].
  - eexists. split; [reflexivity|]. split; [exact Es|]. cbn [dl_idx pos].
    replace (Datatypes.S (pos v)) with (length l) by lia. rewrite Nat.mod_same by lia. reflexivity.
  - rewrite usize_add_ok by (rewrite usize_isize; lia). cbn [bind].
    eexists. split; [reflexivity|]. split; [exact Es|]. cbn [dl_idx pos].
    rewrite Nat.mod_small by lia. lia.
Qed.

(** What is kept by a step: lists and voices. *)
Definition kept ss bank' v' (y : reply F) h' (a : unit_ F * reply F) : Prop :=
  bank_in h' ss bank' /\ unit_rel ss (fst a) v' /\ snd a = y.

Lemma run_read ss h bank d v y : bank_in h ss bank -> line_rel ss d v -> sample bank v = Some y ->
  runs (in_any ss) h (p_dl_read d) (fun h' a => h' = h /\ a = y).
Proof.
  intros BI [Es Ei] S. unfold p_dl_read. cbn [runs]. rewrite Ei.
  destruct (line_load _ _ _ _ _ _ _ BI Es (sample_nthz _ _ _ S)) as (b & o & A & I & C).
  exists b, o, y. split; [exact A|]. split; [exact I|]. split; [exact C|]. eauto.
Qed.
Lemma run_write ss h bank d v y x w : apart ss -> bank_in h ss bank -> line_rel ss d v -> sample bank v = Some y ->
  runs (in_any ss) h (p_dl_write_and_advance d x) (fun h' d' => bank_in h' ss (store bank v (pos v) x) /\
    line_rel ss d' (Voice (slot v) (next bank v) w)).
Proof.
  intros AP BI LR S. destruct (line_adv ss h bank d v y w BI LR S) as (d' & Ed & LR').
  destruct LR as [Es Ei]. unfold p_dl_write_and_advance. cbn [runs]. rewrite Ei.
  destruct (line_store _ _ _ _ _ _ x AP BI Es (sample_lt _ _ _ S)) as (b & o & h' & A & I & E & BI').
  exists b, o, h'. split; [exact A|]. split; [exact I|]. split; [exact E|]. exists d'. auto.
Qed.

Lemma unit_step_runs ss h bank u v c bank' v' y : apart ss -> bank_in h ss bank -> unit_rel ss u v ->
  voice_step bank v c = Some (bank', (v', y)) ->
  runs (in_any ss) h (p_unit_step ss u c) (kept ss bank' v' y).
Proof.
  intros AP BI UR SP.
  assert (CASE : forall k, c = Change k -> runs (in_any ss) h (p_unit_step ss u c) (kept ss bank' v' y)).
  { intros k ->.
    assert (Q : Some (bank, (if (k <? length bank)%nat then Voice k (pos v) (what v) else v, @Nothing F))
                = Some (bank', (v', y))).
    { rewrite <- SP. unfold voice_step. destruct (what v), (k <? length bank)%nat; reflexivity. }
    injection Q as <- <- <-. pose proof (proj1 BI) as BL.
    destruct (Nat.ltb_spec k (length bank)) as [L|L].
    - destruct (nth_error ss k) as [s|] eqn:Ek; [|apply nth_error_None in Ek; lia].
      destruct u as [t|d|a|cc]; cbn [p_unit_step]; rewrite Ek; cbn [runs]; eexists; (split; [reflexivity|]);
        (split; [exact BI|]); (split; [|reflexivity]);
        unfold unit_rel in *; cbn [what fst]; destruct (what v); try contradiction;
        unfold line_rel in *; cbn [slot pos dl_change_buffer ap_change_buffer cb_change_buffer
          ap_dl cb_dl dl_buf dl_idx cb_feedback cb_state cb_damp cb_damp_inv]; try tauto.
      rewrite Ek. destruct s; reflexivity.
    - assert (Ek : nth_error ss k = None) by (apply nth_error_None; lia).
      destruct u; cbn [p_unit_step]; rewrite Ek; cbn [runs]; eexists; (split; [reflexivity|]);
        (split; [exact BI|]); (split; [exact UR|reflexivity]). }
  assert (NO : Some (bank, (v, @Nothing F)) = Some (bank', (v', y)) ->
     p_unit_step ss u c = Done (Ret (u, Nothing)) -> runs (in_any ss) h (p_unit_step ss u c) (kept ss bank' v' y)).
  { intros E E'. injection E as <- <- <-. rewrite E'. cbn [runs]. eexists. split; [reflexivity|].
    split; [exact BI|]. split; [exact UR|reflexivity]. }
  destruct v as [sl p w]. cbn [what slot pos] in *.
  destruct u as [s|d|a|cb]; unfold unit_rel in UR; cbn [what slot] in UR; destruct w as [| | |fb st damp];
    try contradiction; destruct c as [i|i x| |j|x| |x|x|x|k];
    try (apply (CASE k); reflexivity); unfold voice_step in SP; cbn [what pos slot] in SP;
    try (apply NO; [exact SP|reflexivity]); clear CASE NO; cbn [p_unit_step].
  - injection SP as <- <- <-. apply runs_bind.
    set (v := Voice sl p Slice) in *. unfold p_get.
    destruct (slot_covers ss h bank v s BI UR) as [(Hl & _) _].
    destruct (Z.leb_spec (ms_len s) (Z.of_nat i)) as [L|L].
    + assert (N : nth_error (list_of bank v) i = None) by (apply nth_error_None; lia). rewrite N.
      cbn [runs]. eexists. split; [reflexivity|]. eexists. split; [reflexivity|]. split; [exact BI|]. split; [exact UR|reflexivity].
    + destruct (nth_error (list_of bank v) i) as [z|] eqn:N; [|apply nth_error_None in N; lia].
      cbn [runs]. destruct (line_load ss h bank v s (Z.of_nat i) z BI UR) as (b & o & A & I & C).
      { apply nthz_Some. split; [lia|]. now rewrite Nat2Z.id. }
      exists b, o, z. split; [exact A|]. split; [exact I|]. split; [exact C|].
      eexists. split; [reflexivity|]. eexists. split; [reflexivity|]. split; [exact BI|]. split; [exact UR|reflexivity].
  - apply runs_bind. set (v := Voice sl p Slice) in *. unfold p_assign.
    destruct (slot_covers ss h bank v s BI UR) as [(Hl & _) _].
    destruct (Nat.ltb_spec i (length (list_of bank v))) as [L|L]; injection SP as <- <- <-.
    + destruct (Z.leb_spec (ms_len s) (Z.of_nat i)); [lia|]. cbn [runs].
      destruct (line_store ss h bank v s i x AP BI UR L) as (b & o & h' & A & I & E & BI').
      exists b, o, h'. split; [exact A|]. split; [exact I|]. split; [exact E|].
      eexists. split; [reflexivity|]. eexists. split; [reflexivity|]. split; [exact BI'|]. split; [exact UR|reflexivity].
    + destruct (Z.leb_spec (ms_len s) (Z.of_nat i)); [|lia].
      cbn [runs]. eexists. split; [reflexivity|]. eexists. split; [reflexivity|]. split; [exact BI|]. split; [exact UR|reflexivity].
  - destruct (sample bank _) as [z|] eqn:S; [|discriminate]. injection SP as <- <- <-.
    apply runs_bind. eapply runs_weaken; [|exact (run_read ss h bank d _ z BI UR S)].
    intros h' a [-> ->]. cbn [runs]. eexists. split; [reflexivity|]. split; [exact BI|]. split; [exact UR|reflexivity].
  - set (v := Voice sl p Line) in *. destruct UR as [Es Ei]. cbn [pos v] in Ei.
    destruct (Nat.ltb_spec p (length (list_of bank v))) as [L|L]; [|discriminate]. cbn [andb] in SP.
    destruct (Z.leb_spec isize_min (Z.of_nat p + j)) as [L1|L1]; [|discriminate]. cbn [andb] in SP.
    destruct (Z.leb_spec (Z.of_nat p + j) isize_max) as [L2|L2]; [|discriminate].
    destruct (nthz _ _) as [z|] eqn:N; [|discriminate]. injection SP as <- <- <-.
    destruct (slot_covers ss h bank v _ BI Es) as [C _]. pose proof (covers_len _ _ _ C) as CL. pose proof C as (Hl & Hm & _).
    unfold p_dl_read_wrapped_at. rewrite Ei, as_isize_id by (rewrite isize_min_max; lia).
    rewrite isize_add_ok by lia. cbn [pbind]. unfold p_get_wrapped.
    rewrite (covers_as_isize _ _ _ C).
    assert (K : forall i', i' = (Z.of_nat p + j) mod Z.of_nat (length (list_of bank v)) ->
      runs (in_any ss) h (pbind (Load (dl_buf d) (as_usize i') (fun v0 : F => Done (Ret v0)))
        (fun v0 : F => Done (Ret (ULine d, Value v0)))) (kept ss bank v (Value z))).
    { intros i' ->. pose proof (nthz_bounds _ _ _ N) as NB. rewrite as_usize_id by (rewrite usize_isize; lia).
      cbn [pbind runs]. destruct (line_load ss h bank v _ _ z BI Es N) as (b & o & A & I & Ce).
      exists b, o, z. split; [exact A|]. split; [exact I|]. split; [exact Ce|].
      eexists. split; [reflexivity|]. split; [exact BI|]. split; [split; assumption|reflexivity]. }
    destruct (Z.leb_spec (ms_len (dl_buf d)) (Z.of_nat p + j)) as [A1|A1];
      [|destruct (Z.ltb_spec (Z.of_nat p + j) 0) as [A2|A2]]; cbn [orb].
    + rewrite rem_euclid_pos by lia. cbn [pbind]. apply K. now rewrite Hl.
    + rewrite rem_euclid_pos by lia. cbn [pbind]. apply K. now rewrite Hl.
    + apply K. symmetry. apply Z.mod_small. lia.
  - destruct (sample bank _) as [z|] eqn:S; [|discriminate]. injection SP as <- <- <-.
    apply runs_bind. eapply runs_weaken; [|exact (run_write ss h bank d _ z x Line AP BI UR S)].
    intros h' d' [BI' LR]. cbn [runs]. eexists. split; [reflexivity|]. split; [exact BI'|]. split; [exact LR|reflexivity].
  - destruct (sample bank _) as [z|] eqn:S; [|discriminate]. injection SP as <- <- <-.
    destruct (line_adv _ _ _ _ _ _ Line BI UR S) as (d' & E & LR).
    rewrite E. cbn [pbind runs]. eexists. split; [reflexivity|]. split; [exact BI|]. split; [exact LR|reflexivity].
  - destruct (sample bank _) as [z|] eqn:S; [|discriminate]. injection SP as <- <- <-.
    apply runs_bind. unfold p_ap_tick. apply runs_bind.
    eapply runs_weaken; [|exact (run_read ss h bank _ _ z BI UR S)]. intros h1 a1 [-> ->].
    apply runs_bind.
    eapply runs_weaken; [|exact (run_write ss h bank _ _ z (nadd x (nmul z (ndy 1 (-1)))) Pass AP BI UR S)].
    intros h' d' [BI' LR]. cbn [runs]. eexists. split; [reflexivity|]. eexists. split; [reflexivity|].
    split; [exact BI'|]. split; [exact LR|reflexivity].
  - destruct UR as (LR0 & E1 & E2 & E3 & E4). subst fb st damp.
    destruct (sample bank _) as [z|] eqn:S; [|discriminate]. injection SP as <- <- <-.
    rewrite <- E4. set (st' := nadd (nmul z (cb_damp_inv cb)) (nmul (cb_state cb) (cb_damp cb))).
    apply runs_bind. unfold p_cb_tick. apply runs_bind.
    eapply runs_weaken; [|exact (run_read ss h bank _ _ z BI LR0 S)]. intros h1 a1 [-> ->].
    fold st'. cbv zeta. apply runs_bind.
    eapply runs_weaken; [|exact (run_write ss h bank _ _ z (nadd x (nmul st' (cb_feedback cb)))
      (Comb (cb_feedback cb) st' (cb_damp cb)) AP BI LR0 S)].
    intros h' d' [BI' LR]. cbn [runs]. eexists. split; [reflexivity|]. eexists. split; [reflexivity|].
    split; [exact BI'|]. split; [|reflexivity].
    unfold unit_rel. cbn [fst what cb_dl cb_feedback cb_state cb_damp cb_damp_inv]. auto.
  - destruct UR as (LR0 & E1 & E2 & E3 & E4). injection SP as <- <- <-. subst.
    cbn [runs]. eexists. split; [reflexivity|]. split; [exact BI|]. split; [|reflexivity].
    unfold unit_rel. cbn. auto.
  - destruct UR as (LR0 & E1 & E2 & E3 & E4). injection SP as <- <- <-. subst.
    cbn [runs]. eexists. split; [reflexivity|]. split; [exact BI|]. split; [|reflexivity].
    unfold unit_rel. cbn. auto.
Qed.

Definition units_rel ss (us : list (unit_ F)) (vs : list (voice F)) : Prop :=
  length us = length vs /\
  forall j u v, nth_error us j = Some u -> nth_error vs j = Some v -> unit_rel ss u v.

Lemma units_upd ss us vs j u v : units_rel ss us vs -> unit_rel ss u v ->
  units_rel ss (upd us j u) (upd vs j v).
Proof.
  intros [L R] U. split; [rewrite !upd_length; exact L|].
  intros i u' v' Hu Hv. rewrite nth_error_upd in Hu. rewrite nth_error_upd in Hv. rewrite <- L in Hv.
  destruct ((j =? i)%nat && (j <? length us)%nat)%bool; [|eauto].
  injection Hu as <-. injection Hv as <-. exact U.
Qed.

Lemma rack_runs ss (AP : apart ss) : forall cs h us bank vs bank' vs' ys,
  bank_in h ss bank -> units_rel ss us vs ->
  voices_run bank vs cs = Some (bank', (vs', ys)) ->
  runs (in_any ss) h (p_rack ss us cs)
    (fun h' a => bank_in h' ss bank' /\ units_rel ss (fst a) vs' /\ snd a = ys).
Proof.
  induction cs as [|[j c] cs IH]; intros h us bank vs bank' vs' ys BI UR SP.
  - injection SP as <- <- <-. cbn [p_rack runs]. eexists. split; [reflexivity|]. auto.
  - cbn [voices_run] in SP. cbn [p_rack]. destruct (nth_error vs j) as [v|] eqn:Ev.
    + destruct (nth_error us j) as [u|] eqn:Eu;
        [|apply nth_error_None in Eu; destruct UR as [L _]; assert (nth_error vs j = None)
          by (apply nth_error_None; lia); congruence].
      destruct (voice_step bank v c) as [[bank1 [v1 y]]|] eqn:Es; [|discriminate].
      cbn [fst snd] in SP.
      destruct (voices_run bank1 (upd vs j v1) cs) as [[bank2 [vs2 ys2]]|] eqn:Er; [|discriminate].
      cbn [fst snd] in SP. injection SP as <- <- <-.
      apply runs_bind. eapply runs_weaken;
        [|apply (unit_step_runs ss h bank u v c bank1 v1 y AP BI); [destruct UR as [_ UR]; eauto|exact Es]].
      intros h1 [u1 y1] (BI1 & UR1 & E1). cbn [fst snd] in *. subst y1. apply runs_bind.
      eapply runs_weaken; [|exact (IH h1 (upd us j u1) _ _ _ _ _ BI1 (units_upd _ _ _ j _ _ UR UR1) Er)].
      intros h2 [us2 e2] (BI2 & UR2 & E2). cbn [fst snd] in *. subst e2.
      cbn [runs]. eexists. split; [reflexivity|]. auto.
    + destruct (nth_error us j) as [u|] eqn:Eu;
        [apply nth_error_None in Ev; destruct UR as [L _]; assert (nth_error us j = None)
          by (apply nth_error_None; lia); congruence|].
      destruct (voices_run bank vs cs) as [[bank2 [vs2 ys2]]|] eqn:Er; [|discriminate].
      cbn [fst snd] in SP. injection SP as <- <- <-.
      apply runs_bind. eapply runs_weaken; [|exact (IH h us _ _ _ _ _ BI UR Er)].
      intros h2 [us2 e2] (BI2 & UR2 & E2). cbn [fst snd] in *. subst e2.
      cbn [runs]. eexists. split; [reflexivity|]. auto.
Qed.

Lemma rack_run_ok ss (AP : apart ss) cs h us bank vs bank' vs' ys :
  bank_in h ss bank -> units_rel ss us vs ->
  voices_run bank vs cs = Some (bank', (vs', ys)) ->
  exists h' us', rack_run ss h us cs = Ret (h', (us', ys)) /\ bank_in h' ss bank' /\
    units_rel ss us' vs' /\ same_except (in_any ss) h h'.
Proof.
  intros BI UR SP.
  destruct (runs_exec _ _ _ h (rack_runs ss AP cs h us bank vs bank' vs' ys BI UR SP))
    as (h' & [us' e] & E & (BI' & UR' & Ee) & S). cbn [fst snd] in *. subst e.
  rewrite exec_rack in E. exists h', us'. auto.
Qed.

Lemma made_rel ss ms : nsub (nint 1) (ndy 1 (-1)) = (ndy 1 (-1) : F) -> made_over ss ms ->
  units_rel ss (map (made_unit ss) ms) (map made_voice ms).
Proof.
  intros HF FA. split; [now rewrite !map_length|].
  intros j u v Hu Hv. rewrite nth_error_map in Hu. rewrite nth_error_map in Hv.
  unfold made_over in FA. rewrite Forall_forall in FA.
  destruct (nth_error ms j) as [m|] eqn:Em; [|discriminate]. cbn in Hu, Hv.
  injection Hu as <-. injection Hv as <-. apply nth_error_In in Em. specialize (FA _ Em).
  destruct m as [k|k|k|k]; cbn [made_slot] in FA; unfold unit_rel; cbn;
    pose proof (nth_error_nth' ss null_slice FA); repeat split; auto.
Qed.

(** ** Lists only: buffers of one length are always long enough. *)
Definition sized (n : nat) bank (vs : list (voice F)) : Prop :=
  Forall (fun l => length l = n) bank /\
  Forall (fun v => (slot v < length bank)%nat /\ (pos v < n)%nat) vs.

Lemma sized_list n bank v : Forall (fun l => length l = n) bank -> (slot v < length bank)%nat ->
  length (list_of bank v) = n.
Proof.
  intros FA H1. rewrite Forall_forall in FA. apply FA. apply nth_In. exact H1.
Qed.
Lemma Forall_upd {A} (P : A -> Prop) l i x : Forall P l -> P x -> Forall P (upd l i x).
Proof.
  intros H Px. revert i. induction H; intros [|i]; cbn; constructor; auto.
Qed.
Lemma store_sized n bank v i x : Forall (fun l => length l = n) bank -> (slot v < length bank)%nat ->
  Forall (fun l => length l = n) (store bank v i x).
Proof.
  intros FA H. apply Forall_upd; [exact FA|]. rewrite upd_length. now apply sized_list.
Qed.

Lemma voice_step_sized n bank v (c : call F) : (0 < n)%nat -> Forall (fun l => length l = n) bank ->
  Z.of_nat n <= isize_max -> (forall j, c = Tap j -> isize_min <= j /\ j + Z.of_nat n <= isize_max) ->
  (slot v < length bank)%nat -> (pos v < n)%nat ->
  exists bank' v' y, voice_step bank v c = Some (bank', (v', y)) /\ length bank' = length bank /\
    Forall (fun l => length l = n) bank' /\ (slot v' < length bank)%nat /\ (pos v' < n)%nat.
Proof.
  intros N FA HI HT H1 H2. pose proof (sized_list n bank v FA H1) as LL.
  destruct (sample bank v) as [y|] eqn:Ey; [|apply nth_error_None in Ey; lia].
  assert (NX : (next bank v < n)%nat) by (unfold next; rewrite LL; apply Nat.mod_upper_bound; lia).
  pose proof (fun i x => store_sized n bank v i x FA H1) as SS.
  assert (SL : forall i x, length (store bank v i x) = length bank) by (intros; apply upd_length).
  unfold voice_step. rewrite Ey.
  destruct (what v) as [| | |fb st damp], c as [i|i x| |j|x| |x|x|x|k];
    try (destruct (Nat.ltb_spec k (length bank)));
    try (destruct (i <? length (list_of bank v))%nat);
    try (destruct (HT j eq_refl) as [T1 T2]; rewrite LL;
      destruct (Nat.ltb_spec (pos v) n); [|lia];
      destruct (Z.leb_spec isize_min (Z.of_nat (pos v) + j)); [|lia];
      destruct (Z.leb_spec (Z.of_nat (pos v) + j) isize_max); [|lia]; cbn [andb];
      destruct (nthz_ex (list_of bank v) ((Z.of_nat (pos v) + j) mod Z.of_nat n)) as [z Hz];
        [rewrite LL; apply Z.mod_pos_bound; lia|]; rewrite Hz);
    (eexists _, _, _; split; [reflexivity|]; cbn [slot pos];
     split; [try apply SL; reflexivity|]; split; [try apply SS; assumption|];
     split; assumption).
Qed.

Lemma voices_sized n : (0 < n)%nat -> Z.of_nat n <= isize_max -> forall cs bank vs, Forall (tap_ok n) cs ->
  sized n bank vs -> exists r, voices_run bank vs cs = Some r.
Proof.
  intros N HI. induction cs as [|[j c] cs IH]; intros bank vs TK [FA FV]; [cbn; eauto|].
  inversion TK as [|x xs T1 T2]; subst.
  cbn [voices_run]. destruct (nth_error vs j) as [v|] eqn:Ev.
  - pose proof (proj1 (Forall_forall _ _) FV _ (nth_error_In _ _ Ev)) as [H1 H2].
    destruct (voice_step_sized n bank v c N FA HI) as (b' & v' & y & -> & L & FA' & H1' & H2'); auto.
    { intros jj ->. exact T1. }
    cbn [fst snd]. destruct (IH b' (upd vs j v') T2) as [r ->]; [|eauto]. split; [exact FA'|].
    rewrite L. apply Forall_upd; auto.
  - destruct (IH bank vs T2 (conj FA FV)) as [r ->]. eauto.
Qed.

(** ** One voice of a schedule, alone. *)
Lemma unit_rel_fun ss (u1 u2 : unit_ F) v : unit_rel ss u1 v -> unit_rel ss u2 v -> u1 = u2.
Proof.
  intros R1 R2. unfold unit_rel, line_rel in *.
  destruct u1 as [s1|[b1 i1]|[[b1 i1]]|[[b1 i1] f1 s1 d1 e1]], u2 as [s2|[b2 i2]|[[b2 i2]]|[[b2 i2] f2 s2 d2 e2]];
    destruct (what v); try contradiction; cbn in *; intuition congruence.
Qed.

Section Alone.
Variable P : nat -> Prop.
Definition agree (b1 b2 : list (list F)) : Prop :=
  length b1 = length b2 /\ forall k, P k -> nth_error b1 k = nth_error b2 k.

Lemma agree_list b1 b2 v : agree b1 b2 -> P (slot v) -> list_of b1 v = list_of b2 v.
Proof.
  intros [_ A] H. specialize (A _ H). unfold list_of.
  destruct (nth_error b1 (slot v)) as [l|] eqn:E1; symmetry in A.
  - now rewrite (nth_error_nth _ _ _ E1), (nth_error_nth _ _ _ A).
  - apply nth_error_None in E1, A. now rewrite !nth_overflow.
Qed.
Lemma agree_store b1 b2 v i x : agree b1 b2 -> P (slot v) -> agree (store b1 v i x) (store b2 v i x).
Proof.
  intros A H. unfold store. rewrite (agree_list b1 b2) by assumption. destruct A as [L A].
  split; [now rewrite !upd_length|]. intros k Hk. rewrite !nth_error_upd, L, A by exact Hk. reflexivity.
Qed.

Lemma step_same b1 b2 v c b1' v' y : agree b1 b2 -> P (slot v) ->
  (forall k, c = Change k -> P k) -> voice_step b1 v c = Some (b1', (v', y)) ->
  exists b2', voice_step b2 v c = Some (b2', (v', y)) /\ agree b1' b2' /\ P (slot v').
Proof.
  intros A Pv Pc. pose proof (agree_list b1 b2 v A Pv) as ES. pose proof (proj1 A) as EL.
  pose proof (fun i x => agree_store b1 b2 v i x A Pv) as AS.
  unfold voice_step, sample, next. rewrite <- ES, <- EL. intros H.
  destruct (what v) as [| | |fb st damp], c as [i|i x| |j|x| |x|x|x|k];
    try (destruct (nth_error (list_of b1 v) (pos v)); [|discriminate]);
    try (destruct (k <? length b1)%nat); try (destruct (i <? length (list_of b1 v))%nat);
    try (destruct (_ && _)%bool; [|discriminate]; destruct (nthz _ _); [|discriminate]);
    injection H as <- <- <-; eexists; (split; [reflexivity|]); split; try apply AS; try exact A;
    try exact Pv; cbn [slot]; auto.
Qed.

Lemma step_other b1 v c b1' v' y : ~ P (slot v) ->
  (forall k, c = Change k -> ~ P k) -> voice_step b1 v c = Some (b1', (v', y)) ->
  agree b1' b1 /\ ~ P (slot v').
Proof.
  intros Pv Pc.
  assert (A0 : agree b1 b1) by (split; auto).
  assert (AS : forall i x, agree (store b1 v i x) b1).
  { intros i x. split; [apply upd_length|]. intros k Hk. apply nth_error_upd_neq. congruence. }
  unfold voice_step, sample. intros H.
  destruct (what v) as [| | |fb st damp], c as [i|i x| |j|x| |x|x|x|k];
    try (destruct (nth_error (list_of b1 v) (pos v)); [|discriminate]);
    try (destruct (k <? length b1)%nat); try (destruct (i <? length (list_of b1 v))%nat);
    try (destruct (_ && _)%bool; [|discriminate]; destruct (nthz _ _); [|discriminate]);
    injection H as <- <- <-; split; try apply AS; try exact A0;
    try exact Pv; cbn [slot]; auto.
Qed.

Lemma agree_trans a b c : agree a b -> agree b c -> agree a c.
Proof. intros [L1 A1] [L2 A2]. split; [congruence|]. intros k H. now rewrite A1, A2. Qed.

Lemma voices_alone j : forall cs b1 vs1 b2 vs2 b1' vs1' ys,
  agree b1 b2 -> nth_error vs1 j = nth_error vs2 j ->
  (forall i v, nth_error vs1 i = Some v -> if Nat.eqb i j then P (slot v) else ~ P (slot v)) ->
  (forall i k, In (i, Change k) cs -> if Nat.eqb i j then P k else ~ P k) ->
  voices_run b1 vs1 cs = Some (b1', (vs1', ys)) ->
  exists b2' vs2',
    voices_run b2 vs2 (of_unit j cs) = Some (b2', (vs2', of_unit j ys)) /\
    agree b1' b2' /\ nth_error vs1' j = nth_error vs2' j.
Proof.
  unfold of_unit.
  induction cs as [|[i c] cs IH]; intros b1 vs1 b2 vs2 b1' vs1' ys A EV SL CH SP.
  - injection SP as <- <- <-. exists b2, vs2. auto.
  - assert (CH' : forall i k, In (i, Change k) cs -> if Nat.eqb i j then P k else ~ P k)
      by (intros i0 k0 HI; apply CH; now right).
    assert (Cc : forall k, c = Change k -> if Nat.eqb i j then P k else ~ P k)
      by (intros k ->; apply CH; now left).
    cbn [voices_run] in SP. cbn [filter fst].
    destruct (nth_error vs1 i) as [v|] eqn:Ev.
    + destruct (voice_step b1 v c) as [[b1s [v1s y]]|] eqn:Es; [|discriminate]. cbn [fst snd] in SP.
      destruct (voices_run b1s (upd vs1 i v1s) cs) as [[b1r [v1r yr]]|] eqn:Er; [|discriminate].
      cbn [fst snd] in SP. injection SP as <- <- <-. cbn [filter fst].
      pose proof (SL _ _ Ev) as Sv.
      destruct (Nat.eqb_spec i j) as [->|NE].
      * destruct (step_same b1 b2 v c b1s v1s y A Sv Cc Es) as (b2s & Es2 & As & Ps).
        destruct (IH b1s (upd vs1 j v1s) b2s (upd vs2 j v1s) b1r v1r yr As) as (b2' & vs2' & E2 & A2 & V2);
          [| |exact CH'|exact Er|].
        -- rewrite !nth_error_upd_eq; [reflexivity| |]; apply nth_error_Some; congruence.
        -- intros i0 v0 H0. rewrite nth_error_upd in H0.
           destruct ((j =? i0)%nat && (j <? length vs1)%nat)%bool eqn:T; [|now apply SL].
           injection H0 as <-. apply andb_prop in T. destruct T as [T _]. apply Nat.eqb_eq in T.
           subst i0. now rewrite Nat.eqb_refl.
        -- exists b2', vs2'. split; [|auto]. cbn [voices_run]. rewrite <- EV, Ev, Es2.
           cbn [fst snd]. rewrite E2. reflexivity.
      * destruct (step_other b1 v c b1s v1s y Sv Cc Es) as [As Ps].
        apply (IH b1s (upd vs1 i v1s) b2 vs2 b1r v1r yr (agree_trans _ _ _ As A)); [| |exact CH'|exact Er].
        -- rewrite nth_error_upd_neq by exact NE. exact EV.
        -- intros i0 v0 H0. rewrite nth_error_upd in H0.
           destruct ((i =? i0)%nat && (i <? length vs1)%nat)%bool eqn:T; [|now apply SL].
           injection H0 as <-. apply andb_prop in T. destruct T as [T _]. apply Nat.eqb_eq in T.
           subst i0. apply Nat.eqb_neq in NE. rewrite NE. exact Ps.
    + destruct (voices_run b1 vs1 cs) as [[b1r [v1r yr]]|] eqn:Er; [|discriminate].
      cbn [fst snd] in SP. injection SP as <- <- <-. cbn [filter fst].
      destruct (IH b1 vs1 b2 vs2 _ _ _ A EV SL CH' Er) as (b2' & vs2' & E2 & A2 & V2).
      exists b2', vs2'. split; [|auto].
      destruct (Nat.eqb_spec i j) as [->|NE]; [|exact E2].
      cbn [voices_run]. rewrite <- EV, Ev, E2. reflexivity.
Qed.
End Alone.
End P.
