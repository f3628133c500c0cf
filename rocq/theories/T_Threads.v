(** * Theorems: threads with separate buffers, and threads sharing one (C104). *)

From Coq Require Import ZArith List Bool Lia.
From Verif Require Import Base F32 F32Lemmas F32Ints Num M_Memory M_Delay M_Threads S_Memory S_Delay S_Rack
  S_Threads P_Memory P_Delay P_DelayNum P_Rack T_Rack Examples.
Import ListNotations.
Open Scope Z_scope.

(** The programs of single accesses are the calls: run without interruption, a schedule
    of them is the schedule of C102. *)
Theorem C104_programs_are_calls : forall (NP : NanPolicy) (B : Build) ss (h : heap f32) us cs,
  exec h (p_rack ss us cs) = rack_run ss h us cs.
Proof. intros. apply exec_rack. Qed.
Print Assumptions C104_programs_are_calls.

Section Inv.
Context {NP : NanPolicy} {B : Build}.
Implicit Types (h : heap f32) (ts : list (thread f32)).

Definition post (t : thread f32) (h : heap f32) (a : list (unit_ f32) * list (nat * reply f32)) : Prop :=
  exists bank, outcome_of t bank (snd a) /\ bank_in h (t_slices t) bank.

Lemma post_stable t h1 h2 a : agree_on (in_any (t_slices t)) h1 h2 -> post t h1 a -> post t h2 a.
Proof.
  intros [SH AG] (bank & O & L & BI). exists bank. split; [exact O|]. split; [exact L|].
  intros k s l Hs Hl. apply (covers_kept h1); [exact SH| |eauto].
  intros b o I. apply AG. exists s. split; [eapply nth_error_In; exact Hs|exact I].
Qed.

Lemma start_runs h t : thread_ok h t -> runs (in_any (t_slices t)) h (program t) (post t).
Proof.
  intros (BI & AP & MO & bank & ys & vs & O).
  eapply runs_weaken; [|apply (rack_runs (t_slices t) AP (t_calls t) h _ (t_bank t) _ bank vs ys BI
    (made_rel _ _ one_minus_half MO) O)].
  intros h' a (BI' & _ & EY). exists bank. rewrite EY. split; [exists vs; exact O|exact BI'].
Qed.

Definition inv ts h0 (st : heap f32 * list (prog f32 (list (unit_ f32) * list (nat * reply f32)))) : Prop :=
  length (snd st) = length ts /\
  (forall j t p, nth_error ts j = Some t -> nth_error (snd st) j = Some p ->
     runs (in_any (t_slices t)) (fst st) p (post t)) /\
  same_except (fun b o => exists t, In t ts /\ in_any (t_slices t) b o) h0 (fst st).

Lemma inv_start ts h : Forall (thread_ok h) ts -> inv ts h (h, map program ts).
Proof.
  intros FA. split; [apply map_length|]. cbn [fst snd]. split; [|intros b o _; reflexivity].
  intros j t p Ht Hp. rewrite nth_error_map, Ht in Hp. injection Hp as <-.
  apply start_runs. rewrite Forall_forall in FA. apply FA. eapply nth_error_In; exact Ht.
Qed.

Lemma inv_step ts h0 h ps j p h' p' : threads_apart ts -> inv ts h0 (h, ps) ->
  nth_error ps j = Some p -> access h p h' p' -> inv ts h0 (h', upd ps j p').
Proof.
  intros TA (L & R & S) Hp ST. cbn [fst snd] in *. unfold inv. cbn [fst snd].
  split; [now rewrite upd_length|].
  destruct (nth_error ts j) as [t|] eqn:Et;
    [|apply nth_error_None in Et; assert (nth_error ps j <> None) by congruence;
      apply nth_error_Some in H; lia].
  assert (Lj : (j < length ps)%nat) by (apply nth_error_Some; congruence).
  pose proof (R j t p Et Hp) as Rp.
  destruct ST as [h s i k v EL|h s i v k h' ES]; cbn [runs] in Rp.
  - destruct Rp as (b & o & y & A & I & C & Rp).
    assert (y = v) as -> by (rewrite (load_ok h s i b o y A C) in EL; now injection EL).
    split; [|exact S]. intros i0 t0 p0 H0 Hp0. rewrite nth_error_upd in Hp0.
    destruct (Nat.eqb_spec j i0) as [<-|NE]; cbn [andb] in Hp0; [|eauto].
    destruct (Nat.ltb_spec j (length ps)); [|lia]. injection Hp0 as <-.
    replace t0 with t by congruence. exact Rp.
  - destruct Rp as (b & o & h2 & A & I & E & Rp).
    assert (h2 = h') as -> by congruence.
    destruct (store_inv _ _ _ _ _ ES) as (b1 & o1 & A1 & SH & CE). rewrite A in A1. injection A1 as <- <-.
    split.
    + intros i0 t0 p0 H0 Hp0. rewrite nth_error_upd in Hp0.
      destruct (Nat.eqb_spec j i0) as [<-|NE]; cbn [andb] in Hp0.
      * destruct (Nat.ltb_spec j (length ps)); [|lia]. injection Hp0 as <-.
        replace t0 with t by congruence. exact Rp.
      * apply (runs_frame _ p0 (post t0) (fun h1 h2 a => post_stable t0 h1 h2 a) h h'); [|eauto].
        split; [exact SH|]. intros b' o' I'. rewrite CE.
        destruct (Nat.eqb_spec b b') as [<-|]; [|reflexivity].
        destruct (Z.eqb_spec o o') as [<-|]; [|reflexivity].
        exfalso. apply NE. exact (TA _ _ _ _ _ _ Et H0 I I').
    + intros b' o' N. rewrite CE, (S b' o' N).
      destruct (Nat.eqb_spec b b') as [<-|]; [|reflexivity].
      destruct (Z.eqb_spec o o') as [<-|]; [|reflexivity].
      exfalso. apply N. exists t. split; [eapply nth_error_In; exact Et|exact I].
Qed.

Lemma inv_reach ts h0 st st' : threads_apart ts -> reach st st' -> inv ts h0 st -> inv ts h0 st'.
Proof.
  intros TA R I. induction R as [st|st h ps j p h' p' R IH Hp A]; [exact I|].
  exact (inv_step ts h0 h ps j p h' p' TA (IH I) Hp A).
Qed.

Lemma runs_next {A} P h (p : prog f32 A) Q b o w : runs P h p Q -> next_access p = Some (b, o, w) -> P b o.
Proof.
  destruct p as [r|s i k|s i v k]; cbn [runs next_access]; intros R E; [discriminate| |].
  - destruct R as (b0 & o0 & y & A0 & I & _). rewrite A0 in E. injection E as <- <- _. exact I.
  - destruct R as (b0 & o0 & y & A0 & I & _). rewrite A0 in E. injection E as <- <- _. exact I.
Qed.

Lemma runs_go {A} P h (p : prog f32 A) Q : runs P h p Q ->
  (exists h' p', access h p h' p') \/ (exists a, p = Done (Ret a) /\ Q h a).
Proof.
  destruct p as [r|s i k|s i v k]; cbn [runs]; intros R.
  - right. destruct R as (a & -> & q). eauto.
  - left. destruct R as (b & o & y & A0 & I & C & _). eexists _, _. apply a_load. exact (load_ok h s i b o y A0 C).
  - left. destruct R as (b & o & h' & A0 & I & C & _). eexists _, _. apply a_store. exact C.
Qed.
End Inv.

(** C104: any number of threads, each calling its own units over its own buffers, in any
    interleaving of their memory accesses. At every moment there is no data race; every
    thread either can make its next access or has finished with the replies that plain
    lists give ([outcome_of]), and the lists are what its buffers hold, whatever the other
    threads still do; memory outside the buffers is unchanged. *)
Theorem C104_threads_race_free : forall (NP : NanPolicy) (B : Build) (h : heap f32) ts h' ps,
  Forall (thread_ok h) ts -> threads_apart ts -> reach (h, map program ts) (h', ps) ->
  ~ race ps /\ length ps = length ts /\
  (forall j t p, nth_error ts j = Some t -> nth_error ps j = Some p ->
     (exists h2 p2, access h' p h2 p2) \/
     (exists us ys bank, p = Done (Ret (us, ys)) /\ outcome_of t bank ys /\ bank_in h' (t_slices t) bank)) /\
  same_except (fun b o => exists t, In t ts /\ in_any (t_slices t) b o) h h'.
Proof.
  intros NP B h ts h' ps FA TA R.
  destruct (inv_reach ts h _ _ TA R (inv_start ts h FA)) as (L & RU & S). cbn [fst snd] in *.
  split; [|split; [exact L|split; [|exact S]]].
  - intros (i & j & p & q & b & o & w & w' & NE & Hp & Hq & Np & Nq & _).
    assert (T : forall k r, nth_error ps k = Some r -> exists t, nth_error ts k = Some t).
    { intros k r Hk. destruct (nth_error ts k) as [t|] eqn:Et; [eauto|]. apply nth_error_None in Et.
      assert (nth_error ps k = None) by (apply nth_error_None; lia). congruence. }
    destruct (T _ _ Hp) as [tp Ep], (T _ _ Hq) as [tq Eq].
    apply NE. apply (TA i j tp tq b o Ep Eq).
    + exact (runs_next _ _ _ _ _ _ _ (RU _ _ _ Ep Hp) Np).
    + exact (runs_next _ _ _ _ _ _ _ (RU _ _ _ Eq Hq) Nq).
  - intros j t p Ht Hp. destruct (runs_go _ _ _ _ (RU j t p Ht Hp)) as [G|([us ys] & -> & bank & O & BI)]; [now left|].
    right. exists us, ys, bank. auto.
Qed.
Print Assumptions C104_threads_race_free.

(** From every moment on, some continuation takes every thread to its end. *)
Theorem C104_threads_finish : forall (NP : NanPolicy) (B : Build) (h : heap f32) ts,
  Forall (thread_ok h) ts -> threads_apart ts ->
  forall h1 ps1, reach (h, map program ts) (h1, ps1) ->
  exists h' ps, reach (h1, ps1) (h', ps) /\
    forall j p, nth_error ps j = Some p -> exists a, p = Done (Ret a).
Proof.
  intros NP B h ts FA TA h1 ps1 R1.
  pose proof (inv_reach ts h _ _ TA R1 (inv_start ts h FA)) as I1.
  (* the first n threads are finished, one after the other *)
  assert (K : forall n, exists h' ps, reach (h1, ps1) (h', ps) /\
    forall j p, (j < n)%nat -> nth_error ps j = Some p -> exists a, p = Done (Ret a)).
  { induction n as [|n (h2 & ps2 & R2 & D2)]; [exists h1, ps1; split; [apply r_start|intros; lia]|].
    destruct (nth_error ps2 n) as [p|] eqn:Hp.
    2: { exists h2, ps2. split; [exact R2|]. intros j p Hj Hpj.
         destruct (Nat.eq_dec j n) as [->|NE]; [congruence|]. apply (D2 j); [lia|exact Hpj]. }
    revert h2 ps2 R2 D2 Hp.
    induction p as [r|s i k IH|s i v k IH]; intros h2 ps2 R2 D2 Hp;
      destruct (inv_reach ts h _ _ TA R2 I1) as (L & RU & _); cbn [fst snd] in L, RU;
      (destruct (nth_error ts n) as [t|] eqn:Et;
        [|apply nth_error_None in Et; assert (nth_error ps2 n = None) by (apply nth_error_None; lia); congruence]);
      pose proof (RU _ _ _ Et Hp) as Rn; cbn [runs] in Rn.
    - destruct Rn as (a & -> & _). exists h2, ps2. split; [exact R2|]. intros j p Hj Hpj.
      destruct (Nat.eq_dec j n) as [->|NE]; [rewrite Hp in Hpj; injection Hpj as <-; eauto|].
      apply (D2 j); [lia|exact Hpj].
    - destruct Rn as (b & o & y & A0 & I & C & _).
      apply (IH y h2 (upd ps2 n (k y))).
      + eapply r_step; [exact R2|exact Hp|]. apply a_load. exact (load_ok h2 s i b o y A0 C).
      + intros j p Hj Hpj. rewrite nth_error_upd_neq in Hpj by lia. eauto.
      + rewrite nth_error_upd_eq; [reflexivity|]. apply nth_error_Some. congruence.
    - destruct Rn as (b & o & h3 & A0 & I & C & _).
      apply (IH h3 (upd ps2 n k)).
      + eapply r_step; [exact R2|exact Hp|]. apply a_store. exact C.
      + intros j p Hj Hpj. rewrite nth_error_upd_neq in Hpj by lia. eauto.
      + rewrite nth_error_upd_eq; [reflexivity|]. apply nth_error_Some. congruence. }
  destruct (K (length ts)) as (h' & ps & R & D). exists h', ps. split; [exact R|].
  destruct (inv_reach ts h _ _ TA R I1) as (L & _). cbn [snd] in L.
  intros j p Hp. apply (D j); [|exact Hp]. rewrite <- L. apply nth_error_Some. congruence.
Qed.
Print Assumptions C104_threads_finish.

(** "This data structure is thread-safe!" (src/memory/memory_slice.rs:71): slices are
    [Copy], [Send] and [Sync], so two threads can hold the same one. For every slice that
    is not empty, one thread assigning and one reading sample 0 start in a data race,
    although each of them alone is fine. *)
Theorem C104_shared_slice_race_refuted : forall (NP : NanPolicy) (B : Build) (h : heap f32) s l v,
  covers h s l -> l <> [] ->
  let t1 := Thread [s] [l] [MSlice 0] [(0%nat, Assign 0 v)] in
  let t2 := Thread [s] [l] [MSlice 0] [(0%nat, Get 0)] in
  thread_ok h t1 /\ thread_ok h t2 /\ race (map program [t1; t2]).
Proof.
  intros NP B h s l v C NE t1 t2.
  assert (OK : forall c, thread_ok h (Thread [s] [l] [MSlice 0] [(0%nat, c)])).
  { intros c. split; [|split; [|split]].
    - split; [reflexivity|]. intros [|[|k]] s0 l0 Hs Hl; cbn in Hs, Hl; [|discriminate|discriminate].
      injection Hs as <-. injection Hl as <-. exact C.
    - intros [|[|i]] [|[|j]] s0 t0 b o Hi Hj; cbn in Hi, Hj; try discriminate. reflexivity.
    - repeat constructor.
    - unfold outcome_of. cbn [t_bank t_made t_calls map voices_run nth_error made_voice].
      destruct c as [i|i x| |j|x| |x|x|x|k]; cbn [voice_step what slot pos fst snd voices_run upd length];
        try (eexists _, _, _; reflexivity);
        [destruct (i <? _)%nat|destruct (k <? 1)%nat]; eexists _, _, _; reflexivity. }
  split; [apply OK|]. split; [apply OK|].
  assert (L : (0 < length l)%nat) by (destruct l; [congruence|cbn; lia]). pose proof C as (Hl & _).
  destruct (covers_addr h s l 0 C) as (b & o & A & _); [lia|].
  exists 0%nat, 1%nat. unfold program, t1, t2. cbn [map t_slices t_made t_calls made_unit nth p_rack nth_error p_unit_step].
  unfold p_assign, p_get. destruct (Z.leb_spec (ms_len s) (Z.of_nat 0)); [cbn in *; lia|]. cbn [pbind].
  eexists _, _, b, o, true, false. split; [discriminate|]. split; [reflexivity|]. split; [reflexivity|].
  cbn [next_access Z.of_nat]. rewrite A. split; [reflexivity|]. split; reflexivity.
Qed.
Print Assumptions C104_shared_slice_race_refuted.

(** Nor does the outcome have to be one of calling one unit after the other: two
    all-passes in two threads over one 1-sample buffer holding y can both output y - x,
    where the second of two calls in a row outputs -x + (x + y/2). *)
Theorem C104_lost_update_refuted : forall (NP : NanPolicy) (B : Build) (h : heap f32) s y x,
  covers h s [y] ->
  let t := Thread [s] [[y]] [MPass 0] [(0%nat, Tick x)] in
  let out := nadd (nneg x) y in
  thread_ok h t /\
  (exists h' us us', reach (h, map program [t; t])
     (h', [Done (Ret (us, [(0%nat, Value out)])); Done (Ret (us', [(0%nat, Value out)]))])) /\
  exists h' us, rack_run [s] h [UPass (ap_new s); UPass (ap_new s)] [(0%nat, Tick x); (1%nat, Tick x)] =
    Ret (h', (us, [(0%nat, Value out);
                   (1%nat, Value (nadd (nneg x) (nadd x (nmul y (ndy 1 (-1))))))])).
Proof.
  intros NP B h s y x C t out.
  assert (BI : bank_in h [s] [[y]]).
  { split; [reflexivity|]. intros [|[|k]] s0 l0 Hs Hl; cbn in Hs, Hl; [|discriminate|discriminate].
    injection Hs as <-. injection Hl as <-. exact C. }
  assert (AP : apart [s]).
  { intros [|[|i]] [|[|j]] s0 t0 b o Hi Hj; cbn in Hi, Hj; try discriminate. reflexivity. }
  split; [|split].
  - split; [exact BI|]. split; [exact AP|]. split; [repeat constructor|].
    eexists _, _, _. reflexivity.
  - pose proof C as (Hl & Hm & _). cbn in Hl.
    pose proof (get_unchecked_ok h s [y] 0 y C eq_refl) as G.
    set (w := nadd x (nmul y (ndy 1 (-1)))).
    destruct (assign_unchecked_ok h s [y] 0 w C ltac:(lia)) as (h1 & A1 & C1 & _).
    change (upd [y] (Z.to_nat 0) w) with [w] in C1.
    destruct (assign_unchecked_ok h1 s [w] 0 w C1 ltac:(lia)) as (h2 & A2 & _).
    assert (AD : dl_advance (dl_new s) = Ret (dl_new s)).
    { unfold dl_advance, dl_new. cbn [dl_buf dl_idx]. rewrite Hl. cbn [length].
      rewrite usize_sub_ok by lia. reflexivity. }
    unfold program, t. cbn [map t_slices t_made t_calls made_unit nth p_rack nth_error p_unit_step].
    unfold p_ap_tick, p_dl_read, p_dl_write_and_advance. cbn [pbind ap_dl ap_new]. rewrite AD.
    cbn [pbind dl_new dl_buf dl_idx fst snd upd].
    exists h2. eexists _, _.
    refine (r_step _ h1 [_; _] 1 _ h2 _ (r_step _ h [_; _] 0 _ h1 _ (r_step _ h [_; _] 1 _ h _
      (r_step _ h [_; _] 0 _ h _ (r_start _) eq_refl (a_load h s 0 _ y G)) eq_refl (a_load h s 0 _ y G))
      eq_refl (a_store h s 0 _ _ h1 _)) eq_refl (a_store h1 s 0 _ _ h2 _)); [exact A1|exact A2].
  - destruct (rack_run_ok [s] AP [(0%nat, Tick x); (1%nat, Tick x)] h
      (map (made_unit [s]) [MPass 0; MPass 0]) [[y]] (map made_voice [MPass 0; MPass 0]) _ _ _ BI
      (made_rel [s] [MPass 0; MPass 0] one_minus_half ltac:(repeat constructor)) eq_refl)
      as (h' & us & E & _).
    exists h', us. exact E.
Qed.
Print Assumptions C104_lost_update_refuted.

(** Instances: a comb and a slice over the first example buffer in one thread, an
    all-pass over the second in another. *)
Definition two_threads : list (thread f32) :=
  [Thread [ex_slice] [ex_list] [MComb 0; MSlice 0] [(0%nat, Tick (of_int 1)); (1%nat, Assign 1 (of_int 7)); (0%nat, Tick (of_int 0))];
   Thread [MS (PAt 1 0) 2] [[of_int 5; of_int 6]] [MPass 0] [(0%nat, Tick (of_int 2)); (0%nat, Tick (of_int 0))]].
Example C104_met (NP : NanPolicy) (B : Build) :
  Forall (thread_ok ex_heap) two_threads /\ threads_apart two_threads /\
  results (voices_run [ex_list] (map made_voice [MComb 0; MSlice 0])
    [(0%nat, Tick (of_int 1)); (1%nat, Assign 1 (of_int 7)); (0%nat, Tick (of_int 0))]) =
    Some [(0%nat, Value (to_bits (of_int 1))); (1%nat, Nothing); (0%nat, Value (to_bits (of_int 7)))].
Proof.
  pose proof rack_bank_in as [_ RB].
  assert (AP : forall s, apart [s]).
  { intros s [|[|i]] [|[|j]] s0 t0 b o Hi Hj; cbn in Hi, Hj; try discriminate. reflexivity. }
  assert (BI : forall s l, covers ex_heap s l -> bank_in ex_heap [s] [l]).
  { intros s l C. split; [reflexivity|]. intros [|[|k]] s0 l0 Hs Hl; cbn in Hs, Hl; [|discriminate|discriminate].
    injection Hs as <-. injection Hl as <-. exact C. }
  assert (C1 : covers ex_heap (MS (PAt 1 0) 2) [of_int 5; of_int 6]) by (apply (RB 1%nat); reflexivity).
  split; [|split].
  - constructor; [|constructor; [|constructor]].
    + split; [exact (BI _ _ ex_covers)|]. split; [apply AP|]. split; [repeat constructor|].
      unfold outcome_of. cbn [t_bank t_made t_calls map voices_run nth_error made_voice].
      eexists _, _, _. reflexivity.
    + split; [exact (BI _ _ C1)|]. split; [apply AP|]. split; [repeat constructor|].
      unfold outcome_of. cbn [t_bank t_made t_calls map voices_run nth_error made_voice].
      eexists _, _, _. reflexivity.
  - intros i j t t' b o Hi Hj (s & Is & x & Hx & Ax) (s' & Is' & x' & Hx' & Ax').
    destruct i as [|[|i]], j as [|[|j]]; cbn in Hi, Hj; try reflexivity;
      try (destruct i; discriminate); try (destruct j; discriminate);
      injection Hi as <-; injection Hj as <-; cbn in Is, Is'; destruct Is as [<-|[]], Is' as [<-|[]];
      cbn in Ax, Ax'; congruence.
  - vm_compute. reflexivity.
Qed.
(** The two outcomes of [C104_lost_update_refuted] differ: y = 2, x = 0. *)
Example C104_lost_update_differs (NP : NanPolicy) :
  to_bits (nadd (nneg (of_int 0)) (of_int 2)) <>
  to_bits (nadd (nneg (of_int 0)) (nadd (of_int 0) (nmul (of_int 2) (ndy 1 (-1))))).
Proof. vm_compute. discriminate. Qed.
