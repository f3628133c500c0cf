(** * Theorems: units over one memory, called in any order, buffers swapped (C102, C103). *)

From Coq Require Import ZArith List Bool Lia.
From Verif Require Import Base F32 F32Lemmas F32Ints Num M_Memory M_Delay S_Memory S_Delay S_Rack S_Threads
  P_Memory P_Delay P_DelayNum P_Rack Examples.
Import ListNotations.
Open Scope Z_scope.

(** C102: any number of slices, delay lines, combs and all-passes over separate buffers in
    one memory, called in any order and handed new buffers while they run. Every result is
    the one plain lists give ([voices_run], S_Rack.v): a buffer change keeps the position,
    the comb's filter state and its settings, and takes the new buffer as it is. Each
    buffer ends with what the list ends with, and no other memory changes. The only
    conditions are that no unit stands past the end of its buffer when used, and that
    position plus tap offset is an [isize]. *)
Theorem C102_any_schedule : forall (NP : NanPolicy) (B : Build) (h : heap f32) ss bank ms cs bank' vs' ys,
  bank_in h ss bank -> apart ss -> made_over ss ms ->
  voices_run bank (map made_voice ms) cs = Some (bank', (vs', ys)) ->
  exists h' us', rack_run ss h (map (made_unit ss) ms) cs = Ret (h', (us', ys)) /\
    bank_in h' ss bank' /\ same_except (in_any ss) h h'.
Proof.
  intros NP B h ss bank ms cs bank' vs' ys BI AP FA SP.
  destruct (rack_run_ok ss AP cs h _ bank _ bank' vs' ys BI
              (made_rel ss ms one_minus_half FA) SP) as (h' & us' & E & BI' & _ & SE).
  exists h', us'. auto.
Qed.
Print Assumptions C102_any_schedule.

(** When all buffers have one length, the condition always holds: no schedule of calls
    and buffer changes panics or reaches undefined behaviour, as long as the tap offsets
    leave room for a position. *)
Theorem C102_equal_buffers_safe : forall (NP : NanPolicy) (B : Build) (h : heap f32) ss bank ms cs n,
  bank_in h ss bank -> apart ss -> made_over ss ms ->
  (0 < n)%nat -> Forall (fun l => length l = n) bank -> Forall (tap_ok n) cs ->
  exists bank' vs' ys h' us',
    voices_run bank (map made_voice ms) cs = Some (bank', (vs', ys)) /\
    rack_run ss h (map (made_unit ss) ms) cs = Ret (h', (us', ys)) /\
    bank_in h' ss bank' /\ same_except (in_any ss) h h'.
Proof.
  intros NP B h ss bank ms cs n BI AP FA N FB TK.
  destruct ms as [|m0 ms0] eqn:EM.
  { assert (K : forall cs, voices_run bank [] cs = Some (bank, ([], map (fun c => (fst c, @Nothing f32)) cs))).
    { clear. induction cs as [|[j c] cs IH]; [reflexivity|]. cbn [voices_run].
      replace (nth_error [] j) with (@None (voice f32)) by (destruct j; reflexivity).
      rewrite IH. reflexivity. }
    specialize (K cs).
    destruct (C102_any_schedule NP B h ss bank [] cs _ _ _ BI AP FA K) as (h' & us' & R).
    eexists _, _, _, h', us'. split; [exact K|exact R]. }
  rewrite <- EM in *.
  assert (HI : Z.of_nat n <= isize_max).
  { rewrite EM in FA. inversion FA as [|x xs H1 H2]; subst. destruct BI as [L BI].
    destruct (nth_error ss (made_slot m0)) as [s|] eqn:Es; [|apply nth_error_None in Es; lia].
    destruct (nth_error bank (made_slot m0)) as [l|] eqn:El; [|apply nth_error_None in El; lia].
    destruct (BI _ _ _ Es El) as (Hl & Hm & _). rewrite Forall_forall in FB.
    rewrite <- (FB l) by (eapply nth_error_In; exact El). lia. }
  destruct (voices_sized n N HI cs bank (map made_voice ms) TK) as [[bank' [vs' ys]] SP].
  { split; [exact FB|]. rewrite Forall_map. eapply Forall_impl; [|exact FA].
    intros m Hm. destruct BI as [L _]. rewrite <- L. destruct m; cbn in *; auto. }
  destruct (C102_any_schedule NP B h ss bank ms cs bank' vs' ys BI AP FA SP) as (h' & us' & R).
  exists bank', vs', ys, h', us'. split; [exact SP|exact R].
Qed.
Print Assumptions C102_equal_buffers_safe.

(** C103: a unit whose buffers no other unit uses returns, in any interleaving with any
    other units, what it returns when called alone, and leaves the same state and the
    same samples in its buffers. *)
Theorem C103_units_independent : forall (NP : NanPolicy) (B : Build) (h : heap f32) ss bank ms cs bank' vs' ys j,
  bank_in h ss bank -> apart ss -> made_over ss ms ->
  voices_run bank (map made_voice ms) cs = Some (bank', (vs', ys)) ->
  (forall i k, i <> j -> uses ms cs i k -> ~ uses ms cs j k) ->
  exists h1 us1 h2 us2,
    rack_run ss h (map (made_unit ss) ms) cs = Ret (h1, (us1, ys)) /\
    rack_run ss h (map (made_unit ss) ms) (of_unit j cs) = Ret (h2, (us2, of_unit j ys)) /\
    nth_error us1 j = nth_error us2 j /\
    forall k s, uses ms cs j k -> nth_error ss k = Some s -> exists l, covers h1 s l /\ covers h2 s l.
Proof.
  intros NP B h ss bank ms cs bank' vs' ys j BI AP FA SP DJ.
  destruct (rack_run_ok ss AP cs h _ bank _ bank' vs' ys BI
              (made_rel ss ms one_minus_half FA) SP) as (h1 & us1 & E1 & BI1 & UR1 & _).
  destruct (voices_alone (uses ms cs j) j cs bank (map made_voice ms) bank (map made_voice ms) bank' vs' ys)
    as (b2 & vs2 & SP2 & [AL AG] & EV); [split; auto|reflexivity| | |exact SP|].
  { intros i v Hv. rewrite nth_error_map in Hv. destruct (nth_error ms i) as [m|] eqn:Em; [|discriminate].
    cbn in Hv. injection Hv as <-.
    assert (U : uses ms cs i (slot (made_voice m : voice f32)))
      by (left; exists m; split; [exact Em|destruct m; reflexivity]).
    destruct (Nat.eqb_spec i j) as [->|NE]; [exact U|]. exact (DJ _ _ NE U). }
  { intros i k HI. assert (U : uses ms cs i k) by (right; exact HI).
    destruct (Nat.eqb_spec i j) as [->|NE]; [exact U|]. exact (DJ _ _ NE U). }
  destruct (rack_run_ok ss AP (of_unit j cs) h _ bank _ b2 vs2 _ BI
              (made_rel ss ms one_minus_half FA) SP2) as (h2 & us2 & E2 & BI2 & UR2 & _).
  exists h1, us1, h2, us2. split; [exact E1|]. split; [exact E2|]. split.
  - destruct UR1 as [L1 R1], UR2 as [L2 R2].
    destruct (nth_error vs' j) as [v|] eqn:Ev.
    + destruct (nth_error us1 j) as [u1|] eqn:U1.
      * destruct (nth_error us2 j) as [u2|] eqn:U2.
        -- f_equal. eapply unit_rel_fun; [eapply R1|eapply R2]; eauto.
        -- apply nth_error_None in U2. assert (nth_error vs2 j = None) by (apply nth_error_None; lia).
           congruence.
      * apply nth_error_None in U1. assert (nth_error vs' j = None) by (apply nth_error_None; lia).
        congruence.
    + symmetry in EV. apply nth_error_None in Ev, EV.
      transitivity (@None (unit_ f32)); [|symmetry]; apply nth_error_None; lia.
  - intros k s U Hs. destruct BI1 as [L1 C1], BI2 as [L2 C2].
    destruct (nth_error bank' k) as [l|] eqn:El.
    + exists l. split; [eauto|]. apply (C2 k); [exact Hs|]. rewrite <- AG by exact U. exact El.
    + apply nth_error_None in El. assert (nth_error ss k <> None) by congruence.
      apply nth_error_Some in H. lia.
Qed.
Print Assumptions C103_units_independent.

(** Instances: two separate buffers, of lengths 3 and 2. *)
Definition rack_slices : list mslice := [ex_slice; MS (PAt 1 0) 2].
Definition rack_bank : list (list f32) := [ex_list; [of_int 5; of_int 6]].
Lemma rack_bank_in {B : Build} : bank_in ex_heap rack_slices rack_bank.
Proof.
  split; [reflexivity|]. intros [|[|k]] s l Hs Hl; cbn in Hs, Hl.
  - injection Hs as <-. injection Hl as <-. exact ex_covers.
  - injection Hs as <-. injection Hl as <-. unfold covers. cbn [ms_len ms_ptr length].
    split; [reflexivity|]. split; [pose proof isize_max_pos; lia|]. exists [], []. split; reflexivity.
  - destruct k; discriminate.
Qed.
Lemma rack_apart : apart rack_slices.
Proof.
  intros i j s t b o Hi Hj (x & Hx & Ax) (y & Hy & Ay).
  destruct i as [|[|i]], j as [|[|j]]; cbn in Hi, Hj; try reflexivity;
    try (destruct i; discriminate); try (destruct j; discriminate);
    injection Hi as <-; injection Hj as <-; cbn in Ax, Ay; congruence.
Qed.
(** A comb over the first buffer ticks, moves to the second, ticks there at position 1
    with its filter state, and goes on at position 0; a delay line and an all-pass, on
    the same and on the other buffer, are called in between. *)
Definition rack_units : list made := [MComb 0; MPass 1; MLine 0; MSlice 1].
Definition rack_calls : list (nat * call f32) :=
  [(0%nat, Tick (of_int 1)); (1%nat, Tick (of_int 2)); (0%nat, Change 1); (2%nat, Write (of_int 4));
   (0%nat, Feedback (of_int 1)); (0%nat, Tick (of_int 0)); (2%nat, Read); (0%nat, Tick (of_int 3));
   (1%nat, Tick (of_int 0)); (7%nat, Read); (2%nat, Tick (of_int 0));
   (2%nat, Tap (-2)); (3%nat, Get 1); (3%nat, Get 2); (3%nat, Assign 1 (of_int 8)); (1%nat, Change 0);
   (3%nat, Get 1)].
Definition shown (y : reply f32) : reply Z :=
  match y with Nothing => Nothing | Value y => Value (to_bits y) | Refused => Refused end.
Definition results {A C} (r : option (A * (C * list (nat * reply f32)))) : option (list (nat * reply Z)) :=
  option_map (fun e => map (fun p => (fst p, shown (snd p))) (snd (snd e))) r.
Example C102_met (NP : NanPolicy) : let B := dbg32 in
  bank_in ex_heap rack_slices rack_bank /\ apart rack_slices /\
  made_over rack_slices rack_units /\
  results (voices_run rack_bank (map made_voice rack_units) rack_calls) = Some
    [(0%nat, Value (to_bits (of_int 1))); (1%nat, Value (to_bits (of_int 3))); (0%nat, Nothing);
     (2%nat, Nothing); (0%nat, Nothing); (0%nat, Value (to_bits (of_int 6)));
     (2%nat, Value (to_bits (of_int 2))); (0%nat, Value (to_bits (lit 9 (-1))));
     (1%nat, Value (to_bits (lit 13 (-2)))); (7%nat, Nothing); (2%nat, Nothing);
     (2%nat, Value (to_bits (of_int 3))); (3%nat, Value (to_bits (lit 13 (-3)))); (3%nat, Refused);
     (3%nat, Nothing); (1%nat, Nothing); (3%nat, Value (to_bits (of_int 8)))].
Proof.
  intros B. split; [exact rack_bank_in|]. split; [exact rack_apart|]. split.
  - unfold made_over. repeat constructor.
  - vm_compute. reflexivity.
Qed.

(** The hypothesis of C103 for unit 1 when the comb stays on its buffer. *)
Definition own_units : list made := [MComb 0; MPass 1; MLine 0].
Example C103_met (NP : NanPolicy) (B : Build) :
  let cs := [(0%nat, Tick (of_int 1)); (1%nat, Tick (of_int 2)); (2%nat, Write (of_int 4));
             (1%nat, Tick (of_int 0)); (0%nat, Tick (of_int 3)); (1%nat, Tick (of_int 1))] in
  (forall i k, i <> 1%nat -> uses own_units cs i k -> ~ uses own_units cs 1 k) /\
  match voices_run rack_bank (map made_voice own_units) cs with Some _ => True | None => False end.
Proof.
  intros cs. split.
  - assert (NC : forall i k, ~ In (i, Change k) cs)
      by (intros i k HI; cbn in HI; intuition discriminate).
    intros i k Hi [(m & Hm & E)|HI]; [|exfalso; exact (NC _ _ HI)].
    intros [(m1 & Hm1 & E1)|HI]; [|exact (NC _ _ HI)].
    destruct i as [|[|[|i]]]; cbn in Hm, Hm1; try congruence.
    + injection Hm as <-. injection Hm1 as <-. cbn in *. congruence.
    + injection Hm as <-. injection Hm1 as <-. cbn in *. congruence.
    + destruct i; discriminate.
  - destruct (results (voices_run rack_bank (map made_voice own_units) cs)) as [r|] eqn:E.
    + destruct (voices_run _ _ _); [exact I|discriminate].
    + exfalso. revert E. unfold cs. vm_compute. discriminate.
Qed.
