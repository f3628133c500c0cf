From Coq Require Import ZArith List Bool Lia.
From Verif Require Import Base F32 F32Lemmas F32Ints Num M_Memory S_Memory P_Memory P_Lerp S_SliceHistory.
Import ListNotations.
Open Scope Z_scope.

Section Hist.
Context {NP : NanPolicy} {MO : MathOps f32} {B : Build}.

Definition mem_eq (m m' : memory (F := f32)) : Prop := forall b o, m b o = m' b o.

Definition hist_rel (st : heap f32 * list mslice) (ab : memory (F := f32) * list view) : Prop :=
  mem_eq (memory_of (fst st)) (fst ab) /\
  Forall2 (fun s w => slice_view s w /\ exists l, covers (fst st) s l) (snd st) (snd ab).

Lemma Forall2_nth {A C} (P : A -> C -> Prop) l1 l2 k : Forall2 P l1 l2 ->
  match nth_error l1 k, nth_error l2 k with
  | Some a, Some c => P a c
  | None, None => True
  | _, _ => False
  end.
Proof.
  intros H. revert k. induction H; intros [|k]; simpl; auto. apply IHForall2.
Qed.

Lemma view_read h m s w l i : mem_eq (memory_of h) m -> slice_view s w -> covers h s l ->
  0 <= i < ms_len s -> view_at m w i = nthz l i.
Proof.
  intros Hm Hv C Hi. destruct w as [[b o] n]. destruct Hv as [Hn Hp]. unfold view_at.
  rewrite <- Hm. unfold memory_of.
  destruct (covers_addr h s l i C Hi) as (b' & o' & A & E). rewrite <- E.
  unfold addr in A. destruct (ms_ptr s) as [|b0 o0]; [discriminate|].
  destruct Hp as [-> ->]. injection A as -> <-. reflexivity.
Qed.

Definition not_ub {A} (x : outcome A) : Prop := match x with UB => False | _ => True end.

Lemma hist_step_ok st ab op : hist_rel st ab -> args_ok op ->
  match hist_step st op with
  | UB => False
  | Panic => True
  | Ret (st', o) => o = snd (array_step ab op) /\ hist_rel st' (fst (array_step ab op))
  end.
Proof.
  destruct st as [h pool], ab as [m vs]. intros [Hm Hp] Ha. cbn [fst snd] in Hm, Hp.
  destruct op as [k i|k i v|k i|k i|k x|k x|k o n]; cbn [hist_step array_step];
    pose proof (Forall2_nth _ _ _ k Hp) as Hk;
    destruct (nth_error pool k) as [s|]; destruct (nth_error vs k) as [w|];
    try contradiction; try (cbn; split; [reflexivity | split; assumption]).
  all: destruct Hk as [Hv [l C]]; pose proof (covers_len _ _ _ C) as Hlen; pose proof C as (Hl & _);
    assert (Hw : view_len w = ms_len s) by (destruct w as [[b0 o0] n0]; symmetry; apply Hv).
  - cbn in Ha. rewrite (get_spec h s l i C) by (apply Ha). cbn [bind snd fst]. rewrite Hw.
    split; [|split; assumption].
    destruct (Z.ltb_spec i (ms_len s)) as [L|L].
    + unfold is_usize in Ha. destruct (nthz_ex l i) as [v Ev]; [lia|].
      rewrite (view_read h m s w l i Hm Hv C) by lia. now rewrite Ev.
    + now rewrite nthz_None by lia.
  - cbn in Ha. unfold is_usize in Ha. pose proof (assign_spec h s l i v C ltac:(lia)) as A. rewrite Hw.
    destruct (Z.ltb_spec i (ms_len s)) as [L|L].
    + destruct A as (h' & E & C' & Fr & Al). rewrite E. cbn [bind snd fst].
      split; [reflexivity|]. split; cbn [fst snd].
      * intros b o. unfold memory_of. rewrite Fr. destruct w as [[b0 o0] n0]. destruct Hv as [Hn Hpt].
        unfold store, addr. destruct (ms_ptr s) as [|b1 o1].
        -- lia.
        -- destruct Hpt as [-> ->]. rewrite <- Hm. reflexivity.
      * clear - Hp Al. induction Hp as [|s2 w2 pool vs [V [l2 C2]] Hp IH]; constructor; auto.
        split; auto. destruct (Al s2 l2 C2) as (l2' & C2' & _). eauto.
    + rewrite A. cbn [bind snd fst]. split; [reflexivity|split; assumption].
  - cbn in Ha. destruct (Z.eq_dec (ms_len s) 0) as [E0|E0].
    + now rewrite (get_wrapped_0 h s l i C E0).
    + destruct (get_wrapped_ok h s l i C ltac:(lia) Ha) as (v & Ev & E). rewrite E. cbn [bind snd fst].
      split; [|split; assumption]. rewrite Hw.
      rewrite (view_read h m s w l _ Hm Hv C) by (apply Z.mod_pos_bound; lia). now rewrite Ev.
  - cbn in Ha. destruct (Z.eq_dec (ms_len s) 0) as [E0|E0].
    + destruct (four_0 h s l i C E0 Ha) as [E|[_ E]]; now rewrite E.
    + destruct (four_ok h s l i C ltac:(lia) Ha) as (a & b & c & d & A1 & A2 & A3 & A4 & E).
      rewrite E. cbn [bind snd fst]. split; [|split; assumption]. rewrite Hw. cbn [map].
      rewrite Z.add_0_r.
      rewrite !(view_read h m s w l _ Hm Hv C) by (apply Z.mod_pos_bound; lia).
      now rewrite A1, A2, A3, A4.
  - destruct (Z.eq_dec (ms_len s) 0) as [E0|E0].
    + rewrite (ms_lerp_empty h s l x C E0). destruct (nlt x (nint 0)); [|destruct ovf_checks]; cbn; auto;
        split; auto; split; assumption.
    + destruct (ms_lerp_safe h s l x C ltac:(lia)) as [E|[v E]]; rewrite E; cbn [bind snd fst];
        (split; [reflexivity|split; assumption]).
  - destruct (Z.eq_dec (ms_len s) 0) as [E0|E0].
    + unfold ms_lerp_wrapped. now rewrite (get_wrapped_0 h s l _ C E0).
    + destruct (ms_lerp_wrapped_general h s l x C ltac:(lia)) as [(E & _)|(a & b & _ & _ & E)]; rewrite E;
        cbn [bind snd fst]; auto. split; [reflexivity|split; assumption].
  - cbn in Ha. destruct Ha as (Ho & Hn & Hov). unfold is_usize in Ho, Hn.
    destruct (get_sub_slice_spec h s l o n C ltac:(lia) ltac:(lia) Hov) as (S1 & S2 & S3).
    destruct w as [[b p] len]. cbn in Hw. subst len.
    destruct (Z.leb_spec (ms_len s) o) as [L|L].
    + rewrite S1 by lia. cbn. split; [reflexivity|split; assumption].
    + destruct (Z.leb_spec (ms_len s) (o + n)) as [L2|L2].
      * rewrite S2 by lia. cbn. split; [reflexivity|split; assumption].
      * destruct (S3 ltac:(lia)) as (s' & E & C' & Ln & Ad). rewrite E. cbn [bind snd fst].
        split; [reflexivity|]. split; cbn [fst snd]; auto.
        apply Forall2_app; auto. constructor; auto. split; [|eauto].
        split; [exact Ln|]. destruct Hv as [_ Hpt]. specialize (Ad 0). unfold addr in Ad.
        destruct (ms_ptr s) as [|b0 o0]; [lia|]. destruct Hpt as [-> ->].
        destruct (ms_ptr s') as [|b1 o1]; [discriminate|]. injection Ad as -> Ad. split; [reflexivity|lia].
Qed.

Lemma hist_run_ok ops : forall st ab, hist_rel st ab -> Forall args_ok ops ->
  match hist_run st ops with
  | UB => False
  | Panic => True
  | Ret (st', os) => os = snd (array_run ab ops) /\ hist_rel st' (fst (array_run ab ops))
  end.
Proof.
  induction ops as [|op ops IH]; intros st ab R Ha.
  - cbn. auto.
  - inversion Ha; subst. pose proof (hist_step_ok st ab op R H1) as S.
    cbn [hist_run array_run]. destruct (hist_step st op) as [[st1 o]| |]; auto. cbn [bind].
    destruct (array_step ab op) as [ab1 o']. cbn [fst snd] in S. destruct S as [-> R1].
    specialize (IH st1 ab1 R1 H2). destruct (hist_run st1 ops) as [[st2 os]| |]; auto. cbn [bind].
    destruct (array_run ab1 ops) as [ab2 os']. cbn [fst snd] in *. destruct IH as [-> R2]. auto.
Qed.

(** A panic needs an empty slice, or a wrapped lerp at the top of the index range. *)
Definition may_panic (pool : list mslice) (op : slice_op f32) : Prop :=
  match op with
  | OGetWrapped k _ | OFour k _ => exists s, nth_error pool k = Some s /\ ms_len s = 0
  | OLerp k _ => exists s, nth_error pool k = Some s /\ ms_len s = 0 /\ ovf_checks = true
  | OLerpWrapped k x => exists s, nth_error pool k = Some s /\
      (ms_len s = 0 \/ (ovf_checks = true /\ n_isize (m_floor x) = isize_max))
  | _ => False
  end.

Lemma hist_step_panic st ab op : hist_rel st ab -> args_ok op -> hist_step st op = Panic ->
  may_panic (snd st) op.
Proof.
  destruct st as [h pool], ab as [m vs]. intros [Hm Hp] Ha E. cbn [fst snd] in *.
  destruct op as [k i|k i v|k i|k i|k x|k x|k o n]; cbn [hist_step] in E; unfold may_panic;
    pose proof (Forall2_nth _ _ _ k Hp) as Hk;
    destruct (nth_error pool k) as [s|]; destruct (nth_error vs k) as [w|];
    try contradiction; try discriminate E.
  all: destruct Hk as [Hv [l C]]; pose proof (covers_len _ _ _ C) as Hlen; pose proof C as (Hl & _).
  - cbn in Ha. rewrite (get_spec h s l i C) in E by apply Ha. discriminate E.
  - cbn in Ha. unfold is_usize in Ha. pose proof (assign_spec h s l i v C ltac:(lia)) as A.
    destruct (Z.ltb_spec i (ms_len s)).
    + destruct A as (h' & A & _). rewrite A in E. discriminate E.
    + rewrite A in E. discriminate E.
  - exists s. split; auto. destruct (Z.eq_dec (ms_len s) 0) as [|E0]; auto.
    destruct (get_wrapped_ok h s l i C ltac:(lia) Ha) as (v & Ev & E1). rewrite E1 in E. discriminate E.
  - exists s. split; auto. destruct (Z.eq_dec (ms_len s) 0) as [|E0]; auto.
    destruct (four_ok h s l i C ltac:(lia) Ha) as (a & b & c & d & _ & _ & _ & _ & E1).
    rewrite E1 in E. discriminate E.
  - exists s. split; auto. destruct (Z.eq_dec (ms_len s) 0) as [E0|E0].
    + split; auto. rewrite (ms_lerp_empty h s l x C E0) in E. destruct (nlt x (nint 0)); [discriminate E|].
      destruct ovf_checks; [reflexivity|discriminate E].
    + destruct (ms_lerp_safe h s l x C ltac:(lia)) as [E1|[v E1]]; rewrite E1 in E; discriminate E.
  - exists s. split; auto. destruct (Z.eq_dec (ms_len s) 0) as [|E0]; auto. right.
    destruct (ms_lerp_wrapped_general h s l x C ltac:(lia)) as [(E1 & O & I)|(a & b & _ & _ & E1)]; auto.
    rewrite E1 in E. discriminate E.
  - cbn in Ha. destruct Ha as (Ho & Hn & Hov). unfold is_usize in Ho, Hn.
    destruct (get_sub_slice_spec h s l o n C ltac:(lia) ltac:(lia) Hov) as (S1 & S2 & S3).
    destruct (Z.le_gt_cases (ms_len s) o); [rewrite S1 in E by lia; discriminate E|].
    destruct (Z.le_gt_cases (ms_len s) (o + n)); [rewrite S2 in E by lia; discriminate E|].
    destruct (S3 ltac:(lia)) as (s' & E1 & _). rewrite E1 in E. discriminate E.
Qed.
End Hist.
