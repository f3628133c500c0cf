(** * Lemmas for C111. *)

From Coq Require Import ZArith List Bool Lia.
From Verif Require Import Base F32 Num M_Memory M_Delay M_Biquad S_Memory S_Delay S_Rack S_Network P_Memory P_Delay P_Rack.
Import ListNotations.
Open Scope Z_scope.

Section Network.
Context {F : Type} {NF : Num F} {B : Build}.
Notation heap := (heap F).

(** ** Lists of slices *)
Lemma any_app (ss ts : list mslice) b o : in_any (ss ++ ts) b o <-> in_any ss b o \/ in_any ts b o.
Proof.
  split.
  - intros (s & H & I). apply in_app_or in H. destruct H; [left|right]; exists s; auto.
  - intros [(s & H & I)|(s & H & I)]; exists s; (split; [apply in_or_app; auto|exact I]).
Qed.
Lemma apart_split (ss ts : list mslice) : apart (ss ++ ts) -> apart ss /\ apart ts /\ forall b o, in_any ss b o -> in_any ts b o -> False.
Proof.
  intros A. split; [|split].
  - intros i j s t b o Hi Hj Is It.
    assert (Li : (i < length ss)%nat) by (apply nth_error_Some; congruence). assert (Lj : (j < length ss)%nat) by (apply nth_error_Some; congruence).
    apply (A i j s t b o); auto; rewrite nth_error_app1 by assumption; assumption.
  - intros i j s t b o Hi Hj Is It.
    assert (E : (length ss + i = length ss + j)%nat); [|lia].
    apply (A _ _ s t b o); auto; rewrite nth_error_app2 by lia; [now replace (length ss + i - length ss)%nat with i by lia|now replace (length ss + j - length ss)%nat with j by lia].
  - intros b o (s & Hs & Is) (t & Ht & It). apply In_nth_error in Hs. apply In_nth_error in Ht. destruct Hs as [i Hi], Ht as [j Hj].
    assert (Li : (i < length ss)%nat) by (apply nth_error_Some; congruence).
    assert (E : (i = length ss + j)%nat); [|lia].
    apply (A _ _ s t b o); auto; [now rewrite nth_error_app1|]. rewrite nth_error_app2 by lia. now replace (length ss + j - length ss)%nat with j by lia.
Qed.

Lemma same_shape_refl (h : heap) : same_shape h h.
Proof. intros b. reflexivity. Qed.
Lemma same_shape_trans (h1 h2 h3 : heap) : same_shape h1 h2 -> same_shape h2 h3 -> same_shape h1 h3.
Proof. intros A C b. now rewrite (C b), (A b). Qed.

(** ** A running program and the rest of its signal function *)
Inductive acts (h : heap) : net F -> list mslice -> (list F -> list F) -> Prop :=
| acts_delay d q : dl_rel h d q -> acts h (NDelay d) [dl_buf d] (fun xs => firstn (length xs) (q ++ xs))
| acts_comb c d m s damp fb : comb_rel h c d m s damp fb ->
    acts h (NComb c) [dl_buf (cb_dl c)] (fun xs => comb_spec d m s damp fb (map CTick xs))
| acts_pass a d m : dl_rel h (ap_dl a) (skipn m d) -> acts h (NPass a) [dl_buf (ap_dl a)] (ap_spec d m)
| acts_filter b : acts h (NFilter b) [] (filtered b)
| acts_scale g : acts h (NScale g) [] (map (fun x => nmul x g))
| acts_series n m ss ts f g : acts h n ss f -> acts h m ts g -> acts h (NSeries n m) (ss ++ ts) (fun xs => g (f xs))
| acts_mix n m ss ts f g : acts h n ss f -> acts h m ts g -> acts h (NMix n m) (ss ++ ts) (fun xs => added (f xs) (g xs)).

Lemma dl_rel_kept (h h' : heap) d q : same_shape h h' -> (forall b o, in_slice (dl_buf d) b o -> cell h' b o = cell h b o) -> dl_rel h d q -> dl_rel h' d q.
Proof. intros S K (l & C & R). exists l. split; [|exact R]. now apply (covers_kept h). Qed.

Lemma acts_kept (h h' : heap) n ss f : same_shape h h' -> (forall b o, in_any ss b o -> cell h' b o = cell h b o) -> acts h n ss f -> acts h' n ss f.
Proof.
  intros S K A. revert K. induction A as [d q R|c d m s damp fb R|a d m R|b|g|n m ss ts f g A1 I1 A2 I2|n m ss ts f g A1 I1 A2 I2]; intros K.
  - constructor. apply (dl_rel_kept h); auto. intros b o I. apply K. exists (dl_buf d). split; [now left|exact I].
  - constructor. destruct R as (R & E). split; [|exact E]. apply (dl_rel_kept h); auto. intros b o I. apply K. exists (dl_buf (cb_dl c)). split; [now left|exact I].
  - constructor. apply (dl_rel_kept h); auto. intros b o I. apply K. exists (dl_buf (ap_dl a)). split; [now left|exact I].
  - constructor.
  - constructor.
  - constructor; [apply I1|apply I2]; intros b o I; apply K, any_app; auto.
  - constructor; [apply I1|apply I2]; intros b o I; apply K, any_app; auto.
Qed.

Lemma one_slice s (h h' : heap) : same_except (in_slice s) h h' -> same_except (in_any [s]) h h'.
Proof. intros H b o N. apply H. intros I. apply N. exists s. split; [now left|exact I]. Qed.

Lemma acts_step n : forall h ss f x, acts h n ss f -> apart ss ->
  exists h' n' y f', net_tick h n x = Ret (h', n', y) /\ acts h' n' ss f' /\ (forall xs, f (x :: xs) = y :: f' xs) /\
    same_except (in_any ss) h h' /\ same_shape h h'.
Proof.
  induction n as [d|c|a|b|g|n In m Im|n In m Im]; intros h ss f x A HA.
  - inversion A as [d0 q R| | | | | | ]; subst. destruct (dl_read_ok _ _ _ R) as (y & Ey & E). destruct (write_rel h d q x R) as (h' & d' & Ew & Eb & R' & Fr & _ & Sh).
    exists h', (NDelay d'), y, (fun xs => firstn (length xs) ((tl q ++ [x]) ++ xs)). cbn [net_tick]. rewrite E. cbn [bind]. rewrite Ew. cbn [bind fst snd]. split; [reflexivity|].
    split; [rewrite <- Eb; now constructor|]. split; [|split; [now apply one_slice|exact Sh]].
    intros xs. destruct q as [|y0 q]; [discriminate|]. injection Ey as ->. cbn [tl length app firstn]. now rewrite <- app_assoc.
  - inversion A as [|c0 d m s damp fb R| | | | | ]; subst. destruct R as (R & <- & <- & Di & <-).
    destruct (dl_read_ok _ _ _ R) as (y & Ey & E). set (st := nadd (nmul y (cb_damp_inv c)) (nmul (cb_state c) (cb_damp c))).
    destruct (write_rel h (cb_dl c) _ (nadd x (nmul st (cb_feedback c))) R) as (h' & d' & Ew & Eb & R' & Fr & _ & Sh).
    exists h', (NComb (CB d' (cb_feedback c) st (cb_damp c) (cb_damp_inv c))), y,
      (fun xs => comb_spec (d ++ [nadd x (nmul st (cb_feedback c))]) (S m) st (cb_damp c) (cb_feedback c) (map CTick xs)).
    cbn [net_tick]. unfold cb_tick. rewrite E. cbn [bind]. fold st. rewrite Ew. cbn [bind fst snd]. split; [reflexivity|].
    destruct (hd_skipn d m y (nint 0) Ey) as (N1 & N2 & N3).
    split; [|split; [|split; [now apply one_slice|exact Sh]]].
    + rewrite <- Eb. change d' with (cb_dl (CB d' (cb_feedback c) st (cb_damp c) (cb_damp_inv c))) at 2. constructor.
      split; [|repeat split; try reflexivity; exact Di]. cbn [cb_dl]. rewrite skipn_app. replace (S m - length d)%nat with 0%nat by lia. rewrite <- N3. exact R'.
    + intros xs. cbn [map comb_spec]. rewrite N1, <- Di. reflexivity.
  - inversion A as [| |a0 d m R| | | | ]; subst.
    destruct (dl_read_ok _ _ _ R) as (y & Ey & E).
    destruct (write_rel h (ap_dl a) _ (nadd x (nmul y (ndy 1 (-1)))) R) as (h' & d' & Ew & Eb & R' & Fr & _ & Sh).
    exists h', (NPass (AP d')), (nadd (nneg x) y), (ap_spec (d ++ [nadd x (nmul y (ndy 1 (-1)))]) (S m)).
    cbn [net_tick]. unfold ap_tick. rewrite E. cbn [bind]. rewrite Ew. cbn [bind fst snd]. split; [reflexivity|].
    destruct (hd_skipn d m y (nint 0) Ey) as (N1 & N2 & N3).
    split; [|split; [|split; [now apply one_slice|exact Sh]]].
    + rewrite <- Eb. change d' with (ap_dl (AP d')) at 2. constructor.
      cbn [ap_dl]. rewrite skipn_app. replace (S m - length d)%nat with 0%nat by lia. rewrite <- N3. exact R'.
    + intros xs. cbn [ap_spec]. rewrite N1. reflexivity.
  - inversion A; subst. exists h, (NFilter (fst (bq_process b x))), (snd (bq_process b x)), (filtered (fst (bq_process b x))).
    split; [reflexivity|]. split; [constructor|]. split; [reflexivity|]. split; [intros ? ? _; reflexivity|apply same_shape_refl].
  - inversion A; subst. exists h, (NScale g), (nmul x g), (map (fun x => nmul x g)).
    split; [reflexivity|]. split; [constructor|]. split; [reflexivity|]. split; [intros ? ? _; reflexivity|apply same_shape_refl].
  - inversion A as [| | | | |n0 m0 s1 s2 f1 f2 A1 A2| ]; subst. destruct (apart_split _ _ HA) as (P1 & P2 & DJ).
    destruct (In h s1 f1 x A1 P1) as (h1 & n1 & y & f1' & E1 & A1' & F1 & S1 & H1).
    assert (A2' : acts h1 m s2 f2) by (apply (acts_kept h); [exact H1| |exact A2]; intros b o I; apply S1; intros I1; exact (DJ b o I1 I)).
    destruct (Im h1 s2 f2 y A2' P2) as (h2 & m1 & z & f2' & E2 & A3 & F2 & S2 & H2).
    exists h2, (NSeries n1 m1), z, (fun xs => f2' (f1' xs)). cbn [net_tick]. rewrite E1. cbn [bind fst snd]. rewrite E2. cbn [bind fst snd]. split; [reflexivity|].
    split; [|split; [intros xs; now rewrite F1, F2|split]].
    + constructor; [|exact A3]. apply (acts_kept h1); [exact H2| |exact A1']. intros b o I. apply S2. intros I2. exact (DJ b o I I2).
    + intros b o N. rewrite (S2 b o), (S1 b o); [reflexivity| |]; intros I; apply N, any_app; auto.
    + exact (same_shape_trans h h1 h2 H1 H2).
  - inversion A as [| | | | | |n0 m0 s1 s2 f1 f2 A1 A2]; subst. destruct (apart_split _ _ HA) as (P1 & P2 & DJ).
    destruct (In h s1 f1 x A1 P1) as (h1 & n1 & y & f1' & E1 & A1' & F1 & S1 & H1).
    assert (A2' : acts h1 m s2 f2) by (apply (acts_kept h); [exact H1| |exact A2]; intros b o I; apply S1; intros I1; exact (DJ b o I1 I)).
    destruct (Im h1 s2 f2 x A2' P2) as (h2 & m1 & z & f2' & E2 & A3 & F2 & S2 & H2).
    exists h2, (NMix n1 m1), (nadd y z), (fun xs => added (f1' xs) (f2' xs)). cbn [net_tick]. rewrite E1. cbn [bind fst snd]. rewrite E2. cbn [bind fst snd]. split; [reflexivity|].
    split; [|split; [intros xs; now rewrite F1, F2|split]].
    + constructor; [|exact A3]. apply (acts_kept h1); [exact H2| |exact A1']. intros b o I. apply S2. intros I2. exact (DJ b o I I2).
    + intros b o N. rewrite (S2 b o), (S1 b o); [reflexivity| |]; intros I; apply N, any_app; auto.
    + exact (same_shape_trans h h1 h2 H1 H2).
Qed.

Lemma acts_nil h n ss f : acts h n ss f -> f [] = [].
Proof.
  intros A. induction A as [d q R|c d m s damp fb R|a d m R|b|g|n m ss ts f g A1 I1 A2 I2|n m ss ts f g A1 I1 A2 I2]; try reflexivity.
  - now rewrite I1.
  - rewrite I1. reflexivity.
Qed.

Lemma acts_run xs : forall h n ss f, acts h n ss f -> apart ss ->
  exists h' n', net_run h n xs = Ret (h', n', f xs) /\ same_except (in_any ss) h h' /\ same_shape h h'.
Proof.
  induction xs as [|x xs IH]; intros h n ss f A AP.
  - exists h, n. rewrite (acts_nil _ _ _ _ A). split; [reflexivity|]. split; [intros ? ? _; reflexivity|apply same_shape_refl].
  - destruct (acts_step n h ss f x A AP) as (h1 & n1 & y & f' & E & A' & Ef & S1 & H1).
    destruct (IH h1 n1 ss f' A' AP) as (h2 & n2 & E2 & S2 & H2).
    exists h2, n2. cbn [net_run]. rewrite E. cbn [bind fst snd]. rewrite E2. cbn [bind fst snd]. rewrite Ef. split; [reflexivity|].
    split; [|exact (same_shape_trans h h1 h2 H1 H2)]. intros b o N. now rewrite (S2 b o N), (S1 b o N).
Qed.

Lemma fresh_acts h n p ss : fresh h n p ss -> acts h n ss (signal p).
Proof.
  induction 1 as [s l C L|s l damp fb C L|s l C L|c|g|n m p q ss ts H1 I1 H2 I2|n m p q ss ts H1 I1 H2 I2].
  - exact (acts_delay h (dl_new s) l (dl_new_rel h s l C L)).
  - refine (acts_comb h (cb_set_feedback (cb_set_dampening (cb_new s) damp) fb) l 0 (nint 0) damp fb _). split; [exact (dl_new_rel h s l C L)|]. repeat split; reflexivity.
  - exact (acts_pass h (ap_new s) l 0 (dl_new_rel h s l C L)).
  - exact (acts_filter h (bq_new c)).
  - exact (acts_scale h g).
  - exact (acts_series h n m ss ts _ _ I1 I2).
  - exact (acts_mix h n m ss ts _ _ I1 I2).
Qed.
End Network.
