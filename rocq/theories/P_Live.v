(** * Lemmas for C115. *)

From Coq Require Import ZArith List Bool Reals Lia.
From Verif Require Import Base F32 Num M_Memory M_Delay M_Biquad S_Memory S_Delay S_Rack S_Network S_Live P_Memory P_Delay P_Rack P_Network.
Import ListNotations.
Open Scope Z_scope.

Section Live.
Context {F : Type} {NF : Num F} {B : Build}.
Notation heap := (heap F).
Notation event := (event F).

(** A running program and what it will make of the rest of its history. *)
Inductive does (h : heap) : net F -> list mslice -> (list event -> list F) -> Prop :=
| does_delay d q : dl_rel h d q -> does h (NDelay d) [dl_buf d] (fun evs => firstn (length (inputs evs)) (q ++ inputs evs))
| does_comb c d m s damp fb : comb_rel h c d m s damp fb ->
    does h (NComb c) [dl_buf (cb_dl c)] (fun evs => comb_spec d m s damp fb (comb_events evs))
| does_pass a d m : dl_rel h (ap_dl a) (skipn m d) -> does h (NPass a) [dl_buf (ap_dl a)] (fun evs => ap_spec d m (inputs evs))
| does_filter b : does h (NFilter b) [] (live_filter b)
| does_scale g : does h (NScale g) [] (live_gain g)
| does_series n m ss ts f g : does h n ss f -> does h m ts g -> does h (NSeries n m) (ss ++ ts) (fun evs => g (feed (branch false evs) (f (branch true evs))))
| does_mix n m ss ts f g : does h n ss f -> does h m ts g -> does h (NMix n m) (ss ++ ts) (fun evs => added (f (branch true evs)) (g (branch false evs))).

Lemma does_kept (h h' : heap) n ss f : same_shape h h' -> (forall b o, in_any ss b o -> cell h' b o = cell h b o) -> does h n ss f -> does h' n ss f.
Proof.
  intros S K A. revert K. induction A as [d q R|c d m s damp fb R|a d m R|b|g|n m ss ts f g A1 I1 A2 I2|n m ss ts f g A1 I1 A2 I2]; intros K.
  - constructor. apply (dl_rel_kept h); auto. intros b o I. apply K. exists (dl_buf d). split; [now left|exact I].
  - constructor. destruct R as (R & E). split; [|exact E]. apply (dl_rel_kept h); auto. intros b o I. apply K. exists (dl_buf (cb_dl c)). split; [now left|exact I].
  - constructor. apply (dl_rel_kept h); auto. intros b o I. apply K. exists (dl_buf (ap_dl a)). split; [now left|exact I].
  - constructor.
  - constructor.
  - constructor; [apply I1|apply I2]; intros b o I; apply K, any_app; auto.
  - constructor; [apply I1|apply I2]; intros b o I; apply K, any_app; auto.
Qed.

Lemma does_step n : forall h ss f x, does h n ss f -> apart ss ->
  exists h' n' y f', net_tick h n x = Ret (h', n', y) /\ does h' n' ss f' /\ (forall evs, f (Tick x :: evs) = y :: f' evs) /\
    same_except (in_any ss) h h' /\ same_shape h h'.
Proof.
  induction n as [d|c|a|b|g|n In m Im|n In m Im]; intros h ss f x A HA.
  - inversion A as [d0 q R| | | | | | ]; subst. destruct (dl_read_ok _ _ _ R) as (y & Ey & E). destruct (write_rel h d q x R) as (h' & d' & Ew & Eb & R' & Fr & _ & Sh).
    exists h', (NDelay d'), y, (fun evs => firstn (length (inputs evs)) ((tl q ++ [x]) ++ inputs evs)). cbn [net_tick]. rewrite E. cbn [bind]. rewrite Ew. cbn [bind fst snd]. split; [reflexivity|].
    split; [rewrite <- Eb; now constructor|]. split; [|split; [now apply one_slice|exact Sh]].
    intros evs. destruct q as [|y0 q]; [discriminate|]. injection Ey as ->. cbn [inputs tl length app firstn]. now rewrite <- app_assoc.
  - inversion A as [|c0 d m s damp fb R| | | | | ]; subst. destruct R as (R & <- & <- & Di & <-).
    destruct (dl_read_ok _ _ _ R) as (y & Ey & E). set (st := nadd (nmul y (cb_damp_inv c)) (nmul (cb_state c) (cb_damp c))).
    destruct (write_rel h (cb_dl c) _ (nadd x (nmul st (cb_feedback c))) R) as (h' & d' & Ew & Eb & R' & Fr & _ & Sh).
    exists h', (NComb (CB d' (cb_feedback c) st (cb_damp c) (cb_damp_inv c))), y,
      (fun evs => comb_spec (d ++ [nadd x (nmul st (cb_feedback c))]) (S m) st (cb_damp c) (cb_feedback c) (comb_events evs)).
    cbn [net_tick]. unfold cb_tick. rewrite E. cbn [bind]. fold st. rewrite Ew. cbn [bind fst snd]. split; [reflexivity|].
    destruct (hd_skipn d m y (nint 0) Ey) as (N1 & N2 & N3).
    split; [|split; [|split; [now apply one_slice|exact Sh]]].
    + rewrite <- Eb. change d' with (cb_dl (CB d' (cb_feedback c) st (cb_damp c) (cb_damp_inv c))) at 2. constructor.
      split; [|repeat split; try reflexivity; exact Di]. cbn [cb_dl]. rewrite skipn_app. replace (S m - length d)%nat with 0%nat by lia. rewrite <- N3. exact R'.
    + intros evs. cbn [comb_events comb_spec]. rewrite N1, <- Di. reflexivity.
  - inversion A as [| |a0 d m R| | | | ]; subst.
    destruct (dl_read_ok _ _ _ R) as (y & Ey & E).
    destruct (write_rel h (ap_dl a) _ (nadd x (nmul y (ndy 1 (-1)))) R) as (h' & d' & Ew & Eb & R' & Fr & _ & Sh).
    exists h', (NPass (AP d')), (nadd (nneg x) y), (fun evs => ap_spec (d ++ [nadd x (nmul y (ndy 1 (-1)))]) (S m) (inputs evs)).
    cbn [net_tick]. unfold ap_tick. rewrite E. cbn [bind]. rewrite Ew. cbn [bind fst snd]. split; [reflexivity|].
    destruct (hd_skipn d m y (nint 0) Ey) as (N1 & N2 & N3).
    split; [|split; [|split; [now apply one_slice|exact Sh]]].
    + rewrite <- Eb. change d' with (ap_dl (AP d')) at 2. constructor.
      cbn [ap_dl]. rewrite skipn_app. replace (S m - length d)%nat with 0%nat by lia. rewrite <- N3. exact R'.
    + intros evs. cbn [inputs ap_spec]. rewrite N1. reflexivity.
  - inversion A; subst. exists h, (NFilter (fst (bq_process b x))), (snd (bq_process b x)), (live_filter (fst (bq_process b x))).
    split; [reflexivity|]. split; [constructor|]. split; [reflexivity|]. split; [intros ? ? _; reflexivity|apply same_shape_refl].
  - inversion A; subst. exists h, (NScale g), (nmul x g), (live_gain g).
    split; [reflexivity|]. split; [constructor|]. split; [reflexivity|]. split; [intros ? ? _; reflexivity|apply same_shape_refl].
  - inversion A as [| | | | |n0 m0 s1 s2 f1 f2 A1 A2| ]; subst. destruct (apart_split _ _ HA) as (P1 & P2 & DJ).
    destruct (In h s1 f1 x A1 P1) as (h1 & n1 & y & f1' & E1 & A1' & F1 & S1 & H1).
    assert (A2' : does h1 m s2 f2) by (apply (does_kept h); [exact H1| |exact A2]; intros b o I; apply S1; intros I1; exact (DJ b o I1 I)).
    destruct (Im h1 s2 f2 y A2' P2) as (h2 & m1 & z & f2' & E2 & A3 & F2 & S2 & H2).
    exists h2, (NSeries n1 m1), z, (fun evs => f2' (feed (branch false evs) (f1' (branch true evs)))). cbn [net_tick]. rewrite E1. cbn [bind fst snd]. rewrite E2. cbn [bind fst snd]. split; [reflexivity|].
    split; [|split; [intros evs; cbn [branch]; rewrite F1; cbn [feed]; now rewrite F2|split]].
    + constructor; [|exact A3]. apply (does_kept h1); [exact H2| |exact A1']. intros b o I. apply S2. intros I2. exact (DJ b o I I2).
    + intros b o N. rewrite (S2 b o), (S1 b o); [reflexivity| |]; intros I; apply N, any_app; auto.
    + exact (same_shape_trans h h1 h2 H1 H2).
  - inversion A as [| | | | | |n0 m0 s1 s2 f1 f2 A1 A2]; subst. destruct (apart_split _ _ HA) as (P1 & P2 & DJ).
    destruct (In h s1 f1 x A1 P1) as (h1 & n1 & y & f1' & E1 & A1' & F1 & S1 & H1).
    assert (A2' : does h1 m s2 f2) by (apply (does_kept h); [exact H1| |exact A2]; intros b o I; apply S1; intros I1; exact (DJ b o I1 I)).
    destruct (Im h1 s2 f2 x A2' P2) as (h2 & m1 & z & f2' & E2 & A3 & F2 & S2 & H2).
    exists h2, (NMix n1 m1), (nadd y z), (fun evs => added (f1' (branch true evs)) (f2' (branch false evs))). cbn [net_tick]. rewrite E1. cbn [bind fst snd]. rewrite E2. cbn [bind fst snd]. split; [reflexivity|].
    split; [|split; [intros evs; cbn [branch]; now rewrite F1, F2|split]].
    + constructor; [|exact A3]. apply (does_kept h1); [exact H2| |exact A1']. intros b o I. apply S2. intros I2. exact (DJ b o I I2).
    + intros b o N. rewrite (S2 b o), (S1 b o); [reflexivity| |]; intros I; apply N, any_app; auto.
    + exact (same_shape_trans h h1 h2 H1 H2).
Qed.

Lemma does_turn n : forall h ss f w k, does h n ss f -> exists f', does h (turn n w k) ss f' /\ forall evs, f (Turn w k :: evs) = f' evs.
Proof.
  induction n as [d|c|a|b|g|n In m Im|n In m Im]; intros h ss f w k A.
  - exists f. split; [exact A|]. inversion A; subst. reflexivity.
  - inversion A as [|c0 d m s damp fb R| | | | | ]; subst. cbn [turn].
    destruct w as [|? w]; [|exists (fun evs => comb_spec d m s damp fb (comb_events evs)); split; [exact A|reflexivity]].
    destruct R as (R & E1 & E2 & E3 & E4). destruct k as [v|v|e|g].
    + exists (fun evs => comb_spec d m s v fb (comb_events evs)). split; [|reflexivity].
      change (dl_buf (cb_dl c)) with (dl_buf (cb_dl (cb_set_dampening c v))). constructor. split; [exact R|]. repeat split; assumption.
    + exists (fun evs => comb_spec d m s damp v (comb_events evs)). split; [|reflexivity].
      change (dl_buf (cb_dl c)) with (dl_buf (cb_dl (cb_set_feedback c v))). constructor. split; [exact R|]. repeat split; assumption.
    + exists (fun evs => comb_spec d m s damp fb (comb_events evs)). split; [exact A|reflexivity].
    + exists (fun evs => comb_spec d m s damp fb (comb_events evs)). split; [exact A|reflexivity].
  - exists f. split; [exact A|]. inversion A; subst. reflexivity.
  - inversion A; subst. cbn [turn]. destruct w as [|? w]; [destruct k as [v|v|e|g]|]; try (exists (live_filter b); split; [exact A|reflexivity]).
    exists (live_filter (bq_set_coeffs b e)). split; [constructor|reflexivity].
  - inversion A; subst. cbn [turn]. destruct w as [|? w]; [destruct k as [v|v|e|g']|]; try (exists (live_gain g); split; [exact A|reflexivity]).
    exists (live_gain g'). split; [constructor|reflexivity].
  - inversion A as [| | | | |n0 m0 s1 s2 f1 f2 A1 A2| ]; subst. cbn [turn]. destruct w as [|[|] w].
    + eexists. split; [exact A|reflexivity].
    + destruct (In h s1 f1 w k A1) as (f' & D & E). eexists. split; [exact (does_series h _ _ _ _ _ _ D A2)|]. intros evs. cbn [branch Bool.eqb]. now rewrite E.
    + destruct (Im h s2 f2 w k A2) as (f' & D & E). eexists. split; [exact (does_series h _ _ _ _ _ _ A1 D)|]. intros evs. cbn [branch Bool.eqb feed]. now rewrite E.
  - inversion A as [| | | | | |n0 m0 s1 s2 f1 f2 A1 A2]; subst. cbn [turn]. destruct w as [|[|] w].
    + eexists. split; [exact A|reflexivity].
    + destruct (In h s1 f1 w k A1) as (f' & D & E). eexists. split; [exact (does_mix h _ _ _ _ _ _ D A2)|]. intros evs. cbn [branch Bool.eqb]. now rewrite E.
    + destruct (Im h s2 f2 w k A2) as (f' & D & E). eexists. split; [exact (does_mix h _ _ _ _ _ _ A1 D)|]. intros evs. cbn [branch Bool.eqb]. now rewrite E.
Qed.

Lemma does_nil h n ss f : does h n ss f -> f [] = [].
Proof.
  intros A. induction A as [d q R|c d m s damp fb R|a d m R|b|g|n m ss ts f g A1 I1 A2 I2|n m ss ts f g A1 I1 A2 I2]; try reflexivity.
  - cbn [branch feed]. exact I2.
  - cbn [branch]. now rewrite I1.
Qed.

Lemma does_run evs : forall h n ss f, does h n ss f -> apart ss ->
  exists h' n', live_run h n evs = Ret (h', n', f evs) /\ same_except (in_any ss) h h' /\ same_shape h h'.
Proof.
  induction evs as [|[x|w k] evs IH]; intros h n ss f A AP.
  - exists h, n. rewrite (does_nil _ _ _ _ A). split; [reflexivity|]. split; [intros ? ? _; reflexivity|apply same_shape_refl].
  - destruct (does_step n h ss f x A AP) as (h1 & n1 & y & f' & E & A' & Ef & S1 & H1).
    destruct (IH h1 n1 ss f' A' AP) as (h2 & n2 & E2 & S2 & H2).
    exists h2, n2. cbn [live_run]. rewrite E. cbn [bind fst snd]. rewrite E2. cbn [bind fst snd]. rewrite Ef. split; [reflexivity|].
    split; [|exact (same_shape_trans h h1 h2 H1 H2)]. intros b o N. now rewrite (S2 b o N), (S1 b o N).
  - destruct (does_turn n h ss f w k A) as (f' & D & E). cbn [live_run]. rewrite E. now apply IH.
Qed.

Lemma fresh_does h n p ss : fresh h n p ss -> does h n ss (live_signal p).
Proof.
  induction 1 as [s l C L|s l damp fb C L|s l C L|c|g|n m p q ss ts H1 I1 H2 I2|n m p q ss ts H1 I1 H2 I2].
  - exact (does_delay h (dl_new s) l (dl_new_rel h s l C L)).
  - refine (does_comb h (cb_set_feedback (cb_set_dampening (cb_new s) damp) fb) l 0 (nint 0) damp fb _). split; [exact (dl_new_rel h s l C L)|]. repeat split; reflexivity.
  - exact (does_pass h (ap_new s) l 0 (dl_new_rel h s l C L)).
  - exact (does_filter h (bq_new c)).
  - exact (does_scale h g).
  - exact (does_series h n m ss ts _ _ I1 I2).
  - exact (does_mix h n m ss ts _ _ I1 I2).
Qed.

(** ** The views of the parts *)
Lemma branch_inputs s (evs : list event) : inputs (branch s evs) = inputs evs.
Proof. induction evs as [|[x|[|b w] k] evs IH]; cbn; try (now rewrite ?IH). destruct (Bool.eqb b s); cbn; exact IH. Qed.

Lemma feed_inputs (evs : list event) : forall ys, length ys = length (inputs evs) -> inputs (feed evs ys) = ys.
Proof.
  induction evs as [|[x|w k] evs IH]; intros ys E; cbn in *.
  - destruct ys; [reflexivity|discriminate].
  - destruct ys as [|y ys]; [discriminate|]. cbn. f_equal. apply IH. now injection E.
  - now apply IH.
Qed.

(** Two histories with the same calls between their samples. *)
Definition alike (a b : event) : Prop := match a, b with Tick _, Tick _ => True | _, _ => a = b end.
Lemma feed_alike (evs : list event) : forall ys, length ys = length (inputs evs) -> Forall2 alike evs (feed evs ys).
Proof.
  induction evs as [|[x|w k] evs IH]; intros ys E; cbn in *.
  - constructor.
  - destruct ys as [|y ys]; [discriminate|]. constructor; [exact I|]. apply IH. now injection E.
  - constructor; [reflexivity|now apply IH].
Qed.
Lemma alike_refl (evs : list event) : Forall2 alike evs evs.
Proof. induction evs as [|[x|w k] evs IH]; constructor; cbn; auto. Qed.
Lemma alike_trans (a b c : list event) : Forall2 alike a b -> Forall2 alike b c -> Forall2 alike a c.
Proof.
  intros H. revert c. induction H as [|x y a b E H IH]; intros c K; inversion K as [|y' z b' c' E' K']; subst; constructor; auto.
  destruct x, y, z; cbn in *; try congruence; auto.
Qed.
Lemma alike_branch s (a b : list event) : Forall2 alike a b -> Forall2 alike (branch s a) (branch s b).
Proof.
  induction 1 as [|x y a b E H IH]; [constructor|]. destruct x as [x|w k], y as [y|w' k']; cbn in E; try discriminate.
  - cbn. constructor; [exact I|exact IH].
  - injection E as <- <-. destruct w as [|t w]; cbn; [exact IH|]. destruct (Bool.eqb t s); [constructor; [reflexivity|exact IH]|exact IH].
Qed.
Lemma alike_in_force (a b : list event) : Forall2 alike a b -> forall c, in_force c a = in_force c b.
Proof.
  induction 1 as [|x y a b E H IH]; intros c; [reflexivity|]. destruct x as [x|w k], y as [y|w' k']; cbn in E; try discriminate.
  - cbn. now rewrite IH.
  - injection E as <- <-. destruct w as [|t w]; [destruct k|]; cbn; apply IH.
Qed.

Lemma live_signal_length (p : plan F) : forall evs, length (live_signal p evs) = length (inputs evs).
Proof.
  induction p as [l|l damp fb|l|c|g|p IHp q IHq|p IHp q IHq]; intros evs; cbn [live_signal].
  - rewrite firstn_length, app_length. lia.
  - generalize 0%nat. generalize (nint 0 : F). revert l damp fb. induction evs as [|[x|[|t w] [v|v|e|g]] evs IH]; intros; cbn; auto.
  - generalize 0%nat. revert l. induction (inputs evs) as [|x xs IH]; intros; cbn; auto.
  - generalize (bq_new c). induction evs as [|[x|[|t w] [v|v|e|g]] evs IH]; intros; cbn; auto.
  - revert g. induction evs as [|[x|[|t w] [v|v|e|g']] evs IH]; intros; cbn; auto.
  - rewrite IHq, feed_inputs; rewrite IHp, !branch_inputs; reflexivity.
  - assert (H : forall a b : list F, length a = length b -> length (added a b) = length a).
    { induction a as [|x a IH]; intros [|y b] E; cbn in *; try discriminate; auto. }
    rewrite H; rewrite ?IHp, ?IHq, !branch_inputs; reflexivity.
Qed.

(** No calls: the plain signal. *)
Lemma live_still (p : plan F) : forall xs, live_signal p (map Tick xs) = signal p xs.
Proof.
  assert (EI : forall xs : list F, inputs (map Tick xs) = xs) by (induction xs as [|x xs IH]; cbn; [reflexivity|now rewrite IH]).
  assert (EB : forall s (xs : list F), branch s (map Tick xs) = map Tick xs) by (intros s; induction xs as [|x xs IH]; cbn; [reflexivity|now rewrite IH]).
  assert (EF : forall xs ys : list F, length ys = length xs -> feed (map Tick xs) ys = map Tick ys).
  { induction xs as [|x xs IH]; intros [|y ys] E; cbn in *; try discriminate; [reflexivity|]. f_equal. apply IH. now injection E. }
  induction p as [l|l damp fb|l|c|g|p IHp q IHq|p IHp q IHq]; intros xs; cbn [live_signal signal].
  - now rewrite EI.
  - f_equal. induction xs as [|x xs IH]; cbn; [reflexivity|now rewrite IH].
  - now rewrite EI.
  - generalize (bq_new c). induction xs as [|x xs IH]; intros b; cbn; [reflexivity|now rewrite IH].
  - induction xs as [|x xs IH]; cbn; [reflexivity|now rewrite IH].
  - rewrite !EB, IHp, EF, IHq; [reflexivity|]. pose proof (live_signal_length p (map Tick xs)) as L. now rewrite IHp, EI in L.
  - now rewrite !EB, IHp, IHq.
Qed.
End Live.
