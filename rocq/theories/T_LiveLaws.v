(** * C121: laws of setter calls to a running network. *)

From Coq Require Import ZArith List Bool Reals Lia Lra.
From Verif Require Import Base F32 Num M_Memory M_Delay M_Biquad S_Memory S_Delay S_Biquad S_Rack S_Network S_NetworkLin S_Live S_LiveLaws
  P_DelayNum P_NetworkLin P_Network P_Live P_LiveAcc T_Network T_NetworkLin T_Live.
Import ListNotations.

(** ** Calls between two samples, in every arithmetic, for every state of the network and the memory *)
Lemma run_app {F : Type} {NF : Num F} {B : Build} evs : forall (h : heap F) n evs',
  live_run h n (evs ++ evs') = (do a <- live_run h n evs ; do b <- live_run (fst (fst a)) (snd (fst a)) evs' ; Ret (fst (fst b), snd (fst b), snd a ++ snd b)).
Proof.
  induction evs as [|[x|w k] evs IH]; intros h n evs'; cbn [app live_run bind fst snd].
  - destruct (live_run h n evs') as [[[h' n'] ys]| |]; reflexivity.
  - destruct (net_tick h n x) as [[[h1 n1] y]| |]; cbn [bind fst snd]; try reflexivity.
    rewrite IH. destruct (live_run h1 n1 evs) as [[[h2 n2] ys]| |]; cbn [bind fst snd]; try reflexivity.
    destruct (live_run h2 n2 evs') as [[[h3 n3] zs]| |]; reflexivity.
  - apply IH.
Qed.

Lemma turn_swap {F : Type} {NF : Num F} (n : net F) : forall w w' k k', w <> w' \/ same_setter k k' = false ->
  turn (turn n w k) w' k' = turn (turn n w' k') w k.
Proof.
  induction n as [d|c|a|b|g|n IHn m IHm|n IHn m IHm]; intros w w' k k' H.
  - reflexivity.
  - destruct w as [|t w], w' as [|t' w']; try (destruct k; reflexivity); try (destruct k'; reflexivity); try reflexivity.
    destruct k, k'; try reflexivity; destruct H as [H|H]; try congruence; discriminate.
  - reflexivity.
  - destruct w as [|t w], w' as [|t' w']; try (destruct k; reflexivity); try (destruct k'; reflexivity); try reflexivity.
    destruct k, k'; try reflexivity; destruct H as [H|H]; try congruence; discriminate.
  - destruct w as [|t w], w' as [|t' w']; try (destruct k; reflexivity); try (destruct k'; reflexivity); try reflexivity.
    destruct k, k'; try reflexivity; destruct H as [H|H]; try congruence; discriminate.
  - destruct w as [|[|] w], w' as [|[|] w']; cbn [turn]; try reflexivity; f_equal; [apply IHn|apply IHm]; destruct H as [H|H]; auto; left; congruence.
  - destruct w as [|[|] w], w' as [|[|] w']; cbn [turn]; try reflexivity; f_equal; [apply IHn|apply IHm]; destruct H as [H|H]; auto; left; congruence.
Qed.

Lemma turn_again {F : Type} {NF : Num F} (n : net F) : forall w k k', same_setter k k' = true -> turn (turn n w k) w k' = turn n w k'.
Proof.
  induction n as [d|c|a|b|g|n IHn m IHm|n IHn m IHm]; intros w k k' H; try reflexivity.
  1-3: destruct w as [|t w]; destruct k, k'; try discriminate; reflexivity.
  all: destruct w as [|[|] w]; cbn [turn]; try reflexivity; f_equal; auto.
Qed.

(** Calls to different parts, or to different setters of one part, may be made in either order. *)
Theorem C121_calls_commute : forall (F : Type) (NF : Num F) (B : Build) (h : heap F) n evs evs' w k w' k', w <> w' \/ same_setter k k' = false ->
  live_run h n (evs ++ Turn w k :: Turn w' k' :: evs') = live_run h n (evs ++ Turn w' k' :: Turn w k :: evs').
Proof.
  intros F NF B h n evs evs' w k w' k' H. rewrite !run_app. destruct (live_run h n evs) as [[[h1 n1] ys]| |]; cbn [bind fst snd live_run]; try reflexivity.
  now rewrite turn_swap.
Qed.
Print Assumptions C121_calls_commute.

(** Of two calls of one setter with no sample in between, only the last counts. *)
Theorem C121_last_call_counts : forall (F : Type) (NF : Num F) (B : Build) (h : heap F) n evs evs' w k k', same_setter k k' = true ->
  live_run h n (evs ++ Turn w k :: Turn w k' :: evs') = live_run h n (evs ++ Turn w k' :: evs').
Proof.
  intros F NF B h n evs evs' w k k' H. rewrite !run_app. destruct (live_run h n evs) as [[[h1 n1] ys]| |]; cbn [bind fst snd live_run]; try reflexivity.
  now rewrite turn_again.
Qed.
Print Assumptions C121_last_call_counts.

(** Later samples and calls do not change earlier outputs, and what follows depends on the past only through the state
    of the network and its memory. *)
Theorem C121_causal : forall (F : Type) (NF : Num F) (B : Build) (h : heap F) n evs evs' h' n' zs,
  live_run h n (evs ++ evs') = Ret (h', n', zs) <->
  exists h1 n1 ys ys', live_run h n evs = Ret (h1, n1, ys) /\ live_run h1 n1 evs' = Ret (h', n', ys') /\ zs = ys ++ ys'.
Proof.
  intros F NF B h n evs evs' h' n' zs. rewrite run_app. split.
  - destruct (live_run h n evs) as [[[h1 n1] ys]| |]; cbn [bind fst snd]; try discriminate.
    destruct (live_run h1 n1 evs') as [[[h2 n2] ys']| |] eqn:E; cbn [bind fst snd]; try discriminate. intros [= -> -> <-]. eauto 10.
  - intros (h1 & n1 & ys & ys' & -> & E & ->). cbn [bind fst snd]. rewrite E. reflexivity.
Qed.
Print Assumptions C121_causal.

(** ** Superposition in exact arithmetic *)
Local Open Scope R_scope.
Lemma comb_live_lin a b : forall evs x y d d' m s s' p g, length x = length (inputs evs) -> length y = length (inputs evs) -> length d = length d' ->
  combR (blend a d b d') m (a * s + b * s') p g (comb_events (feed evs (blend a x b y)))
  = blend a (combR d m s p g (comb_events (feed evs x))) b (combR d' m s' p g (comb_events (feed evs y))).
Proof.
  induction evs as [|[u|w k] evs IH]; intros x y d d' m s s' p g Lx Ly Ld; cbn [inputs length] in *.
  - reflexivity.
  - destruct x as [|x0 x], y as [|y0 y]; try discriminate. cbn [feed blend comb_events comb_spec]. rewrite nint_0, nth_blend by exact Ld. f_equal.
    rewrite <- IH by (rewrite ?app_length; cbn in *; lia). rewrite blend_app by exact Ld. cbn [nadd nsub nmul num_R]. f_equal; [do 2 f_equal; ring|ring].
  - destruct w as [|t w]; [destruct k|]; cbn [feed comb_events comb_spec]; auto.
Qed.

Lemma filter_live_lin a b : forall evs x y (c : coeffs R) u1 u2 v1 v2, length x = length (inputs evs) -> length y = length (inputs evs) ->
  live_filter (BQ (a * u1 + b * v1) (a * u2 + b * v2) c) (feed evs (blend a x b y))
  = blend a (live_filter (BQ u1 u2 c) (feed evs x)) b (live_filter (BQ v1 v2 c) (feed evs y)).
Proof.
  induction evs as [|[u|w k] evs IH]; intros x y c u1 u2 v1 v2 Lx Ly; cbn [inputs length] in *.
  - reflexivity.
  - destruct x as [|x0 x], y as [|y0 y]; try discriminate. cbn [feed blend live_filter]. unfold bq_process. cbn [fst snd z1 z2 bq_coeffs nadd nsub nmul num_R].
    f_equal; [ring|]. cbn in Lx, Ly. rewrite <- IH by lia. f_equal. f_equal; ring.
  - destruct w as [|t w]; [destruct k|]; cbn [feed live_filter]; auto. unfold bq_set_coeffs. cbn [z1 z2]. auto.
Qed.

Lemma gain_live_lin a b : forall evs x y g, length x = length (inputs evs) -> length y = length (inputs evs) ->
  live_gain g (feed evs (blend a x b y)) = blend a (live_gain g (feed evs x)) b (live_gain g (feed evs y)).
Proof.
  induction evs as [|[u|w k] evs IH]; intros x y g Lx Ly; cbn [inputs length] in *.
  - reflexivity.
  - destruct x as [|x0 x], y as [|y0 y]; try discriminate. cbn [feed blend live_gain]. cbn in Lx, Ly. rewrite <- IH by lia. cbn [nmul num_R]. f_equal. ring.
  - destruct w as [|t w]; [destruct k|]; cbn [feed live_gain]; auto.
Qed.

Lemma live_lin p : silent p -> forall evs a b x y, length x = length (inputs evs) -> length y = length (inputs evs) ->
  live_signal p (feed evs (blend a x b y)) = blend a (live_signal p (feed evs x)) b (live_signal p (feed evs y)).
Proof.
  induction p as [l|l d g|l|c|g|p IHp q IHq|p IHp q IHq]; intros HS evs a b x y Lx Ly;
    assert (Lb : length (blend a x b y) = length (inputs evs)) by (rewrite blend_length; congruence); cbn [live_signal].
  - rewrite !feed_inputs by assumption. apply (lti_lin _ (silent_lti (PDelay l) HS)). congruence.
  - destruct HS as [_ HZ]. rewrite nint_0. rewrite <- comb_live_lin by auto. replace (a * 0 + b * 0) with 0 by ring. f_equal.
    clear - HZ. induction HZ as [|z l -> _ IH]; cbn; [reflexivity|]. f_equal; [ring|exact IH].
  - rewrite !feed_inputs by assumption. apply (lti_lin _ (silent_lti (PPass l) HS)). congruence.
  - unfold bq_new. rewrite nint_0, <- filter_live_lin by assumption. f_equal. f_equal; ring.
  - now apply gain_live_lin.
  - destruct HS as [H1 H2]. rewrite !branch_feed.
    assert (BL : forall t, length (inputs (branch t evs)) = length (inputs evs)) by (intros t; now rewrite branch_inputs).
    rewrite !feed_feed by (rewrite BL; assumption). rewrite IHp by (auto; rewrite BL; assumption).
    apply IHq; auto; rewrite live_signal_length, feed_inputs; rewrite ?BL; auto.
  - destruct HS as [H1 H2]. rewrite !branch_feed.
    assert (BL : forall t, length (inputs (branch t evs)) = length (inputs evs)) by (intros t; now rewrite branch_inputs).
    rewrite IHp, IHq by (auto; rewrite BL; assumption). rewrite !added_blend. apply blend_blend; rewrite !live_signal_length, !feed_inputs; rewrite ?BL; congruence.
Qed.

(** With the same calls between the samples, the outputs for [a x + b y] are [a] times the outputs for [x] plus [b] times
    those for [y]. *)
Theorem C121_superposition : forall (B : Build) (h : heap R) n p ss a b (evs : list (event R)) xs ys,
  fresh h n p ss -> apart ss -> silent p -> length xs = length (inputs evs) -> length ys = length (inputs evs) ->
  exists h1 n1 us h2 n2 vs h3 n3,
    live_run h n (feed evs xs) = Ret (h1, n1, us) /\ live_run h n (feed evs ys) = Ret (h2, n2, vs) /\
    live_run h n (feed evs (blend a xs b ys)) = Ret (h3, n3, blend a us b vs).
Proof.
  intros B h n p ss a b evs xs ys FR HA HS Lx Ly.
  destruct (C115_live_is_composition R _ B h n p ss (feed evs xs) FR HA) as (h1 & n1 & E1 & _).
  destruct (C115_live_is_composition R _ B h n p ss (feed evs ys) FR HA) as (h2 & n2 & E2 & _).
  destruct (C115_live_is_composition R _ B h n p ss (feed evs (blend a xs b ys)) FR HA) as (h3 & n3 & E3 & _).
  rewrite live_lin in E3 by assumption. eauto 12.
Qed.
Print Assumptions C121_superposition.

(** ** A later start *)
Lemma comb_drop_ops a p g : forall ops d m s p' g', p' = p -> g' = g -> combR (a :: d) (S m) s p' g' ops = combR d m s p g ops.
Proof.
  intros ops d m s p' g' -> ->. revert d m s p g. induction ops as [|op ops IH]; intros d m s p g; [reflexivity|].
  destruct op as [x|v|v]; cbn [comb_spec nth]; auto. f_equal. change ((a :: d) ++ ?l) with (a :: (d ++ l)). apply IH.
Qed.
Lemma live_late p : silent p -> forall evs, live_signal p (Tick 0 :: evs) = 0 :: live_signal p evs.
Proof.
  induction p as [l|l d g|l|c|g|p IHp q IHq|p IHp q IHq]; intros HS evs; cbn [live_signal inputs branch].
  - exact (lti_shift _ (silent_lti (PDelay l) HS) (inputs evs)).
  - destruct HS as [Ne HZ]. cbn [comb_events comb_spec]. rewrite nint_0. destruct HZ as [|z l -> HZ]; [congruence|]. cbn [nth app]. f_equal.
    rewrite (comb_drop_ops 0 d g) by reflexivity. cbn [nadd nsub nmul num_R]. f_equal; [|rewrite !nint_R; ring].
    assert (E : forall v, v = 0 -> l ++ [v] = 0 :: l).
    { intros v ->. clear - HZ. induction HZ as [|z l -> _ IH]; cbn; [reflexivity|]. now rewrite IH. }
    apply E. rewrite !nint_R. ring.
  - exact (lti_shift _ (silent_lti (PPass l) HS) (inputs evs)).
  - cbn [live_filter]. unfold bq_process, bq_new. cbn [fst snd z1 z2 bq_coeffs nadd nsub nmul num_R]. rewrite !nint_0. f_equal; [ring|]. f_equal. f_equal; ring.
  - cbn [live_gain nmul num_R]. f_equal. ring.
  - destruct HS as [H1 H2]. rewrite IHp by exact H1. cbn [feed]. now apply IHq.
  - destruct HS as [H1 H2]. rewrite IHp, IHq by assumption. cbn [added nadd num_R]. f_equal. ring.
Qed.

(** A history that starts [k] samples later gives the same outputs [k] samples later, after silence. *)
Theorem C121_later_start : forall (B : Build) (h : heap R) n p ss k (evs : list (event R)), fresh h n p ss -> apart ss -> silent p ->
  exists h1 n1 us h2 n2, live_run h n evs = Ret (h1, n1, us) /\ live_run h n (repeat (Tick 0) k ++ evs) = Ret (h2, n2, repeat 0 k ++ us).
Proof.
  intros B h n p ss k evs FR HA HS.
  destruct (C115_live_is_composition R _ B h n p ss evs FR HA) as (h1 & n1 & E1 & _).
  destruct (C115_live_is_composition R _ B h n p ss (repeat (Tick 0) k ++ evs) FR HA) as (h2 & n2 & E2 & _).
  replace (live_signal p (repeat (Tick 0) k ++ evs)) with (repeat 0 k ++ live_signal p evs) in E2; [eauto 10|].
  clear - HS. induction k as [|k IH]; cbn [repeat app]; [reflexivity|]. now rewrite live_late, IH by exact HS.
Qed.
Print Assumptions C121_later_start.

(** ** Adjusting a silent network *)
Fixpoint turn_plan (p : plan R) (w : list bool) (k : knob R) : plan R :=
  match p, w, k with
  | PComb l _ g, [], KDamp v => PComb l v g
  | PComb l d _, [], KFeedback v => PComb l d v
  | PFilter _, [], KCoeffs c => PFilter c
  | PScale _, [], KGain g => PScale g
  | PSeries p q, true :: r, _ => PSeries (turn_plan p r k) q
  | PSeries p q, false :: r, _ => PSeries p (turn_plan q r k)
  | PMix p q, true :: r, _ => PMix (turn_plan p r k) q
  | PMix p q, false :: r, _ => PMix p (turn_plan q r k)
  | _, _, _ => p
  end.
Lemma turn_plan_silent p : forall w k, silent p -> silent (turn_plan p w k).
Proof.
  induction p as [l|l d g|l|c|g|p IHp q IHq|p IHp q IHq]; intros w k H; destruct w as [|[|] w]; try (destruct k; exact H); try exact H; try (destruct k; exact I);
    destruct H as [H1 H2]; split; auto.
Qed.
Lemma turn_plan_signal p : forall w k evs, live_signal p (Turn w k :: evs) = live_signal (turn_plan p w k) evs.
Proof.
  induction p as [l|l d g|l|c|g|p IHp q IHq|p IHp q IHq]; intros w k evs; destruct w as [|[|] w]; try (destruct k; reflexivity); try reflexivity;
    cbn [live_signal branch Bool.eqb turn_plan feed]; rewrite ?IHp, ?IHq; reflexivity.
Qed.

(** While a network is silent its settings may be moved at will: what comes out later is what would come out if the calls
    had all been made at once, before the first sample. *)
Theorem C121_silent_adjustment : forall (B : Build) (h : heap R) n p ss (before evs : list (event R)), fresh h n p ss -> apart ss -> silent p ->
  Forall (fun x => x = 0) (inputs before) ->
  exists h1 n1 us h2 n2, live_run h n (calls_only before ++ evs) = Ret (h1, n1, us) /\
    live_run h n (before ++ evs) = Ret (h2, n2, repeat 0 (length (inputs before)) ++ us).
Proof.
  intros B h n p ss before evs FR HA HS H0.
  destruct (C115_live_is_composition R _ B h n p ss (calls_only before ++ evs) FR HA) as (h1 & n1 & E1 & _).
  destruct (C115_live_is_composition R _ B h n p ss (before ++ evs) FR HA) as (h2 & n2 & E2 & _).
  replace (live_signal p (before ++ evs)) with (repeat 0 (length (inputs before)) ++ live_signal p (calls_only before ++ evs)) in E2; [eauto 10|].
  clear - HS H0. revert p HS H0. induction before as [|[x|w k] before IH]; intros p HS H0; cbn [inputs calls_only filter app length repeat] in *.
  - reflexivity.
  - inversion H0 as [|? ? -> H1]; subst. rewrite live_late by exact HS. f_equal. now apply IH.
  - rewrite !turn_plan_signal. apply IH; [now apply turn_plan_silent|exact H0].
Qed.
Print Assumptions C121_silent_adjustment.

(** ** The order of two parts matters once a setting is moved *)
(** One sample of delay and a gain that is turned from 1 to 0 after the first sample: before the delay the sample
    has passed the gain already, after the delay it has not. C111_order_irrelevant does not extend to calls. *)
Definition late_net : net R := NSeries (NDelay (dl_new (MS (PAt 0 0) 1))) (NScale 1).
Definition early_net : net R := NSeries (NScale 1) (NDelay (dl_new (MS (PAt 0 0) 1))).
Theorem C121_order_matters_refuted : forall B : Build, exists ha na hb nb,
  live_run room_heap late_net [Tick 1; Turn [false] (KGain 0); Tick 0] = Ret (ha, na, [0; 0]) /\
  live_run room_heap early_net [Tick 1; Turn [true] (KGain 0); Tick 0] = Ret (hb, nb, [0; 1]).
Proof.
  intros B.
  assert (AP : apart [MS (PAt 0 0) 1]) by (intros i j s t b o Hi Hj _ _; destruct i as [|[|i]]; cbn in Hi; try discriminate; destruct j as [|[|j]]; cbn in Hj; try discriminate; reflexivity).
  assert (FD : fresh (F := R) room_heap (NDelay (dl_new (MS (PAt 0 0) 1))) (PDelay (zeros 1)) [MS (PAt 0 0) 1]).
  { apply fresh_delay; [|cbn; lia]. exact (room_covers R _ B 0 0 1 ltac:(lia) eq_refl). }
  destruct (C115_live_is_composition R _ B room_heap late_net (PSeries (PDelay (zeros 1)) (PScale 1)) ([MS (PAt 0 0) 1] ++ []) [Tick 1; Turn [false] (KGain 0); Tick 0]) as (ha & na & E1 & _);
    [apply fresh_series; [exact FD|constructor]|exact AP|].
  destruct (C115_live_is_composition R _ B room_heap early_net (PSeries (PScale 1) (PDelay (zeros 1))) ([] ++ [MS (PAt 0 0) 1]) [Tick 1; Turn [true] (KGain 0); Tick 0]) as (hb & nb & E2 & _);
    [apply fresh_series; [constructor|exact FD]|exact AP|].
  exists ha, na, hb, nb. rewrite E1, E2. cbn -[IZR Rmult nint]. rewrite nint_0. split; do 3 f_equal; try ring; f_equal; try ring; f_equal; ring.
Qed.
Print Assumptions C121_order_matters_refuted.

(** The reverberator of T_Network with its knobs: superposition for all signals with a feedback and a gain moved on the
    way; the two calls in either order. *)
Definition room_history : list (event R) :=
  [Tick 1; Turn [true; true; false] (KFeedback (1 / 4)); Turn [false; false] (KGain 2); Tick 0; Turn [true; true; true] (KDamp (1 / 8)); Tick 0].
Example C121_met : forall B : Build,
  (forall a b x0 x1 x2 y0 y1 y2, exists h1 n1 us h2 n2 vs h3 n3,
    live_run room_heap room (feed room_history [x0; x1; x2]) = Ret (h1, n1, us) /\ live_run room_heap room (feed room_history [y0; y1; y2]) = Ret (h2, n2, vs) /\
    live_run room_heap room (feed room_history [a * x0 + b * y0; a * x1 + b * y1; a * x2 + b * y2]) = Ret (h3, n3, blend a us b vs)) /\
  live_run room_heap room room_history =
  live_run room_heap room [Tick 1; Turn [false; false] (KGain 2); Turn [true; true; false] (KFeedback (1 / 4)); Tick 0; Turn [true; true; true] (KDamp (1 / 8)); Tick 0].
Proof.
  intros B. destruct (C111_met R _ B) as [FR AP]. destruct (C111_silent_met B) as [S _]. split.
  - intros a b x0 x1 x2 y0 y1 y2. exact (C121_superposition B room_heap room room_plan room_slices a b room_history [x0; x1; x2] [y0; y1; y2] FR AP S eq_refl eq_refl).
  - apply (C121_calls_commute R _ B room_heap room [Tick 1]). left. discriminate.
Qed.

(** The same reverberator adjusted during two silent samples. *)
Example C121_silent_met : forall B : Build, let before := [Turn [true; true; false] (KFeedback (1 / 4)); Tick 0; Turn [false; false] (KGain 2); Tick 0] in
  exists h1 n1 us h2 n2, live_run room_heap room (Turn [true; true; false] (KFeedback (1 / 4)) :: Turn [false; false] (KGain 2) :: room_history) = Ret (h1, n1, us) /\
    live_run room_heap room (before ++ room_history) = Ret (h2, n2, 0 :: 0 :: us).
Proof.
  intros B before. destruct (C111_met R _ B) as [FR AP]. destruct (C111_silent_met B) as [S _].
  exact (C121_silent_adjustment B room_heap room room_plan room_slices before room_history FR AP S ltac:(repeat constructor)).
Qed.
