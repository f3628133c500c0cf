(** * Lemmas for C111: linearity and the order of linear parts. *)

From Coq Require Import ZArith List Bool Reals Lia Lra.
From Flocq Require Import Core.
From Verif Require Import Base F32 Num M_Memory M_Delay M_Biquad S_Memory S_Delay S_Network S_NetworkLin P_DelayNum P_Biquad.
Import ListNotations.
Local Open Scope R_scope.

Lemma blend_length a b : forall x y, length x = length y -> length (blend a x b y) = length x.
Proof. induction x as [|u x IH]; intros [|v y] E; cbn in *; try discriminate; auto. Qed.

Lemma nint_0 : (nint 0 : R) = 0.
Proof. now rewrite nint_R. Qed.

(** ** Linear, time-invariant, causal functions on finite signals *)
Record lti (f : list R -> list R) : Prop := {
  lti_len : forall x, length (f x) = length x;
  lti_lin : forall a b x y, length x = length y -> f (blend a x b y) = blend a (f x) b (f y);
  lti_shift : forall x, f (0 :: x) = 0 :: f x;
  lti_causal : forall x z, exists v, f (x ++ [z]) = f x ++ [v] }.

Lemma lti_nil f : lti f -> f [] = [].
Proof. intros L. pose proof (lti_len f L []) as E. destruct (f []); [reflexivity|discriminate]. Qed.

Lemma lti_id_scale g : lti (map (fun x => x * g)).
Proof.
  split.
  - intros x. apply map_length.
  - intros a b. induction x as [|u x IH]; intros [|v y] E; cbn in *; try discriminate; [reflexivity|]. rewrite IH by lia. f_equal. ring.
  - intros x. cbn. f_equal. ring.
  - intros x z. rewrite map_app. cbn. eauto.
Qed.

Lemma lti_compose f g : lti f -> lti g -> lti (fun x => g (f x)).
Proof.
  intros Lf Lg. split.
  - intros x. now rewrite (lti_len g Lg), (lti_len f Lf).
  - intros a b x y E. rewrite (lti_lin f Lf a b x y E). apply (lti_lin g Lg). now rewrite !(lti_len f Lf).
  - intros x. now rewrite (lti_shift f Lf), (lti_shift g Lg).
  - intros x z. destruct (lti_causal f Lf x z) as [v E]. rewrite E. apply (lti_causal g Lg).
Qed.

Lemma added_blend : forall x y, added x y = blend 1 x 1 y.
Proof. induction x as [|u x IH]; intros [|v y]; cbn; auto. rewrite IH. f_equal. cbn [nadd num_R]. ring. Qed.
Lemma blend_app a b : forall x y u v, length x = length y -> blend a (x ++ [u]) b (y ++ [v]) = blend a x b y ++ [a * u + b * v].
Proof. induction x as [|p x IH]; intros [|q y] u v E; cbn in *; try discriminate; [reflexivity|]. f_equal. apply IH. lia. Qed.

Lemma lti_added f g : lti f -> lti g -> lti (fun x => added (f x) (g x)).
Proof.
  intros Lf Lg. split.
  - intros x. rewrite added_blend, blend_length; [apply (lti_len f Lf)|]. now rewrite (lti_len f Lf), (lti_len g Lg).
  - intros a b x y E. rewrite (lti_lin f Lf a b x y E), (lti_lin g Lg a b x y E), !added_blend.
    assert (E1 : length (f x) = length (f y)) by (rewrite !(lti_len f Lf); exact E). assert (E2 : length (f x) = length (g x)) by (now rewrite (lti_len f Lf), (lti_len g Lg)).
    assert (E3 : length (g x) = length (g y)) by (rewrite !(lti_len g Lg); exact E).
    revert E1 E2 E3. generalize (f x), (f y), (g x), (g y). clear. induction l as [|p l IH]; intros [|q l1] [|r l2] [|s l3] E1 E2 E3; cbn in *; try discriminate; [reflexivity|].
    rewrite IH by lia. f_equal. ring.
  - intros x. rewrite (lti_shift f Lf), (lti_shift g Lg). cbn [added nadd num_R]. f_equal. ring.
  - intros x z. destruct (lti_causal f Lf x z) as [v E], (lti_causal g Lg x z) as [w E']. rewrite !added_blend, E, E', blend_app by (now rewrite (lti_len f Lf), (lti_len g Lg)). eauto.
Qed.

(** *** The order of two such functions does not matter. *)
Definition less (f : list R -> list R) (x : list R) : list R := tl (blend 1 (f (x ++ [0])) (- hd 0 (f [1])) (x ++ [0])).

Lemma blend_zeros a b : forall x, blend a x b (repeat 0 (length x)) = map (fun u => a * u) x.
Proof. induction x as [|u x IH]; cbn; [reflexivity|]. rewrite IH. f_equal. ring. Qed.
Lemma lti_zeros f n : lti f -> f (repeat 0 n) = repeat 0 n.
Proof. intros L. induction n as [|n IH]; cbn [repeat]; [now apply lti_nil|]. now rewrite (lti_shift f L), IH. Qed.

Lemma lti_head f : lti f -> forall u x, exists r, f (u :: x) = u * hd 0 (f [1]) :: r.
Proof.
  intros L u x. assert (P : forall w, hd 0 (f (u :: w)) = u * hd 0 (f [1])).
  { induction w as [|z w IH] using rev_ind.
    - pose proof (lti_lin f L u 0 [1] [0] eq_refl) as E. cbn [blend] in E. replace (u * 1 + 0 * 0) with u in E by ring. rewrite E.
      pose proof (lti_len f L [1]) as E1. destruct (f [1]) as [|p [|]]; try discriminate. rewrite (lti_shift f L), (lti_nil f L). cbn. ring.
    - change (u :: w ++ [z]) with ((u :: w) ++ [z]). destruct (lti_causal f L (u :: w) z) as [v Ev]. rewrite Ev. pose proof (lti_len f L (u :: w)) as E. destruct (f (u :: w)); [discriminate|]. cbn [app hd] in *. exact IH. }
  specialize (P x). pose proof (lti_len f L (u :: x)) as E. destruct (f (u :: x)) as [|p r]; [discriminate|]. cbn in P. subst p. eauto.
Qed.

Lemma tl_blend a b x y : tl (blend a x b y) = blend a (tl x) b (tl y).
Proof. destruct x as [|u [|u' x]], y as [|v [|v' y]]; reflexivity. Qed.
Lemma blend_cons a b u v x y : blend a (u :: x) b (v :: y) = (a * u + b * v) :: blend a x b y.
Proof. reflexivity. Qed.
Lemma blend_blend a b c d : forall x y z w, length x = length y -> length y = length z -> length z = length w ->
  blend a (blend c x d y) b (blend c z d w) = blend c (blend a x b z) d (blend a y b w).
Proof.
  induction x as [|p x IH]; intros [|q y] [|r z] [|s w] E1 E2 E3; cbn in *; try discriminate; [reflexivity|]. rewrite IH by lia. f_equal. ring.
Qed.
Lemma tl_length {A} (x : list A) : length (tl x) = (length x - 1)%nat.
Proof. destruct x; cbn; lia. Qed.

Lemma split_tail F0 z : forall x r, length r = S (length x) ->
  blend 1 r 1 (repeat 0 (length x) ++ [z * F0]) = blend F0 (x ++ [z]) 1 (blend 1 r (- F0) (x ++ [0])).
Proof.
  induction x as [|u x IH]; intros [|p r] E; cbn in *; try discriminate.
  - destruct r; [|discriminate]. cbn. f_equal. ring.
  - rewrite IH by lia. f_equal. ring.
Qed.

(** f is its first impulse sample times the input, plus a delayed rest. *)
Lemma lti_split f x z : lti f -> f (x ++ [z]) = blend (hd 0 (f [1])) (x ++ [z]) 1 (0 :: less f x).
Proof.
  intros L. set (F0 := hd 0 (f [1])).
  assert (D : f (x ++ [z]) = blend 1 (f (x ++ [0])) 1 (repeat 0 (length x) ++ [z * F0])).
  { assert (E : x ++ [z] = blend 1 (x ++ [0]) 1 (repeat 0 (length x) ++ [z])).
    { clear. rewrite blend_app by now rewrite repeat_length. rewrite blend_zeros. f_equal; [|f_equal; ring]. rewrite <- (map_id x) at 1. apply map_ext. intros a. ring. }
    rewrite E at 1. rewrite (lti_lin f L) by (rewrite !app_length, repeat_length; reflexivity). f_equal.
    generalize (length x). unfold F0. clear - L. induction n as [|n IH]; cbn [repeat app].
    - destruct (lti_head f L z []) as [r E]. pose proof (lti_len f L [z]) as E1. rewrite E in *. cbn in E1. destruct r; [reflexivity|discriminate].
    - rewrite (lti_shift f L). now rewrite IH. }
  rewrite D. unfold less. fold F0.
  assert (Lg : length (f (x ++ [0])) = S (length x)) by (rewrite (lti_len f L), app_length; cbn; lia).
  assert (H : exists r, f (x ++ [0]) = (match x with [] => 0 | u :: _ => u * F0 end) :: r).
  { destruct x as [|u x]; cbn [app].
    - destruct (lti_head f L 0 []) as [r E]. exists r. rewrite E. f_equal. ring.
    - destruct (lti_head f L u (x ++ [0])) as [r E]. exists r. exact E. }
  destruct H as [r Er]. rewrite Er in *. cbn [length] in Lg.
  destruct x as [|u x].
  - cbn in Lg. destruct r; [|discriminate]. cbn. f_equal. ring.
  - cbn [app length repeat]. rewrite !blend_cons. cbn [tl]. f_equal; [ring|]. apply split_tail. cbn in Lg. lia.
Qed.

Lemma less_lti f : lti f -> lti (less f).
Proof.
  intros L. set (F0 := hd 0 (f [1])).
  assert (Ll : forall x, length (less f x) = length x).
  { intros x. unfold less. rewrite tl_length, blend_length by (now rewrite (lti_len f L)). rewrite (lti_len f L), app_length. cbn. lia. }
  split; [exact Ll| | |].
  - intros a b x y E. unfold less. rewrite <- tl_blend. f_equal.
    replace (blend a x b y ++ [0]) with (blend a (x ++ [0]) b (y ++ [0])) by (rewrite blend_app by exact E; repeat f_equal; ring).
    assert (E' : length (x ++ [0]) = length (y ++ [0])) by (rewrite !app_length; lia).
    rewrite (lti_lin f L) by exact E'. rewrite blend_blend; rewrite ?(lti_len f L); auto.
  - intros x. unfold less. cbn [app]. rewrite (lti_shift f L), blend_cons. cbn [tl].
    assert (H : exists r, f (x ++ [0]) = (match x with [] => 0 | u :: _ => u * F0 end) :: r).
    { destruct x as [|u x]; cbn [app].
      - destruct (lti_head f L 0 []) as [r E]. exists r. rewrite E. f_equal. ring.
      - destruct (lti_head f L u (x ++ [0])) as [r E]. exists r. exact E. }
    destruct H as [r Er]. rewrite Er. fold F0. destruct x as [|u x]; cbn [app]; rewrite blend_cons; cbn [tl]; f_equal; ring.
  - intros x z.
    assert (K : less f x = tl (blend 1 (f (x ++ [z])) (- F0) (x ++ [z]))).
    { pose proof (lti_split f x z L) as S. rewrite S. fold F0. pose proof (Ll x) as E. revert E. generalize (less f x). intros l E.
      clear - E. destruct x as [|u x]; cbn [app].
      - destruct l; [reflexivity|discriminate].
      - rewrite !blend_cons. cbn [tl]. cbn in E. revert l E. induction x as [|v x IH] using list_ind; intros [|p l] E; cbn in E; try discriminate.
        + destruct l; [|discriminate]. cbn. f_equal. ring.
        + cbn [app]. rewrite !blend_cons. rewrite <- IH by lia. f_equal. ring. }
    rewrite K. unfold less. fold F0. destruct (lti_causal f L (x ++ [z]) 0) as [v E]. rewrite E, blend_app by (now rewrite (lti_len f L)).
    set (w := blend 1 (f (x ++ [z])) (- F0) (x ++ [z])).
    assert (Lw : length w = S (length x)) by (unfold w; rewrite blend_length by (now rewrite (lti_len f L)); rewrite (lti_len f L), app_length; cbn; lia).
    destruct w as [|p w]; [discriminate|]. cbn [app tl]. eauto.
Qed.

Lemma lti_commute_n : forall n f g, lti f -> lti g -> forall x, length x = n -> f (g x) = g (f x).
Proof.
  induction n as [|n IH]; intros f g Lf Lg x E.
  - destruct x; [|discriminate]. now rewrite (lti_nil f Lf), (lti_nil g Lg), (lti_nil f Lf).
  - destruct x as [|z x _] using rev_ind; [discriminate|]. rewrite app_length in E. cbn in E.
    destruct (lti_causal g Lg x z) as [v Ev]. rewrite Ev, (lti_split f (g x) v Lf), <- Ev.
    rewrite (lti_split f x z Lf). rewrite (lti_lin g Lg).
    + rewrite (lti_shift g Lg). do 2 f_equal. apply IH; [now apply less_lti|exact Lg|lia].
    + rewrite app_length. cbn. rewrite (lti_len _ (less_lti f Lf)). lia.
Qed.

Theorem lti_commute f g : lti f -> lti g -> forall x, f (g x) = g (f x).
Proof. intros Lf Lg x. now apply (lti_commute_n (length x)). Qed.

Lemma lti_ext f g : (forall x, g x = f x) -> lti f -> lti g.
Proof.
  intros E L. split.
  - intros x. rewrite E. apply (lti_len f L).
  - intros a b x y H. rewrite !E. now apply (lti_lin f L).
  - intros x. rewrite !E. apply (lti_shift f L).
  - intros x z. rewrite !E. apply (lti_causal f L).
Qed.

(** ** The parts *)
Lemma zeros_repeat l : Forall (fun x => x = 0) l -> l = repeat 0 (length l).
Proof. induction 1 as [|x l E _ IH]; cbn; congruence. Qed.

Lemma zeros_shift k (w : list R) : 0 :: repeat 0 k ++ w = repeat 0 k ++ 0 :: w.
Proof. induction k as [|k IH]; cbn [repeat app]; [reflexivity|]. now rewrite <- IH. Qed.

Lemma delay_lti k : lti (fun xs => firstn (length xs) (repeat 0 k ++ xs)).
Proof.
  induction k as [|k IH]; cbn [repeat app].
  - apply lti_ext with (map (fun x => x * 1)); [|apply lti_id_scale]. intros x. rewrite firstn_all. rewrite <- (map_id x) at 1. apply map_ext. intros a. ring.
  - set (f := fun xs : list R => firstn (length xs) (repeat 0 k ++ xs)) in *.
    assert (E : forall x z, firstn (length (x ++ [z])) (0 :: repeat 0 k ++ x ++ [z]) = 0 :: f x).
    { intros x z. rewrite app_length. replace (length x + length [z])%nat with (S (length x)) by (cbn; lia). cbn [firstn]. unfold f. f_equal. rewrite app_assoc, firstn_app, app_length, repeat_length. replace (length x - (k + length x))%nat with 0%nat by lia. cbn. now rewrite app_nil_r. }
    split.
    + intros x. rewrite firstn_length. cbn. rewrite app_length. lia.
    + intros a b x y L. destruct x as [|z x _] using rev_ind; [destruct y; [reflexivity|discriminate]|]. destruct y as [|w y _] using rev_ind; [rewrite app_length in L; cbn in L; lia|].
      assert (L' : length x = length y) by (rewrite !app_length in L; cbn in L; lia).
      rewrite blend_app by exact L'. rewrite !E, (lti_lin f IH) by exact L'. cbn [blend]. f_equal. ring.
    + intros x. change (0 :: x) with ([0] ++ x). rewrite app_length. cbn [length Nat.add firstn]. f_equal.
      destruct x as [|z x _] using rev_ind; [reflexivity|]. rewrite E.
      change ([0] ++ x ++ [z]) with (0 :: x ++ [z]). rewrite <- zeros_shift. apply E.
    + intros x z. rewrite E. destruct x as [|w x _] using rev_ind; [rewrite (lti_nil f IH); now exists 0|]. rewrite E. destruct (lti_causal f IH x w) as [v Ev]. rewrite Ev. now exists v.
Qed.


Lemma nth_blend a b : forall d d' m, length d = length d' -> nth m (blend a d b d') 0 = a * nth m d 0 + b * nth m d' 0.
Proof.
  induction d as [|u d IH]; intros [|v d'] m E; cbn in E; try discriminate.
  - destruct m; cbn; ring.
  - destruct m; cbn; [reflexivity|]. apply IH. lia.
Qed.

(** *** Comb *)
Notation combR := (@comb_spec R num_R).
Lemma comb_len damp fb : forall x d m s, length (combR d m s damp fb (map CTick x)) = length x.
Proof. induction x as [|u x IH]; intros; cbn; auto. Qed.
Lemma comb_lin damp fb a b : forall x y d d' m s s', length x = length y -> length d = length d' ->
  combR (blend a d b d') m (a * s + b * s') damp fb (map CTick (blend a x b y))
  = blend a (combR d m s damp fb (map CTick x)) b (combR d' m s' damp fb (map CTick y)).
Proof.
  induction x as [|u x IH]; intros [|v y] d d' m s s' E Ed; cbn in E; try discriminate; [reflexivity|].
  cbn [blend map comb_spec]. rewrite nint_0, nth_blend by exact Ed. f_equal.
  rewrite <- IH by (rewrite ?app_length; cbn; lia). rewrite blend_app by exact Ed.
  cbn [nadd nmul nsub num_R]. f_equal; [do 2 f_equal; ring|ring].
Qed.
Lemma comb_drop damp fb a : forall x d m s, combR (a :: d) (S m) s damp fb (map CTick x) = combR d m s damp fb (map CTick x).
Proof. induction x as [|u x IH]; intros; cbn [map comb_spec nth app]; [reflexivity|]. f_equal. change (a :: d ++ ?l) with (a :: (d ++ l)). apply IH. Qed.
Lemma comb_causal damp fb z : forall x d m s, exists v, combR d m s damp fb (map CTick (x ++ [z])) = combR d m s damp fb (map CTick x) ++ [v].
Proof. induction x as [|u x IH]; intros; cbn [map comb_spec app]; [eauto|]. edestruct IH as [v E]. exists v. rewrite E. reflexivity. Qed.
Lemma blend_zero_zero a b n : blend a (repeat 0 n) b (repeat 0 n) = repeat 0 n.
Proof. induction n as [|n IH]; cbn; [reflexivity|]. rewrite IH. f_equal. ring. Qed.
Lemma comb_lti k damp fb : (0 < k)%nat -> lti (fun x => combR (repeat 0 k) 0 0 damp fb (map CTick x)).
Proof.
  intros Hk. split.
  - intros x. apply comb_len.
  - intros a b x y E. rewrite <- comb_lin by auto. rewrite blend_zero_zero. f_equal. ring.
  - intros x. destruct k as [|k]; [lia|]. cbn [map comb_spec nth repeat app]. rewrite comb_drop. f_equal.
    cbn [nadd nmul nsub num_R]. f_equal.
    + replace (0 + (0 * (nint 1 - damp) + 0 * damp) * fb) with 0 by ring. rewrite <- repeat_cons. reflexivity.
    + ring.
  - intros x z. apply comb_causal.
Qed.

(** *** All-pass *)
Notation apR := (@ap_spec R num_R).
Lemma ap_len : forall x d m, length (apR d m x) = length x.
Proof. induction x as [|u x IH]; intros; cbn; auto. Qed.
Lemma ap_lin a b : forall x y d d' m, length x = length y -> length d = length d' ->
  apR (blend a d b d') m (blend a x b y) = blend a (apR d m x) b (apR d' m y).
Proof.
  induction x as [|u x IH]; intros [|v y] d d' m E Ed; cbn in E; try discriminate; [reflexivity|].
  cbn [blend ap_spec]. rewrite nint_0, nth_blend by exact Ed. f_equal; [cbn [nadd nneg num_R]; ring|].
  rewrite <- IH by (rewrite ?app_length; cbn; lia). rewrite blend_app by exact Ed.
  cbn [nadd nmul nsub num_R]. do 3 f_equal. ring.
Qed.
Lemma ap_drop a : forall x d m, apR (a :: d) (S m) x = apR d m x.
Proof. induction x as [|u x IH]; intros; cbn [ap_spec nth app]; [reflexivity|]. f_equal. change (a :: d ++ ?l) with (a :: (d ++ l)). apply IH. Qed.
Lemma ap_causal z : forall x d m, exists v, apR d m (x ++ [z]) = apR d m x ++ [v].
Proof. induction x as [|u x IH]; intros; cbn [ap_spec app]; [eauto|]. edestruct IH as [v E]. exists v. rewrite E. reflexivity. Qed.
Lemma ap_lti k : (0 < k)%nat -> lti (fun x => apR (repeat 0 k) 0 x).
Proof.
  intros Hk. split.
  - intros x. apply ap_len.
  - intros a b x y E. rewrite <- ap_lin by auto. now rewrite blend_zero_zero.
  - intros x. destruct k as [|k]; [lia|]. cbn [ap_spec nth repeat app]. rewrite ap_drop. cbn [nadd nmul nneg num_R]. f_equal; [ring|].
    f_equal. rewrite Rmult_0_l, Rplus_0_l, <- repeat_cons. reflexivity.
  - intros x z. apply ap_causal.
Qed.

(** *** Filter *)
Lemma filtered_len : forall x (b : biquad R), length (filtered b x) = length x.
Proof. induction x as [|u x IH]; intros; cbn; auto. Qed.
Lemma filtered_lin a b (c : coeffs R) : forall x y p q p' q', length x = length y ->
  filtered (BQ (a * p + b * p') (a * q + b * q') c) (blend a x b y) = blend a (filtered (BQ p q c) x) b (filtered (BQ p' q' c) y).
Proof.
  induction x as [|u x IH]; intros [|v y] p q p' q' E; cbn in E; try discriminate; [reflexivity|].
  cbn [blend filtered bq_process fst snd z1 z2 bq_coeffs]. cbn [nadd nmul nsub num_R]. f_equal; [ring|].
  rewrite <- IH by lia. do 2 f_equal; ring.
Qed.
Lemma filtered_causal z : forall x (b : biquad R), exists v, filtered b (x ++ [z]) = filtered b x ++ [v].
Proof. induction x as [|u x IH]; intros; cbn [filtered app]; [eauto|]. edestruct IH as [v E]. exists v. rewrite E. reflexivity. Qed.
Lemma filtered_lti c : lti (filtered (bq_new c)).
Proof.
  unfold bq_new. rewrite nint_0. split.
  - intros x. apply filtered_len.
  - intros a b x y E. rewrite <- filtered_lin by exact E. do 2 f_equal; ring.
  - intros x. cbn [filtered bq_process fst snd z1 z2 bq_coeffs]. cbn [nadd nmul nsub num_R]. f_equal; [ring|]. do 2 f_equal; ring.
  - intros x z. apply filtered_causal.
Qed.

Lemma silent_lti p : silent p -> lti (signal p).
Proof.
  induction p as [l|l damp fb|l|c|g|p IHp q IHq|p IHp q IHq]; cbn [silent]; intros H.
  - destruct H as [Ne H]. rewrite (zeros_repeat l H). apply delay_lti.
  - destruct H as [Ne H]. rewrite (zeros_repeat l H). cbn [signal]. rewrite nint_0. apply comb_lti. destruct l; [congruence|cbn; lia].
  - destruct H as [Ne H]. rewrite (zeros_repeat l H). apply ap_lti. destruct l; [congruence|cbn; lia].
  - apply filtered_lti.
  - apply lti_id_scale.
  - destruct H as [Hp Hq]. exact (lti_compose _ _ (IHp Hp) (IHq Hq)).
  - destruct H as [Hp Hq]. exact (lti_added _ _ (IHp Hp) (IHq Hq)).
Qed.
