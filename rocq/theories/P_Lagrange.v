(** * Proofs about Lagrange interpolation (src/float/interpolation.rs) and its
      wrapped forms (src/memory/memory_slice.rs). *)

From Coq Require Import ZArith List Bool Reals Lia Lra Psatz FinFun.
From Flocq Require Import Core.
From Verif Require Import Base F32 F32Lemmas F32Ints Num M_Memory S_Memory S_Poly P_Memory P_Lerp P_DelayNum.
Import ListNotations.
Open Scope R_scope.

(** ** Polynomials *)

Fixpoint padd (a b : list R) : list R :=
  match a, b with
  | [], _ => b
  | _, [] => a
  | x :: a', y :: b' => (x + y) :: padd a' b'
  end.
Definition pscale (k : R) (a : list R) : list R := map (Rmult k) a.

Lemma peval_add a b x : peval (padd a b) x = peval a x + peval b x.
Proof.
  revert b. induction a as [|u a IH]; intros [|v b]; cbn [padd peval]; try ring.
  rewrite IH. ring.
Qed.
Lemma peval_scale k a x : peval (pscale k a) x = k * peval a x.
Proof. induction a as [|u a IH]; cbn [pscale map peval]; [ring|]. fold (pscale k a). rewrite IH. ring. Qed.
Lemma padd_len a b : length (padd a b) = Nat.max (length a) (length b).
Proof. revert b. induction a as [|u a IH]; intros [|v b]; cbn [padd length]; auto. rewrite IH. lia. Qed.
Lemma pscale_len k a : length (pscale k a) = length a.
Proof. apply map_length. Qed.

(** Division by (x - r): quotient of the remainder theorem. *)
Fixpoint pquot (c : list R) (r : R) : list R :=
  match c with
  | [] => []
  | a :: c' => match c' with [] => [] | _ => peval c' r :: pquot c' r end
  end.
Lemma pquot_spec c r x : peval c x - peval c r = (x - r) * peval (pquot c r) x.
Proof.
  induction c as [|a c IH]; cbn [peval pquot]; [ring|].
  destruct c as [|b c'].
  - cbn [peval]. ring.
  - set (c := b :: c') in *. cbn [peval].
    replace (a + x * peval c x - (a + r * peval c r)) with ((x - r) * peval c r + x * (peval c x - peval c r)) by ring.
    rewrite IH. ring.
Qed.
Lemma pquot_len c r : length (pquot c r) = Nat.pred (length c).
Proof.
  induction c as [|a c IH]; [reflexivity|]. cbn [pquot]. destruct c as [|b c']; [reflexivity|].
  cbn [length] in *. rewrite IH. reflexivity.
Qed.

(** A polynomial of degree below n with n distinct roots vanishes everywhere. *)
Lemma poly_roots n : forall c (rs : list R), (length c <= n)%nat -> length rs = n -> NoDup rs ->
  (forall r, In r rs -> peval c r = 0) -> forall x, peval c x = 0.
Proof.
  induction n as [|n IH]; intros c rs Hc Hr Nd Z x.
  - destruct c; [reflexivity|cbn in Hc; lia].
  - destruct rs as [|r rs]; [discriminate|]. inversion Nd as [|? ? Nin Nd']; subst.
    pose proof (pquot_spec c r x) as Q. rewrite (Z r) in Q by now left.
    rewrite (IH (pquot c r) rs) in Q; [lra| | |exact Nd'|].
    + rewrite pquot_len. lia.
    + cbn in Hr. lia.
    + intros r' Hr'. pose proof (pquot_spec c r r') as Q2.
      rewrite (Z r) in Q2 by now left. rewrite (Z r') in Q2 by now right.
      assert (r' - r <> 0) by (intros E; apply Nin; replace r with r' by lra; exact Hr').
      apply Rmult_eq_reg_l with (r' - r); [lra|assumption].
Qed.

(** ** The Lagrange sum over the reals *)

Definition node (i : nat) : R := IZR (Z.of_nat i).
Lemma node_inj i j : node i = node j -> i = j.
Proof. intros H. apply eq_IZR in H. lia. Qed.

Lemma term_step (t x : R) i j :
  (ndiv (nmul t (nsub x (nint (Z.of_nat j)))) (nsub (nint (Z.of_nat i)) (nint (Z.of_nat j))))
  = t * (x - node j) / (node i - node j).
Proof. cbn [ndiv nmul nsub num_R]. rewrite !nint_R. reflexivity. Qed.

(** Value of a term at a node, and as a polynomial. *)
Lemma term_zero i x js : forall a, a = 0 -> lagrange_term (F := R) a i x js = 0.
Proof.
  unfold lagrange_term. induction js as [|j js IH]; intros a ->; [reflexivity|]. cbn [fold_left].
  destruct (Nat.eqb i j); [now apply IH|]. apply IH. rewrite term_step. unfold Rdiv. ring.
Qed.
Lemma term_other a i k js : In k js -> k <> i -> lagrange_term (F := R) a i (node k) js = 0.
Proof.
  unfold lagrange_term. revert a. induction js as [|j js IH]; intros a Hin Hk; [destruct Hin|].
  cbn [fold_left]. destruct (Nat.eqb_spec i j) as [E|E].
  - destruct Hin as [->|Hin]; [congruence|]. now apply IH.
  - destruct Hin as [->|Hin].
    + apply term_zero. rewrite term_step. unfold Rdiv. ring.
    + now apply IH.
Qed.
Lemma term_self a i js : lagrange_term (F := R) a i (node i) js = a.
Proof.
  unfold lagrange_term. revert a. induction js as [|j js IH]; intros a; [reflexivity|]. cbn [fold_left].
  destruct (Nat.eqb_spec i j) as [E|E]; [apply IH|].
  rewrite term_step. rewrite IH. field.
  intros H. apply E. apply node_inj. lra.
Qed.

Lemma term_poly i js : forall c, exists c',
  (length c' <= length c + length (filter (fun j => negb (Nat.eqb i j)) js))%nat /\
  forall x, lagrange_term (F := R) (peval c x) i x js = peval c' x.
Proof.
  induction js as [|j js IH]; intros c.
  - exists c. cbn. split; [lia|reflexivity].
  - cbn [filter]. destruct (Nat.eqb_spec i j) as [E|E]; cbn [negb].
    + destruct (IH c) as (c' & L & P). exists c'. split; [exact L|]. intros x. rewrite <- P.
      unfold lagrange_term. cbn [fold_left]. subst j. now rewrite Nat.eqb_refl.
    + set (k := / (node i - node j)).
      set (c1 := padd (0 :: pscale k c) (pscale (- node j * k) c)).
      destruct (IH c1) as (c' & L & P). exists c'. split.
      * cbn [length]. unfold c1 in L. rewrite padd_len in L. cbn [length] in L. rewrite !pscale_len in L. lia.
      * intros x. rewrite <- P. unfold lagrange_term. cbn [fold_left].
        destruct (Nat.eqb_spec i j); [congruence|]. f_equal. rewrite term_step.
        unfold c1. rewrite peval_add. cbn [peval]. rewrite !peval_scale. unfold k, Rdiv. ring.
Qed.

Lemma filter_seq_len i n : (i < n)%nat -> length (filter (fun j => negb (Nat.eqb i j)) (seq 0 n)) = (n - 1)%nat.
Proof.
  intros H. assert (G : forall m a, length (filter (fun j => negb (Nat.eqb i j)) (seq a m)) =
    if (Nat.leb a i && Nat.ltb i (a + m))%bool then (m - 1)%nat else m).
  { induction m as [|m IH]; intros a; cbn [seq filter].
    - destruct (Nat.leb a i && Nat.ltb i (a + 0))%bool; reflexivity.
    - destruct (Nat.eqb_spec i a) as [E|E]; cbn [negb length].
      + rewrite IH. subst a. destruct (Nat.leb_spec (S i) i); [lia|]. cbn [andb].
        destruct (Nat.leb_spec i i); [|lia]. destruct (Nat.ltb_spec i (i + S m)); [|lia]. cbn. lia.
      + rewrite IH. replace (S a + m)%nat with (a + S m)%nat by lia.
        destruct (Nat.leb_spec (S a) i); destruct (Nat.leb_spec a i); try lia; cbn [andb];
        destruct (Nat.ltb_spec i (a + S m)); lia. }
  rewrite G. destruct (Nat.leb_spec 0 i); [|lia]. destruct (Nat.ltb_spec i (0 + n)); [|lia]. reflexivity.
Qed.

Definition lterm (a : list R) (x : R) (i : nat) : R :=
  lagrange_term (nth i a 0) i x (seq 0 (length a)).

Lemma lagrange_sum_fold a x :
  lagrange_sum (F := R) a x = fold_left (fun y i => y + lterm a x i) (seq 0 (length a)) 0.
Proof.
  unfold lagrange_sum, lterm. rewrite nint_R. cbn [nadd num_R]. reflexivity.
Qed.

Lemma fold_sum_app (f : nat -> R) l : forall y, fold_left (fun y i => y + f i) l y = y + fold_left (fun y i => y + f i) l 0.
Proof.
  induction l as [|i l IH]; intros y; cbn [fold_left]; [ring|].
  rewrite IH, (IH (0 + f i)). ring.
Qed.
Lemma fold_sum_zero (f : nat -> R) l : (forall i, In i l -> f i = 0) -> fold_left (fun y i => y + f i) l 0 = 0.
Proof.
  induction l as [|i l IH]; intros H; [reflexivity|]. cbn [fold_left]. rewrite fold_sum_app, IH.
  - rewrite (H i) by now left. ring.
  - intros j Hj. apply H. now right.
Qed.
Lemma fold_sum_single (f : nat -> R) l k : NoDup l -> In k l -> (forall i, In i l -> i <> k -> f i = 0) ->
  fold_left (fun y i => y + f i) l 0 = f k.
Proof.
  induction l as [|i l IH]; intros Nd Hin H; [destruct Hin|]. inversion Nd as [|? ? Nin Nd']; subst.
  cbn [fold_left]. rewrite fold_sum_app. destruct (Nat.eq_dec i k) as [->|E].
  - rewrite fold_sum_zero; [ring|]. intros j Hj. apply H; [now right|]. intros ->. contradiction.
  - rewrite IH; auto.
    + rewrite (H i); [ring|now left|exact E].
    + destruct Hin; [congruence|assumption].
    + intros j Hj. apply H. now right.
Qed.

Lemma lagrange_sum_node a k : (k < length a)%nat -> lagrange_sum (F := R) a (node k) = nth k a 0.
Proof.
  intros Hk. rewrite lagrange_sum_fold.
  rewrite (fold_sum_single _ _ k).
  - unfold lterm. apply term_self.
  - apply seq_NoDup.
  - apply in_seq. lia.
  - intros i _ Hi. unfold lterm. apply term_other; [apply in_seq; lia|congruence].
Qed.

Lemma lagrange_sum_poly a : exists c, (length c <= length a)%nat /\
  forall x, lagrange_sum (F := R) a x = peval c x.
Proof.
  assert (G : forall l, (forall i, In i l -> (i < length a)%nat) -> exists c, (length c <= length a)%nat /\
    forall x, fold_left (fun y i => y + lterm a x i) l 0 = peval c x).
  { induction l as [|i l IH]; intros Hl.
    - exists []. split; [cbn; lia|reflexivity].
    - destruct IH as (c1 & L1 & P1); [intros j Hj; apply Hl; now right|].
      destruct (term_poly i (seq 0 (length a)) [nth i a 0]) as (c2 & L2 & P2).
      assert (Hi : (i < length a)%nat) by (apply Hl; now left).
      rewrite filter_seq_len in L2 by exact Hi. cbn [length] in L2.
      exists (padd c2 c1). split; [rewrite padd_len; lia|]. intros x. cbn [fold_left].
      rewrite fold_sum_app, P1, peval_add. unfold lterm.
      specialize (P2 x). cbn [peval] in P2. rewrite Rmult_0_r, Rplus_0_r in P2. rewrite P2. ring. }
  destruct (G (seq 0 (length a))) as (c & L & P).
  { intros i Hi. apply in_seq in Hi. lia. }
  exists c. split; [exact L|]. intros x. now rewrite lagrange_sum_fold.
Qed.

Definition nodes (n : nat) : list R := map node (seq 0 n).
Lemma nodes_NoDup n : NoDup (nodes n).
Proof. apply Injective_map_NoDup; [intros i j; apply node_inj|apply seq_NoDup]. Qed.

(** Reproduction of every polynomial of degree below n (hence uniqueness). *)
Lemma lagrange_reproduces a c x : (length c <= length a)%nat ->
  (forall k, (k < length a)%nat -> nth k a 0 = peval c (node k)) ->
  lagrange_sum (F := R) a x = peval c x.
Proof.
  intros Hc Hn. destruct (lagrange_sum_poly a) as (d & Ld & P).
  assert (Z : forall y, peval (padd d (pscale (-1) c)) y = 0).
  { apply (poly_roots (length a) _ (nodes (length a))).
    - rewrite padd_len, pscale_len. lia.
    - unfold nodes. now rewrite map_length, seq_length.
    - apply nodes_NoDup.
    - intros r Hr. unfold nodes in Hr. apply in_map_iff in Hr. destruct Hr as (k & <- & Hk).
      apply in_seq in Hk. rewrite peval_add, peval_scale, <- P, lagrange_sum_node by lia.
      rewrite Hn by lia. ring. }
  specialize (Z x). rewrite peval_add, peval_scale in Z. rewrite P. lra.
Qed.

Lemma lagrange4_eq (a b c d x : R) :
  lagrange_only_4_elements a b c d x = lagrange_sum (F := R) [a; b; c; d] x.
Proof.
  unfold lagrange_only_4_elements, lagrange_sum, lagrange_term.
  cbn [length seq fold_left Nat.eqb nth Z.of_nat Pos.of_succ_nat Pos.succ nadd nsub nmul ndiv num_R].
  rewrite !nint_R. field.
Qed.

(** ** The wrapped forms *)
Open Scope Z_scope.

Section Window.
Context {F : Type} {NF : Num F} {MO : MathOps F} {B : Build}.

Lemma fill_no_ub h s (l : list F) ii lower n : covers h s l -> forall i slice,
  fill_window h s ii lower n i slice <> UB.
Proof.
  intros C. induction n as [|n IH]; intros i slice; cbn [fill_window]; [discriminate|].
  assert (G : forall j, get_wrapped_unchecked h s j = Panic \/ exists v, get_wrapped_unchecked h s j = Ret v).
  { intros j. pose proof C as (Hl & _). destruct (Z.eq_dec (ms_len s) 0) as [E|E].
    - left. exact (get_wrapped_unchecked_0 h s l _ C E).
    - right. destruct (get_wrapped_unchecked_ok h s l j C ltac:(lia)) as (v & _ & Ev). eauto. }
  destruct (isize_add ii i) as [j| |] eqn:Ej; cbn [bind]; [|discriminate|].
  - destruct (G j) as [->|[v ->]]; cbn [bind]; [discriminate|].
    destruct (_ <? _); [apply IH|discriminate].
  - unfold isize_add in Ej. destruct (_ && _); [discriminate|]. destruct ovf_checks; discriminate.
Qed.

Lemma lagrange_no_ub (a : list F) x : lagrange a x <> UB.
Proof.
  unfold lagrange, usize_sub. destruct (_ <=? _); [|destruct ovf_checks]; cbn [bind]; try discriminate;
    destruct (nle x _); discriminate.
Qed.

Lemma lagrange_wrapped_no_ub h s (l : list F) x w : covers h s l -> lagrange_wrapped h s x w <> UB.
Proof.
  intros C. unfold lagrange_wrapped.
  match goal with |- context [fill_window ?a ?b ?c ?d ?e ?f ?g] =>
    pose proof (fill_no_ub a b l c d e C f g); destruct (fill_window a b c d e f g) end; cbn [bind];
    try discriminate; try congruence. apply lagrange_no_ub.
Qed.

(** The sample at a wrapped position. *)
Definition wrapped (l : list F) (len j : Z) (d : F) : F :=
  match nthz l (j mod len) with Some v => v | None => d end.

Lemma fill_ok h s (l : list F) d ii lower : covers h s l -> 0 < ms_len s -> forall n i slice,
  0 <= i - lower -> i - lower + Z.of_nat n <= Z.of_nat (length slice) -> Z.of_nat (length slice) <= usize_max ->
  isize_min <= ii + i -> ii + i + Z.of_nat n - 1 <= isize_max ->
  fill_window h s ii lower n i slice =
    Ret (firstn (Z.to_nat (i - lower)) slice ++
         map (fun k => wrapped l (ms_len s) (ii + i + Z.of_nat k) d) (seq 0 n) ++
         skipn (Z.to_nat (i - lower) + n) slice).
Proof.
  intros C Hn. induction n as [|n IH]; intros i slice H1 H2 H3 H4 H5.
  - cbn [fill_window seq map app]. rewrite Nat.add_0_r. now rewrite firstn_skipn.
  - cbn [fill_window]. rewrite isize_add_ok by lia. cbn [bind].
    destruct (get_wrapped_unchecked_ok h s l (ii + i) C Hn) as (v & Hv & ->). cbn [bind].
    rewrite as_usize_id by lia. destruct (Z.ltb_spec (i - lower) (Z.of_nat (length slice))); [|lia].
    set (k := Z.to_nat (i - lower)).
    assert (Hk : (k < length slice)%nat) by lia.
    rewrite IH; rewrite ?upd_length; try lia.
    replace (Z.to_nat (i + 1 - lower)) with (S k) by lia.
    f_equal.
    assert (E1 : firstn (S k) (upd slice k v) = firstn k slice ++ [v]).
    { clearbody k. clear - Hk. revert k Hk. induction slice as [|x sl IHs]; intros k Hk; [cbn in Hk; lia|].
      destruct k; [reflexivity|]. cbn [upd firstn app] in *. f_equal. apply IHs. cbn in Hk. lia. }
    assert (E2 : skipn (S k + n) (upd slice k v) = skipn (k + S n) slice).
    { replace (k + S n)%nat with (S k + n)%nat by lia. clearbody k. clear - Hk. revert k Hk.
      induction slice as [|x sl IHs]; intros k Hk; [cbn in Hk; lia|].
      destruct k; [reflexivity|]. cbn [upd skipn plus] in *. apply IHs. cbn in Hk. lia. }
    rewrite E1, E2, <- app_assoc. cbn [app seq map]. f_equal. f_equal.
    + unfold wrapped. rewrite Z.add_0_r, Hv. reflexivity.
    + f_equal. rewrite <- seq_shift, map_map. apply map_ext. intros j. f_equal. lia.
Qed.

(** What [lagrange_wrapped] computes when no index overflows. *)
Lemma lagrange_wrapped_form h s (l : list F) x w d : covers h s l -> 0 < ms_len s ->
  0 <= w -> let w1 := Z.min w 100 in
  let ii := n_isize (m_floor x) in
  isize_min <= ii - 50 -> ii + 50 <= isize_max ->
  lagrange_wrapped h s x w =
    lagrange (map (fun k => if Z.of_nat k <? 2 * (w1 / 2)
                            then wrapped l (ms_len s) (ii - (w1 / 2 - 1) + Z.of_nat k) d else nint 0)
                  (seq 0 (Z.to_nat w1)))
             (nsub x (nint ii)).
Proof.
  intros C Hn Hw w1 ii Hlo Hhi. unfold lagrange_wrapped. fold ii.
  assert (Ew : (if 100 <? w then 100 else w) = w1).
  { unfold w1. destruct (Z.ltb_spec 100 w); lia. }
  rewrite Ew. pose proof (Z.div_mod w1 2 ltac:(lia)) as Dm. pose proof (Z.mod_pos_bound w1 2 ltac:(lia)) as Mb.
  assert (Hw1 : 0 <= w1 <= 100) by (unfold w1; lia).
  set (q := w1 / 2) in *. assert (Hq : 0 <= q <= 50) by lia.
  pose proof (isize_max_pos) as Hpos. pose proof usize_isize as Hus.
  rewrite (fill_ok h s l d); auto; rewrite ?repeat_length; try lia.
  cbn [bind]. f_equal.
  replace (Z.to_nat (- q + 1 - (- q + 1))) with 0%nat by lia. cbn [firstn app plus].
  replace (Z.to_nat (q + 1 - (- q + 1))) with (Z.to_nat (2 * q)) by lia.
  set (n2 := Z.to_nat (2 * q)).
  assert (Hcase : Z.to_nat w1 = n2 \/ Z.to_nat w1 = S n2).
  { unfold n2. lia. }
  rewrite firstn_app, map_length, seq_length.
  assert (Eg : forall g, map (fun k => if Z.of_nat k <? 2 * q then g k else nint 0) (seq 0 n2) = map g (seq 0 n2)).
  { intros g. apply map_ext_in. intros k Hk. apply in_seq in Hk.
    destruct (Z.ltb_spec (Z.of_nat k) (2 * q)); [reflexivity|lia]. }
  assert (Em : map (fun k => wrapped l (ms_len s) (ii + (- q + 1) + Z.of_nat k) d) (seq 0 n2) =
    map (fun k => wrapped l (ms_len s) (ii - (q - 1) + Z.of_nat k) d) (seq 0 n2)).
  { apply map_ext. intros k. f_equal. lia. }
  rewrite Em. set (m := map _ (seq 0 n2)).
  assert (Lm : length m = n2) by (unfold m; now rewrite map_length, seq_length).
  destruct Hcase as [E|E]; rewrite E.
  - rewrite Eg. fold m. rewrite Nat.sub_diag. rewrite firstn_all2 by lia. cbn [firstn]. now rewrite app_nil_r.
  - rewrite firstn_all2 by lia. replace (S n2 - n2)%nat with 1%nat by lia.
    rewrite seq_S, map_app, Eg. fold m. f_equal. cbn [map plus].
    destruct (Z.ltb_spec (Z.of_nat n2) (2 * q)); [lia|].
    assert (Hn2 : (n2 < 100)%nat) by lia.
    assert (G : forall a b (z : F), (a < b)%nat -> firstn 1 (skipn a (repeat z b)) = [z]).
    { clear. induction a as [|a IH]; intros [|b] z H; try lia; [reflexivity|]. cbn [repeat skipn]. apply IH. lia. }
    now apply G.
Qed.
End Window.

(** ** Exact arithmetic *)
Section Real.
Context {B : Build}.

Lemma lagrange_ret (a : list R) x : a <> [] -> (x <= INR (length a - 1))%R ->
  lagrange a x = Ret (lagrange_sum a x).
Proof.
  intros Hne Hx. unfold lagrange. destruct a as [|y a]; [congruence|].
  rewrite usize_sub_ok by (cbn [length]; lia). cbn [bind].
  replace (Z.of_nat (length (y :: a)) - 1) with (Z.of_nat (length (y :: a) - 1)) by (cbn [length]; lia).
  rewrite nint_R, <- INR_IZR_INZ. cbn [nle num_R]. now rewrite Rle_bool_true.
Qed.

Lemma n_isize_real (i : Z) : is_isize i -> n_isize (IZR i) = i.
Proof. intros H. unfold n_isize. cbn [ntrunc num_R]. rewrite Ztrunc_IZR. unfold is_isize in H. lia. Qed.

Lemma wrapped_nth (l : list R) len j v d : nthz l (j mod len) = Some v -> wrapped l len j d = v.
Proof. unfold wrapped. now intros ->. Qed.

Lemma nth_map_seq {A} (f : nat -> A) n k d : (k < n)%nat -> nth k (map f (seq 0 n)) d = f k.
Proof.
  intros H. rewrite (nth_indep _ d (f 0%nat)) by now rewrite map_length, seq_length.
  rewrite map_nth, seq_nth by exact H. reflexivity.
Qed.
End Real.

Lemma lagrange_wrapped_at_int : forall (MO : MathOps R) (B : Build) (h : heap R) s l w i,
  (forall x, m_floor x = IZR (Zfloor x)) -> covers h s l -> 0 < ms_len s -> 2 <= w ->
  isize_min + 50 <= i <= isize_max - 50 ->
  exists v, nthz l ((i - (Z.min w 100 / 2 - 1)) mod ms_len s) = Some v /\
    lagrange_wrapped h s (IZR i) w = Ret v.
Proof.
  intros MO B h s l w i Hf C Hn Hw Hi.
  assert (Ei : n_isize (m_floor (IZR i)) = i).
  { rewrite Hf, Zfloor_IZR. apply n_isize_real. unfold is_isize. lia. }
  pose proof (lagrange_wrapped_form h s l (IZR i) w 0%R C Hn ltac:(lia)) as G. cbv zeta in G. rewrite Ei in G.
  specialize (G ltac:(lia) ltac:(lia)).
  set (w1 := Z.min w 100) in *. assert (2 <= w1 <= 100) by (unfold w1; lia).
  pose proof C as (Hl & _).
  destruct (nthz_ex l ((i - (w1 / 2 - 1)) mod ms_len s)) as [v Hv].
  { rewrite <- Hl. apply Z.mod_pos_bound. lia. }
  exists v. split; [exact Hv|]. rewrite G. rewrite !nint_R. cbn [nsub num_R].
  assert (1 <= w1 / 2) by (apply Z.div_le_lower_bound; lia).
  replace (IZR i - IZR i)%R with (node 0) by (unfold node; cbn; ring).
  rewrite lagrange_ret.
  - rewrite lagrange_sum_node by (rewrite map_length, seq_length; lia).
    rewrite nth_map_seq by lia. f_equal. change (Z.of_nat 0) with 0.
    destruct (Z.ltb_spec 0 (2 * (w1 / 2))); [|lia].
    apply wrapped_nth. now rewrite Z.add_0_r.
  - intros E. apply (f_equal (@length R)) in E. rewrite map_length, seq_length in E. cbn in E. lia.
  - rewrite map_length, seq_length. unfold node. cbn [Z.of_nat]. apply pos_INR.
Qed.

Lemma peval_shift c : forall k, exists c', (length c' = length c)%nat /\ forall x, peval c' x = peval c (x + k)%R.
Proof.
  induction c as [|a c IH]; intros k.
  - exists []. split; reflexivity.
  - destruct (IH k) as (c1 & L1 & P1).
    (* a + (x + k) * c(x + k) *)
    exists (match padd (0%R :: c1) (pscale k c1) with [] => [a] | y :: r => (a + y)%R :: r end).
    assert (L : length (padd (0%R :: c1) (pscale k c1)) = S (length c)).
    { rewrite padd_len, pscale_len. cbn [length]. lia. }
    assert (P : forall x, peval (padd (0%R :: c1) (pscale k c1)) x = ((x + k) * peval c (x + k))%R).
    { intros x. rewrite peval_add, peval_scale. cbn [peval]. rewrite P1. ring. }
    destruct (padd (0%R :: c1) (pscale k c1)) as [|y r]; [discriminate|].
    split; [cbn [length] in *; lia|]. intros x. specialize (P x). cbn [peval] in *. lra.
Qed.

Lemma lagrange_wrapped_even : forall (MO : MathOps R) (B : Build) (h : heap R) s l w x (c : list R),
  (forall x, m_floor x = IZR (Zfloor x)) -> covers h s l -> 0 < ms_len s ->
  2 <= w <= 100 -> w mod 2 = 0 ->
  isize_min + 50 <= Zfloor x <= isize_max - 50 ->
  (length c <= Z.to_nat w)%nat ->
  (forall j, Zfloor x - (w / 2 - 1) <= j <= Zfloor x + w / 2 ->
     nthz l (j mod ms_len s) = Some (peval c (IZR j))) ->
  lagrange_wrapped h s x w = Ret (peval c (x - IZR (w / 2 - 1))).
Proof.
  intros MO B h s l w x c Hf C Hn Hw He Hi Hc Hs.
  set (i := Zfloor x) in *.
  assert (Ei : n_isize (m_floor x) = i).
  { rewrite Hf. apply n_isize_real. unfold is_isize. lia. }
  pose proof (lagrange_wrapped_form h s l x w 0%R C Hn ltac:(lia)) as G. cbv zeta in G. rewrite Ei in G.
  specialize (G ltac:(lia) ltac:(lia)). rewrite G. clear G.
  rewrite Z.min_l by lia. pose proof (Z.div_mod w 2 ltac:(lia)) as Dm. set (q := w / 2) in *.
  rewrite !nint_R. cbn [nsub num_R].
  pose proof (Zfloor_lb x) as Lb. pose proof (Zfloor_ub x) as Ub. fold i in Lb, Ub.
  rewrite lagrange_ret.
  - f_equal. destruct (peval_shift c (IZR (i - (q - 1)))) as (c1 & L1 & P1).
    replace (x - IZR (q - 1))%R with ((x - IZR i) + IZR (i - (q - 1)))%R by (rewrite !minus_IZR; ring).
    rewrite <- P1. apply lagrange_reproduces.
    + rewrite map_length, seq_length. lia.
    + intros k Hk. rewrite map_length, seq_length in Hk. rewrite nth_map_seq by exact Hk.
      destruct (Z.ltb_spec (Z.of_nat k) (2 * q)); [|lia].
      rewrite P1. apply wrapped_nth. unfold node. rewrite <- plus_IZR.
      rewrite (Z.add_comm (Z.of_nat k)). apply Hs. lia.
  - intros E. apply (f_equal (@length R)) in E. rewrite map_length, seq_length in E. cbn in E. lia.
  - rewrite map_length, seq_length. rewrite INR_IZR_INZ.
    assert (1 <= Z.of_nat (Z.to_nat w - 1)) as Q by lia. apply IZR_le in Q. lra.
Qed.

Lemma four_points_form (MO : MathOps R) (B : Build) (h : heap R) s l x :
  (forall x, m_floor x = IZR (Zfloor x)) -> covers h s l -> 0 < ms_len s ->
  isize_min <= Zfloor x <= isize_max - 3 ->
  exists a b c d, nthz l (Zfloor x mod ms_len s) = Some a /\ nthz l ((Zfloor x + 1) mod ms_len s) = Some b /\
    nthz l ((Zfloor x + 2) mod ms_len s) = Some c /\ nthz l ((Zfloor x + 3) mod ms_len s) = Some d /\
    lagrange_four_points_wrapped h s x = Ret (lagrange_sum (F := R) [a; b; c; d] x).
Proof.
  intros Hf C Hn Hi. unfold lagrange_four_points_wrapped. rewrite Hf, n_isize_real by (unfold is_isize; lia).
  destruct (four_ok h s l (Zfloor x) C Hn Hi) as (a & b & c & d & A1 & A2 & A3 & A4 & E).
  exists a, b, c, d. repeat split; auto. rewrite E. cbn [bind]. now rewrite lagrange4_eq.
Qed.

Lemma four_points_at_int : forall (MO : MathOps R) (B : Build) (h : heap R) s l i,
  (forall x, m_floor x = IZR (Zfloor x)) -> covers h s l -> 0 < ms_len s -> 0 <= i <= 3 ->
  exists v, nthz l ((2 * i) mod ms_len s) = Some v /\ lagrange_four_points_wrapped h s (IZR i) = Ret v.
Proof.
  intros MO B h s l i Hf C Hn Hi.
  destruct (four_points_form MO B h s l (IZR i) Hf C Hn) as (a & b & c & d & A1 & A2 & A3 & A4 & E).
  { rewrite Zfloor_IZR. pose proof isize_max_pos. rewrite isize_min_max. lia. }
  rewrite Zfloor_IZR in *. rewrite E.
  replace (IZR i) with (node (Z.to_nat i)) by (unfold node; now rewrite Z2Nat.id by lia).
  rewrite lagrange_sum_node by (cbn [length]; lia).
  eexists. split; [|reflexivity].
  assert (Hc : i = 0 \/ i = 1 \/ i = 2 \/ i = 3) by lia.
  destruct Hc as [->|[->|[->| ->]]]; cbn [Z.to_nat Pos.to_nat Pos.iter_op nth]; assumption.
Qed.

Lemma four_points_ramp : forall (MO : MathOps R) (B : Build) (h : heap R) s l (alpha beta x : R),
  (forall x, m_floor x = IZR (Zfloor x)) -> covers h s l ->
  (0 <= x)%R -> Zfloor x + 3 < ms_len s ->
  (forall j, Zfloor x <= j <= Zfloor x + 3 -> nthz l j = Some (alpha + beta * IZR j)%R) ->
  lagrange_four_points_wrapped h s x = Ret (alpha + beta * (IZR (Zfloor x) + x))%R.
Proof.
  intros MO B h s l alpha beta x Hf C Hx Hlen Hs.
  assert (Hi : 0 <= Zfloor x) by (apply Zfloor_lub; exact Hx).
  pose proof (covers_len _ _ _ C) as Hm.
  destruct (four_points_form MO B h s l x Hf C ltac:(lia)) as (a & b & c & d & A1 & A2 & A3 & A4 & E).
  { rewrite isize_min_max. lia. }
  rewrite E. rewrite !Z.mod_small in A1, A2, A3, A4 by lia.
  rewrite Hs in A1, A2, A3, A4 by lia. injection A1 as <-. injection A2 as <-. injection A3 as <-. injection A4 as <-.
  f_equal. rewrite (lagrange_reproduces _ [alpha + beta * IZR (Zfloor x); beta]%R).
  - cbn [peval]. ring.
  - cbn [length]. lia.
  - intros k Hk. cbn [length] in Hk. rewrite !plus_IZR.
    do 4 (destruct k as [|k]; [unfold node; cbn [nth peval Z.of_nat Pos.of_succ_nat Pos.succ]; ring|]). lia.
Qed.

(** ** f32 *)
Section Float.
Context {NP : NanPolicy} {B : Build}.
Implicit Types x : f32.

Lemma lagrange_nan (ys : list f32) x : isnan x = true -> lagrange ys x = Panic.
Proof.
  intros N. unfold lagrange, usize_sub.
  destruct (_ <=? _); [|destruct ovf_checks]; cbn [bind]; auto; cbn [nle num_f32]; rewrite fle_nan; auto.
Qed.

Lemma fle_inf_fin x y : x = f_inf -> fin y = true -> fle x y = false.
Proof. intros -> F. destruct y; cbn in F; try discriminate; reflexivity. Qed.

Lemma usize_sub_range a m : 0 <= a <= usize_max -> usize_sub a 1 = Ret m -> 0 <= m <= usize_max.
Proof.
  intros Ha E. unfold usize_sub in E. destruct (Z.leb_spec 1 a).
  - injection E as <-. lia.
  - destruct ovf_checks; [discriminate|]. injection E as <-. unfold as_usize.
    pose proof (Z.mod_pos_bound (a - 1) usize_mod) as H1. rewrite usize_mod_max in *.
    pose proof (usize_isize). pose proof isize_max_pos. lia.
Qed.

Lemma lagrange_inf (ys : list f32) x : x = f_inf -> Z.of_nat (length ys) <= usize_max -> lagrange ys x = Panic.
Proof.
  intros E Hl. unfold lagrange. destruct (usize_sub (Z.of_nat (length ys)) 1) as [m| |] eqn:Em; cbn [bind]; auto.
  - cbn [nle num_f32]. rewrite fle_inf_fin; auto. change (nint m : f32) with (of_int m). apply fin_of_int.
    pose proof (usize_sub_range (Z.of_nat (length ys)) m ltac:(lia) Em). pose proof usize_max_le. lia.
  - unfold usize_sub in Em. destruct (_ <=? _); [discriminate|]. destruct ovf_checks; discriminate.
Qed.

Lemma lagrange_precondition_fin (ys : list f32) x : ys <> [] -> Z.of_nat (length ys) <= 2 ^ 24 -> fin x = true ->
  lagrange ys x = if Rle_bool (val x) (INR (length ys - 1)) then Ret (lagrange_sum ys x) else Panic.
Proof.
  intros Hne Hl Fx. unfold lagrange. destruct ys as [|y ys]; [congruence|].
  rewrite usize_sub_ok by (cbn [length]; lia). cbn [bind nle num_f32].
  set (n := length (y :: ys)) in *. change (nint (Z.of_nat n - 1) : f32) with (of_int (Z.of_nat n - 1)).
  assert (Hn : (1 <= n)%nat) by (unfold n; cbn [length]; lia).
  destruct (of_int_exact (Z.of_nat n - 1) ltac:(lia)) as [F V].
  rewrite (fle_fin _ _ Fx F), V. rewrite INR_IZR_INZ. now replace (Z.of_nat (n - 1)) with (Z.of_nat n - 1) by lia.
Qed.

Lemma lagrange_precondition (ys : list f32) x :
  (isnan x = true -> lagrange ys x = Panic) /\
  (x = f_inf -> Z.of_nat (length ys) <= usize_max -> lagrange ys x = Panic) /\
  (ys = [] -> ovf_checks = true -> lagrange ys x = Panic) /\
  (ys <> [] -> Z.of_nat (length ys) <= 2 ^ 24 -> fin x = true ->
     ((val x <= INR (length ys - 1))%R <-> exists v, lagrange ys x = Ret v) /\
     ((INR (length ys - 1) < val x)%R <-> lagrange ys x = Panic)).
Proof.
  split; [apply lagrange_nan|]. split; [apply lagrange_inf|]. split.
  { intros -> V. unfold lagrange, usize_sub. cbn. now rewrite V. }
  intros Hne Hl Fx. rewrite lagrange_precondition_fin by assumption.
  case Rle_bool_spec; intros H; split; split; intros G; eauto; try lra; try discriminate.
  destruct G; discriminate.
Qed.

(** For every list and every position: the bound is the length less one as an f32 (of the
    largest usize if an empty list gets past the subtraction). *)
Lemma lagrange_outcome (ys : list f32) x : Z.of_nat (length ys) <= usize_max ->
  let top := if (length ys =? 0)%nat then usize_max else Z.of_nat (length ys) - 1 in
  (lagrange ys x = Panic <-> isnan x = true \/ (ys = [] /\ ovf_checks = true) \/ (rnd (IZR top) < ext x)%R) /\
  (lagrange ys x <> Panic -> exists v, lagrange ys x = Ret v).
Proof.
  intros Hl top. assert (Ht : 0 <= top <= usize_max).
  { unfold top. destruct (Nat.eqb_spec (length ys) 0); [|lia]. pose proof (usize_isize). pose proof isize_max_pos. lia. }
  assert (G : lagrange ys x = if (length ys =? 0)%nat && ovf_checks then Panic else if fle x (of_int top) then Ret (lagrange_sum ys x) else Panic).
  { unfold lagrange, top, usize_sub. destruct (Nat.eqb_spec (length ys) 0) as [E|E].
    - rewrite E. cbn [Z.of_nat]. destruct (Z.leb_spec 1 0); [lia|]. destruct ovf_checks; cbn [andb bind]; [reflexivity|].
      unfold as_usize. replace ((0 - 1) mod usize_mod) with usize_max; [reflexivity|].
      rewrite usize_mod_max. pose proof (usize_isize). pose proof isize_max_pos.
      replace (0 - 1) with (usize_max + (-1) * (usize_max + 1)) by ring. rewrite Z.mod_add by lia. now rewrite Z.mod_small by lia.
    - destruct (Z.leb_spec 1 (Z.of_nat (length ys))); [|lia]. cbn [andb bind]. reflexivity. }
  assert (FT : fin (of_int top) = true) by (apply fin_of_int; pose proof usize_max_le; lia).
  assert (VT : val (of_int top) = rnd (IZR top)) by (apply of_int_spec; pose proof usize_max_le; lia).
  assert (Y : ys = [] <-> (length ys =? 0)%nat = true).
  { destruct ys; cbn; split; intros; try reflexivity; discriminate. }
  rewrite G. destruct ((length ys =? 0)%nat && ovf_checks) eqn:A.
  - apply andb_prop in A. destruct A as [A1 A2]. split; [|congruence]. tauto.
  - assert (NA : ~ (ys = [] /\ ovf_checks = true)) by (intros [A1 A2]; apply Y in A1; rewrite A1, A2 in A; discriminate).
    destruct (isnan x) eqn:N.
    + rewrite fle_nan by auto. split; [tauto|congruence].
    + rewrite fle_ext by (auto; now apply fin_notnan). rewrite (ext_fin _ FT), VT. case Rle_bool_spec; intros H; split.
      * split; [discriminate|]. intros [Q|[Q|Q]]; [discriminate|tauto|lra].
      * eauto.
      * tauto.
      * congruence.
Qed.

Context {MO : MathOps f32}.

Lemma fsub_inf y : fin y = true -> fsub f_inf y = f_inf.
Proof. intros F. destruct y; cbn in F; try discriminate; reflexivity. Qed.

Lemma floor_index x : floor_ok MO -> fin x = true -> (Rabs (val x) < pow2 23)%R ->
  is_isize (Zfloor (val x)) ->
  let i := Zfloor (val x) in let t := nsub x (nint (n_isize (m_floor x))) in
  n_isize (m_floor x) = i /\ fin t = true /\ (0 <= val t <= 1)%R /\
  (val x = IZR i -> val t = 0%R) /\ (val x <> IZR i -> (0 < val t)%R).
Proof.
  intros Hf Fx Hx Hi i t. destruct (Hf x Fx) as [Ff Vf].
  { eapply Rlt_trans; [exact Hx|]. apply bpow_lt. lia. }
  fold i in Vf, Hi.
  assert (Ui : n_isize (m_floor x) = i).
  { rewrite n_isize_fin, Vf, ?Ztrunc_IZR; auto. now rewrite Vf, Ztrunc_IZR. }
  assert (Bi : (Z.abs i <= 2 ^ 24)).
  { apply Rabs_lt_inv in Hx. change (pow2 23) with (IZR (2 ^ 23)) in Hx.
    pose proof (Zfloor_lb (val x)). pose proof (Zfloor_ub (val x)). fold i in H, H0.
    assert (i < 2 ^ 23) by (apply lt_IZR; lra).
    assert (- 2 ^ 23 - 1 < i) by (apply lt_IZR; rewrite minus_IZR, opp_IZR; lra).
    lia. }
  unfold t. rewrite Ui. clear t. change (nint i : f32) with (of_int i). cbn [nsub num_f32].
  destruct (of_int_exact i Bi) as [Fo Vo].
  pose proof (Zfloor_lb (val x)) as Lb. pose proof (Zfloor_ub (val x)) as Ub. fold i in Lb, Ub.
  destruct (fsub_bnd x (of_int i) 1 Fx Fo) as (F & V & Bt).
  { apply (repr_int 1). lia. } { apply (pow2_lt_big 0). lia. }
  { rewrite Vo. apply Rabs_le. lra. }
  rewrite Vo in V. split; [reflexivity|]. split; [exact F|]. split; [split|split].
  - rewrite V. apply rnd_pos. lra.
  - apply Rabs_le_inv in Bt. lra.
  - intros E. rewrite V, E. replace (IZR i - IZR i)%R with 0%R by ring. apply rnd_0.
  - intros E. rewrite V.
    (* x - i is a positive multiple of 2^-149 *)
    assert (G : (pow2 (-149) <= val x - IZR i)%R).
    { destruct (repr_form (val x) (repr_val x)) as (m & e & Em & _ & He).
      assert (Q : exists k : Z, (val x - IZR i = IZR k * pow2 (-149))%R).
      { exists (m * 2 ^ (e + 149) - i * 2 ^ 149). rewrite minus_IZR, !mult_IZR.
        change (2 ^ (e + 149)) with (Zpower radix2 (e + 149)). change (2 ^ 149) with (Zpower radix2 149).
        rewrite !(IZR_Zpower radix2) by lia. rewrite Rmult_minus_distr_r, !Rmult_assoc, <- !bpow_plus.
        replace (e + 149 + -149) with e by lia. change (149 + -149) with 0. cbn [bpow]. rewrite Rmult_1_r.
        now rewrite <- Em. }
      destruct Q as [k Ek]. rewrite Ek. pose proof (bpow_gt_0 radix2 (-149)) as P.
      assert (Pos : (0 < val x - IZR i)%R) by lra. rewrite Ek in Pos.
      assert (1 <= k).
      { destruct (Z.le_gt_cases 1 k) as [|Gk]; auto. exfalso.
        assert (Hk : k <= 0) by lia. apply IZR_le in Hk. nra. }
      apply IZR_le in H. nra. }
    apply Rlt_le_trans with (pow2 (-149)); [apply bpow_gt_0|].
    apply rnd_ge_repr; [apply repr_bpow; lia|exact G].
Qed.

Lemma fill_panic_0 h s (l : list f32) ii lower n i slice : covers h s l -> ms_len s = 0 -> (0 < n)%nat ->
  fill_window h s ii lower n i slice = Panic.
Proof.
  intros C E Hn. destruct n as [|n]; [lia|]. cbn [fill_window].
  destruct (isize_add ii i) as [j| |] eqn:Ej; cbn [bind]; auto.
  - now rewrite (get_wrapped_unchecked_0 h s l _ C E).
  - unfold isize_add in Ej. destruct (_ && _); [discriminate|]. destruct ovf_checks; discriminate.
Qed.

Lemma lagrange_wrapped_panics : forall (h : heap f32) s l x w,
  covers h s l -> 0 <= w ->
  (isnan x = true \/ x = f_inf -> lagrange_wrapped h s x w = Panic) /\
  (w = 0 -> ovf_checks = true -> lagrange_wrapped h s x w = Panic) /\
  (ms_len s = 0 -> 2 <= w -> lagrange_wrapped h s x w = Panic) /\
  (floor_ok MO -> fin x = true -> (Rabs (val x) < pow2 23)%R ->
   isize_min + 50 <= Zfloor (val x) <= isize_max - 50 -> 0 < ms_len s ->
     (2 <= w -> exists v, lagrange_wrapped h s x w = Ret v) /\
     (w = 1 -> val x <> IZR (Zfloor (val x)) -> lagrange_wrapped h s x w = Panic) /\
     (w = 1 -> val x = IZR (Zfloor (val x)) -> exists v, lagrange_wrapped h s x w = Ret v /\ val v = 0%R)).
Proof.
  intros h s l x w C Hw. pose proof isize_max_pos as Hpos. pose proof usize_isize as Hus.
  split; [|split; [|split]].
  - intros Hx. unfold lagrange_wrapped.
    match goal with |- context [fill_window ?a ?b ?c ?d ?e ?f ?g] =>
      pose proof (fill_no_ub a b l c d e C f g) as Nu; destruct (fill_window a b c d e f g) as [sl| |] eqn:Ef end;
      cbn [bind]; auto; [|congruence].
    set (ii := n_isize (m_floor x)). destruct Hx as [N| ->].
    + apply lagrange_nan. cbn [nsub num_f32]. apply fsub_nan. now left.
    + apply lagrange_inf.
      * cbn [nsub num_f32]. apply fsub_inf. change (nint ii : f32) with (of_int ii). apply fin_of_int.
        pose proof (n_isize_range (m_floor f_inf)) as Hr. fold ii in Hr. unfold is_isize in Hr.
        rewrite isize_min_max in Hr. pose proof usize_max_le. lia.
      * rewrite firstn_length. destruct (Z.ltb_spec 100 w); lia.
  - intros -> V. unfold lagrange_wrapped. change (100 <? 0) with false. cbn iota.
    change (Z.to_nat (0 / 2 + 1 - (- (0 / 2) + 1))) with 0%nat. cbn [fill_window bind].
    change (Z.to_nat 0) with 0%nat. cbn [firstn]. unfold lagrange, usize_sub. cbn. now rewrite V.
  - intros E H2. unfold lagrange_wrapped. rewrite (fill_panic_0 h s l); auto.
    destruct (Z.ltb_spec 100 w); [vm_compute; lia|].
    assert (1 <= w / 2) by (apply Z.div_le_lower_bound; lia). lia.
  - intros Hf Fx Hx Hi Hn.
    destruct (floor_index x Hf Fx Hx) as (Ui & Ft & Ht & T0 & Tp); [unfold is_isize; lia|]. cbv zeta in *.
    pose proof (lagrange_wrapped_form h s l x w f_zero C Hn Hw) as G. cbv zeta in G.
    rewrite Ui in *. specialize (G ltac:(lia) ltac:(lia)).
    set (t := nsub x (nint (Zfloor (val x)))) in *.
    set (ys := map _ _) in G.
    assert (Ly : length ys = Z.to_nat (Z.min w 100)) by (unfold ys; now rewrite map_length, seq_length).
    assert (Hne0 : 1 <= w -> ys <> []) by (intros Hw1 Ey; rewrite Ey in Ly; cbn [length] in Ly; lia).
    assert (Hle0 : Z.of_nat (length ys) <= 2 ^ 24) by lia.
    rewrite G.
    split; [|split].
    + intros H2. rewrite (lagrange_precondition_fin ys t (Hne0 ltac:(lia)) Hle0 Ft).
      rewrite Rle_bool_true; [eauto|]. rewrite Ly, INR_IZR_INZ.
      assert (1 <= Z.of_nat (Z.to_nat (Z.min w 100) - 1)) as Q by lia. apply IZR_le in Q. lra.
    + intros -> Hne. rewrite (lagrange_precondition_fin ys t (Hne0 ltac:(lia)) Hle0 Ft).
      rewrite Ly. change (Z.to_nat (Z.min 1 100) - 1)%nat with 0%nat. rewrite Rle_bool_false; auto.
    + intros -> He. rewrite (lagrange_precondition_fin ys t (Hne0 ltac:(lia)) Hle0 Ft).
      rewrite Ly. change (Z.to_nat (Z.min 1 100) - 1)%nat with 0%nat. cbn [INR].
      rewrite (T0 He). rewrite Rle_bool_true by lra. eexists. split; [reflexivity|].
      assert (Ey : ys = [nint 0]) by reflexivity. rewrite Ey.
      unfold lagrange_sum, lagrange_term. cbn [length seq fold_left Nat.eqb nth].
      assert (E0 : nadd (nint 0) (nint 0) = (nint 0 : f32)) by (apply bits_inj; vm_compute; reflexivity).
      rewrite E0. exact (proj2 (of_int_exact 0 ltac:(lia))).
Qed.
End Float.
