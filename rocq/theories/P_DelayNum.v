From Coq Require Import ZArith List Bool Reals Lia Lra Psatz.
From Flocq Require Import Core.
From Verif Require Import Base F32 F32Lemmas F32Ints Num M_Memory M_Delay S_Memory S_Delay P_Memory P_Delay.
Import ListNotations.
Open Scope R_scope.

Lemma repr_double x : repr x -> repr (2 * x).
Proof.
  intros H. destruct (repr_form x H) as (m & e & -> & Hm & He).
  replace (2 * (IZR m * pow2 e)) with (IZR m * pow2 (e + 1)).
  - apply repr_dy; lia.
  - rewrite bpow_plus. change (pow2 1) with 2. ring.
Qed.

Section F.
Context {NP : NanPolicy}.

Lemma half_f32 : fin (ndy 1 (-1) : f32) = true /\ val (ndy 1 (-1) : f32) = / 2.
Proof.
  change (ndy 1 (-1) : f32) with (lit 1 (-1)). destruct (lit_exact 1 (-1)) as [F V]; try lia.
  split; auto. rewrite V. change (pow2 (-1)) with (/ 2). lra.
Qed.


Lemma one_minus_half : nsub (nint 1) (ndy 1 (-1)) = (ndy 1 (-1) : f32).
Proof. apply bits_inj. vm_compute. reflexivity. Qed.

(** Halving something bounded by 2M gives something bounded by M. *)
Lemma half_bounded M x : repr M -> M < big -> bounded (2 * M) x ->
  bounded M (fmul x (ndy 1 (-1))).
Proof.
  intros HM Hb [Fx Bx]. destruct half_f32 as [Fh Vh].
  destruct (fmul_bnd x _ M Fx Fh HM Hb) as (F & V & Bd).
  { rewrite Vh, Rabs_mult, (Rabs_pos_eq (/ 2)) by lra. lra. }
  split; auto.
Qed.
Lemma add_bounded M N x y : repr (M + N) -> M + N < big -> bounded M x -> bounded N y ->
  bounded (M + N) (fadd x y).
Proof.
  intros HM Hb [Fx Bx] [Fy By]. destruct (fadd_bnd x y (M + N) Fx Fy HM Hb) as (F & V & Bd).
  { eapply Rle_trans; [apply Rabs_triang|]. lra. }
  split; auto.
Qed.
Lemma bounded_neg M x : bounded M x -> bounded M (fneg x).
Proof. intros [F H]. split; [now rewrite fin_fneg|]. rewrite val_fneg, Rabs_Ropp. exact H. Qed.

(** Comb with default parameters: outputs and everything stored stay within 2M. *)
Lemma comb_bounded M ops : repr M -> 2 * M < big -> forall d m s,
  Forall (bounded (2 * M)) d -> bounded (2 * M) s -> Forall (tick_bounded M) ops ->
  (m < length d)%nat ->
  Forall (bounded (2 * M)) (comb_spec d m s (ndy 1 (-1)) (ndy 1 (-1)) ops).
Proof.
  intros HM Hb.
  assert (H2M : repr (2 * M)) by now apply repr_double.
  assert (E2 : 2 * M = M + M) by ring.
  induction ops as [|op ops IH]; intros d m s Hd Hs Ho Hm; [constructor|].
  inversion Ho as [|? ? Ho1 Ho2]; subst. destruct op as [x| |]; try contradiction. cbn [tick_bounded] in Ho1.
  cbn [comb_spec].
  assert (Mpos : 0 <= M) by (destruct Ho1 as [_ Hx]; pose proof (Rabs_pos (val x)); lra).
  assert (HbM : M < big) by lra.
  set (y := nth m d (nint 0)).
  assert (By : bounded (2 * M) y).
  { rewrite Forall_forall in Hd. apply Hd. apply nth_In. exact Hm. }
  constructor; [exact By|].
  rewrite one_minus_half.
  cbn [nadd nmul num_f32].
  set (s' := fadd (fmul y (ndy 1 (-1))) (fmul s (ndy 1 (-1)))).
  assert (Bs : bounded (2 * M) s').
  { rewrite E2. apply add_bounded; rewrite <- ?E2; auto; apply half_bounded; auto. }
  apply IH; auto.
  - apply Forall_app. split; auto. constructor; auto.
    rewrite E2. apply add_bounded; rewrite <- ?E2; auto. apply half_bounded; auto.
  - rewrite app_length. cbn. lia.
Qed.

Lemma ap_bounded M xs : repr M -> rnd (3 * M) < big -> forall d m,
  Forall (bounded (2 * M)) d -> Forall (bounded M) xs -> (m < length d)%nat ->
  Forall (bounded (rnd (3 * M))) (ap_spec d m xs).
Proof.
  intros HM Hb.
  assert (H2M : repr (2 * M)) by now apply repr_double.
  assert (E2 : 2 * M = M + M) by ring.
  induction xs as [|x xs IH]; intros d m Hd Hx Hm; [constructor|].
  inversion Hx as [|? ? Hx1 Hx2]; subst. cbn [ap_spec].
  assert (Mpos : 0 <= M) by (destruct Hx1 as [_ Q]; pose proof (Rabs_pos (val x)); lra).
  assert (H23 : 2 * M <= rnd (3 * M)) by (apply rnd_ge_repr; auto; lra).
  set (v := nth m d (nint 0)).
  assert (Bv : bounded (2 * M) v).
  { rewrite Forall_forall in Hd. apply Hd. apply nth_In. exact Hm. }
  constructor.
  - destruct Hx1 as [Fx Bx], Bv as [Fv Bv'].
    cbn [nadd nneg num_f32]. destruct (fadd_spec (fneg x) v) as [F V]; auto.
    + now rewrite fin_fneg.
    + eapply Rle_lt_trans; [|exact Hb].
      rewrite val_fneg. destruct (Rle_or_lt 0 (- val x + val v)) as [P|N].
      * rewrite Rabs_pos_eq by now apply rnd_pos. apply rnd_le.
        apply Rabs_le_inv in Bx. apply Rabs_le_inv in Bv'. lra.
      * rewrite <- (Rabs_Ropp (rnd _)), <- rnd_opp. rewrite Rabs_pos_eq by (apply rnd_pos; lra).
        apply rnd_le. apply Rabs_le_inv in Bx. apply Rabs_le_inv in Bv'. lra.
    + split; auto. rewrite V, val_fneg. destruct (Rle_or_lt 0 (- val x + val v)) as [P|N].
      * rewrite Rabs_pos_eq by now apply rnd_pos. apply rnd_le.
        apply Rabs_le_inv in Bx. apply Rabs_le_inv in Bv'. lra.
      * rewrite <- (Rabs_Ropp (rnd _)), <- rnd_opp. rewrite Rabs_pos_eq by (apply rnd_pos; lra).
        apply rnd_le. apply Rabs_le_inv in Bx. apply Rabs_le_inv in Bv'. lra.
  - apply IH; auto.
    + apply Forall_app. split; auto. constructor; auto.
      cbn [nadd nmul num_f32]. rewrite E2. apply add_bounded; rewrite <- ?E2; auto; try lra.
      apply half_bounded; auto. lra.
    + rewrite app_length. cbn. lia.
Qed.

(** What the buffers hold after a run. *)
Context {B : Build}.

Lemma rel_contents (P : f32 -> Prop) h d q : dl_rel h d q -> Forall P q -> exists l, covers h (dl_buf d) l /\ Forall P l.
Proof.
  intros (l & C & _ & ->) H. exists l. split; [exact C|]. apply Forall_app in H.
  rewrite <- (firstn_skipn (Z.to_nat (dl_idx d)) l). apply Forall_app. tauto.
Qed.

Lemma comb_stored M ops : repr M -> 2 * M < big -> forall h c q h' c' ys, dl_rel h (cb_dl c) q ->
  cb_damp c = ndy 1 (-1) -> cb_damp_inv c = ndy 1 (-1) -> cb_feedback c = ndy 1 (-1) ->
  Forall (bounded (2 * M)) q -> bounded (2 * M) (cb_state c) -> Forall (tick_bounded M) ops ->
  comb_run h c ops = Ret (h', c', ys) ->
  exists l, covers h' (dl_buf (cb_dl c)) l /\ Forall (bounded (2 * M)) l.
Proof.
  intros HM Hb. assert (H2M : repr (2 * M)) by now apply repr_double. assert (E2 : 2 * M = M + M) by ring.
  induction ops as [|op ops IH]; intros h c q h' c' ys R D1 D2 D3 Hq Hs Ho E.
  - injection E as <- <- <-. exact (rel_contents _ _ _ _ R Hq).
  - inversion Ho as [|? ? Ho1 Ho2]; subst. destruct op as [x| |]; try contradiction. cbn [tick_bounded] in Ho1.
    cbn [comb_run] in E. destruct (cb_tick_rel h c q x R) as (h1 & d1 & y & Ey & Et & Eb & R1 & _). cbv zeta in *.
    rewrite Et in E. cbn [bind] in E. rewrite D1, D2, D3 in *.
    assert (Mpos : 0 <= M) by (destruct Ho1 as [_ Hx]; pose proof (Rabs_pos (val x)); lra).
    assert (HbM : M < big) by lra. destruct q as [|y0 q]; [discriminate|]. injection Ey as ->.
    inversion Hq as [|? ? By Hq']; subst. cbn [tl] in R1. cbn [nadd nmul num_f32] in R1, E.
    set (s' := fadd (fmul y (ndy 1 (-1))) (fmul (cb_state c) (ndy 1 (-1)))) in *.
    assert (Bs : bounded (2 * M) s').
    { unfold s'. rewrite E2. apply add_bounded; rewrite <- ?E2; auto; apply half_bounded; auto. }
    match type of E with context [comb_run h1 ?c1 ops] => set (c1' := c1) in * end.
    destruct (comb_run h1 c1' ops) as [[[h2 c2] ys2]| |] eqn:E'; try discriminate E. cbn [bind] in E. injection E as <- <- <-.
    destruct (IH h1 c1' _ h2 c2 ys2 R1) as (l & C & Hl); auto.
    + apply Forall_app. split; [exact Hq'|]. constructor; [|constructor].
      rewrite E2. apply add_bounded; rewrite <- ?E2; auto. apply half_bounded; auto.
    + exists l. split; [|exact Hl]. cbn [c1' cb_dl] in C. now rewrite Eb in C.
Qed.

Lemma ap_stored M xs : repr M -> 2 * M < big -> forall h a q h' a' ys, dl_rel h (ap_dl a) q ->
  Forall (bounded (2 * M)) q -> Forall (bounded M) xs -> ap_run h a xs = Ret (h', a', ys) ->
  exists l, covers h' (dl_buf (ap_dl a)) l /\ Forall (bounded (2 * M)) l.
Proof.
  intros HM Hb. assert (H2M : repr (2 * M)) by now apply repr_double. assert (E2 : 2 * M = M + M) by ring.
  induction xs as [|x xs IH]; intros h a q h' a' ys R Hq Hx E.
  - injection E as <- <- <-. exact (rel_contents _ _ _ _ R Hq).
  - inversion Hx as [|? ? Hx1 Hx2]; subst. cbn [ap_run] in E. unfold ap_tick in E.
    destruct (dl_read_ok _ _ _ R) as (y & Ey & Er). rewrite Er in E. cbn [bind] in E.
    destruct (write_rel h (ap_dl a) q (nadd x (nmul y (ndy 1 (-1)))) R) as (h1 & d1 & Ew & Eb & R1 & _).
    rewrite Ew in E. cbn [bind] in E. destruct q as [|y0 q]; [discriminate|]. injection Ey as ->.
    inversion Hq as [|? ? By Hq']; subst. cbn [tl] in R1. cbn [nadd nmul num_f32] in R1, E.
    assert (Mpos : 0 <= M) by (destruct Hx1 as [_ Q]; pose proof (Rabs_pos (val x)); lra).
    destruct (ap_run h1 (AP d1) xs) as [[[h2 a2] ys2]| |] eqn:E'; try discriminate E. cbn [bind] in E. injection E as <- <- <-.
    destruct (IH h1 (AP d1) _ h2 a2 ys2 R1) as (l & C & Hl); auto.
    + apply Forall_app. split; [exact Hq'|]. constructor; [|constructor].
      rewrite E2. apply add_bounded; rewrite <- ?E2; auto. apply half_bounded; auto. lra.
    + exists l. split; [|exact Hl]. cbn [ap_dl] in C. now rewrite Eb in C.
Qed.
End F.

(** ** All-pass in exact arithmetic *)

Lemma half_R : (ndy 1 (-1) : R) = / 2.
Proof. cbn. lra. Qed.
Lemma nint_R z : (nint z : R) = IZR z.
Proof. unfold nint. cbn. lra. Qed.

(** The stored sequence: initial buffer followed by w[m] = x[m] + d[m]/2. *)
Fixpoint ap_store (d : list R) (m : nat) (xs : list R) : list R :=
  match xs with
  | [] => d
  | x :: r => ap_store (d ++ [x + nth m d 0 * / 2]) (S m) r
  end.

Lemma ap_store_prefix xs : forall d m, exists t, ap_store d m xs = d ++ t /\ length t = length xs.
Proof.
  induction xs as [|x xs IH]; intros d m.
  - exists []. rewrite app_nil_r. auto.
  - cbn [ap_store]. destruct (IH (d ++ [x + nth m d 0 * / 2]) (S m)) as (t & E & L).
    exists ((x + nth m d 0 * / 2) :: t). rewrite E, <- app_assoc. cbn. auto.
Qed.

Lemma ap_spec_nth xs : forall d m k, (m < length d)%nat -> (k < length xs)%nat ->
  let st := ap_store d m xs in
  nth k (ap_spec d m xs) 0 = - nth k xs 0 + nth (m + k) st 0 /\
  nth (length d + k) st 0 = nth k xs 0 + nth (m + k) st 0 * / 2.
Proof.
  induction xs as [|x xs IH]; intros d m k Hm Hk; [cbn in Hk; lia|].
  cbv zeta. cbn [ap_spec ap_store]. rewrite nint_R, half_R. cbn [nadd nneg nmul num_R].
  set (w := x + nth m d 0 * / 2).
  destruct (ap_store_prefix xs (d ++ [w]) (S m)) as (t & E & L).
  destruct k as [|k].
  - cbn [nth]. rewrite !Nat.add_0_r. rewrite E, <- app_assoc.
    rewrite app_nth1 by lia. split; [reflexivity|].
    rewrite app_nth2 by lia. rewrite Nat.sub_diag. reflexivity.
  - cbn [nth]. destruct (IH (d ++ [w]) (S m) k) as [IH1 IH2].
    { rewrite app_length. cbn [length]. lia. } { cbn in Hk. lia. }
    cbv zeta in IH1, IH2. rewrite app_length in IH2. cbn [length] in IH2.
    replace (m + S k)%nat with (S m + k)%nat by lia.
    replace (length d + S k)%nat with (length d + 1 + k)%nat by lia. auto.
Qed.

Lemma ap_difference n xs m : (0 < n)%nat -> (m < length xs)%nat ->
  let ys := ap_spec (repeat 0 n) 0 xs in
  nth m ys 0 = / 2 * past ys m n - nth m xs 0 + 3 / 2 * past xs m n.
Proof.
  intros Hn Hm ys.
  assert (L : length (repeat 0 n) = n) by apply repeat_length.
  destruct (ap_spec_nth xs (repeat 0 n) 0 m) as [Y W]; [lia|lia|]. cbv zeta in Y, W.
  rewrite L in *. cbn [plus] in *. fold ys in Y.
  set (st := ap_store (repeat 0 n) 0 xs) in *.
  unfold past. destruct (Nat.ltb_spec m n) as [H|H].
  - rewrite Y. unfold st. destruct (ap_store_prefix xs (repeat 0 n) 0) as (t & E & Lt). rewrite E.
    rewrite app_nth1 by lia. rewrite nth_repeat. lra.
  - destruct (ap_spec_nth xs (repeat 0 n) 0 (m - n)) as [Y2 W2]; [lia|lia|]. cbv zeta in Y2, W2.
    rewrite L in *. cbn [plus] in *. fold ys in Y2. fold st in Y2, W2.
    replace (n + (m - n))%nat with m in W2 by lia.
    rewrite Y, Y2, W2. lra.
Qed.

Lemma nth_impulse N m : (m < N)%nat -> nth m (impulse N) 0 = if Nat.eqb m 0 then 1 else 0.
Proof.
  intros H. destruct N; [lia|]. destruct m; [reflexivity|]. cbn. apply nth_repeat.
Qed.

Lemma ap_impulse n N m : (0 < n)%nat -> (m < N)%nat ->
  nth m (ap_spec (repeat 0 n) 0 (impulse N)) 0 =
    if Nat.eqb m 0 then -1
    else if Nat.eqb (m mod n) 0 then (/ 2) ^ (m / n - 1) else 0.
Proof.
  intros Hn. revert N. induction m as [m IH] using (well_founded_induction lt_wf). intros N Hm.
  assert (Li : length (impulse N) = N) by (destruct N; cbn; rewrite ?repeat_length; lia).
  pose proof (ap_difference n (impulse N) m Hn ltac:(lia)) as D. cbv zeta in D. rewrite D. clear D.
  rewrite nth_impulse by lia. unfold past.
  destruct (Nat.ltb_spec m n) as [H|H].
  - destruct (Nat.eqb_spec m 0) as [->|H0]; [lra|].
    rewrite Nat.mod_small by lia. destruct (Nat.eqb_spec m 0); [lia|lra].
  - rewrite (IH (m - n)%nat ltac:(lia) N ltac:(lia)).
    rewrite nth_impulse by lia.
    destruct (Nat.eqb_spec m 0); [lia|].
    assert (Em : (m = (m - n) + 1 * n)%nat) by lia.
    assert (Emod : (m mod n = (m - n) mod n)%nat) by (rewrite Em at 1; apply Nat.mod_add; lia).
    assert (Ediv : (m / n = (m - n) / n + 1)%nat) by (rewrite Em at 1; apply Nat.div_add; lia).
    rewrite Emod, Ediv.
    destruct (Nat.eqb_spec (m - n) 0) as [E0|E0].
    + rewrite E0, Nat.mod_0_l, Nat.div_0_l by lia. cbn. lra.
    + destruct (Nat.eqb_spec ((m - n) mod n) 0) as [E1|E1]; [|lra].
      assert (1 <= (m - n) / n)%nat.
      { destruct ((m - n) / n)%nat eqn:Q; [|lia]. apply Nat.div_small_iff in Q; [|lia].
        rewrite Nat.mod_small in E1 by lia. lia. }
      replace ((m - n) / n + 1 - 1)%nat with (S ((m - n) / n - 1)) by lia.
      cbn [pow]. lra.
Qed.

Lemma energy_app a b : energy (a ++ b) = energy a + energy b.
Proof. unfold energy. induction a as [|x a IH]; cbn [app fold_right]; [ring|]. rewrite IH. ring. Qed.

Lemma firstn_last {A} (l : list A) k d : (k < length l)%nat -> firstn (S k) l = firstn k l ++ [nth k l d].
Proof.
  revert k. induction l as [|x l IH]; intros k H; [cbn in H; lia|].
  destruct k; [reflexivity|]. cbn [firstn nth app]. rewrite <- IH by (cbn in H; lia). reflexivity.
Qed.
Lemma energy_S l k : (k < length l)%nat -> energy (firstn (S k) l) = energy (firstn k l) + nth k l 0 * nth k l 0.
Proof. intros H. rewrite (firstn_last l k 0 H), energy_app. cbn. lra. Qed.

Lemma ap_spec_length xs : forall d m, length (ap_spec (F := R) d m xs) = length xs.
Proof. induction xs; intros; cbn; auto. Qed.
Lemma impulse_length N : length (impulse N) = N.
Proof. destruct N; cbn; rewrite ?repeat_length; lia. Qed.

Lemma ap_energy_block n N k j : (0 < n)%nat -> (k * n + 1 + j <= N)%nat -> (j < n)%nat ->
  energy (firstn (k * n + 1 + j) (ap_spec (repeat 0 n) 0 (impulse N)))
  = 1 + 4 / 3 * (1 - (/ 4) ^ k).
Proof.
  intros Hn. set (ys := ap_spec (repeat 0 n) 0 (impulse N)).
  assert (Ly : length ys = N) by (unfold ys; rewrite ap_spec_length; apply impulse_length).
  revert j. induction k as [|k IHk]; intros j.
  - induction j as [|j IHj]; intros HN Hj.
    + cbn [Nat.mul Nat.add]. rewrite energy_S by lia. cbn [firstn energy fold_right].
      unfold ys. rewrite ap_impulse by lia. cbn. lra.
    + replace (0 * n + 1 + S j)%nat with (S (0 * n + 1 + j)) by lia. rewrite energy_S by lia.
      rewrite IHj by lia. unfold ys. rewrite ap_impulse by lia.
      replace (0 * n + 1 + j)%nat with (S j) by lia. cbn [Nat.eqb].
      rewrite Nat.mod_small by lia. cbn. lra.
  - induction j as [|j IHj]; intros HN Hj.
    + replace (S k * n + 1 + 0)%nat with (S (k * n + 1 + (n - 1))) by lia.
      rewrite energy_S by lia. rewrite (IHk (n - 1)%nat) by lia.
      replace (k * n + 1 + (n - 1))%nat with (S k * n)%nat by lia.
      unfold ys. rewrite ap_impulse by lia.
      destruct (Nat.eqb_spec (S k * n) 0); [lia|].
      rewrite Nat.mod_mul, Nat.div_mul by lia. cbn [Nat.eqb].
      replace (S k - 1)%nat with k by lia.
      rewrite <- Rpow_mult_distr. replace (/ 2 * / 2) with (/ 4) by lra. cbn [pow]. lra.
    + replace (S k * n + 1 + S j)%nat with (S (S k * n + 1 + j)) by lia. rewrite energy_S by lia.
      rewrite IHj by lia. unfold ys. rewrite ap_impulse by lia.
      destruct (Nat.eqb_spec (S k * n + 1 + j) 0); [lia|].
      replace (S k * n + 1 + j)%nat with (S j + S k * n)%nat by lia.
      rewrite Nat.mod_add by lia. rewrite Nat.mod_small by lia. cbn [Nat.eqb]. lra.
Qed.
