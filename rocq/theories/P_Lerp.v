From Coq Require Import ZArith List Bool Reals Lia Lra Psatz.
From Flocq Require Import Core.
From Verif Require Import Base F32 F32Lemmas F32Ints Num M_Memory S_Memory P_Memory.
Import ListNotations.
Open Scope Z_scope.

Section Lerp.
Context {NP : NanPolicy} {MO : MathOps f32} {B : Build}.
Implicit Types (h : heap f32) (s : mslice) (l : list f32) (x : f32).

Lemma nint_f32 z : nint z = of_int z. Proof. reflexivity. Qed.

Lemma len_small h s l : covers h s l -> ms_len s <= 2 ^ 61.
Proof. intros C. apply covers_len in C. pose proof isize_max_le. lia. Qed.

Lemma n_usize_range x : 0 <= n_usize x <= usize_max.
Proof. apply to_int_range. rewrite usize_isize. pose proof isize_max_pos. lia. Qed.
Lemma n_isize_range x : is_isize (n_isize x).
Proof. apply to_int_range. rewrite isize_min_max. pose proof isize_max_pos. lia. Qed.

(** The float [10.0 * f32::EPSILON]. *)
Lemma slack_val : fin (fmul (of_int 10) (lit 1 (-23))) = true /\
  val (fmul (of_int 10) (lit 1 (-23))) = (IZR 10 * pow2 (-23))%R.
Proof.
  destruct (of_int_exact 10) as [F1 V1]; [lia|]. destruct (lit_exact 1 (-23)) as [F2 V2]; try lia.
  assert (R : repr (val (of_int 10) * val (lit 1 (-23)))).
  { rewrite V1, V2, Rmult_1_l. apply repr_dy; lia. }
  destruct (fmul_spec _ _ F1 F2) as [F3 V3].
  { rewrite rnd_repr by exact R. rewrite V1, V2, Rmult_1_l. apply dy_lt_big; lia. }
  split; auto. rewrite V3, rnd_repr by exact R. now rewrite V1, V2, Rmult_1_l.
Qed.

(** The right-hand side of the second comparison. *)
Definition slack_end (n : Z) : f32 :=
  nadd (nsub (nint n) (nint 1)) (nmul (nint 10) (ndy 1 (-23))).

Lemma slack_end_val n : 1 <= n <= 2 ^ 61 ->
  fin (slack_end n) = true /\
  val (slack_end n) = rnd (rnd (rnd (IZR n) - 1) + IZR 10 * pow2 (-23)).
Proof.
  intros Hn.
  change (slack_end n) with (fadd (fsub (of_int n) (of_int 1)) (fmul (of_int 10) (lit 1 (-23)))).
  destruct slack_val as [Fs Vs].
  destruct (of_int_spec n) as [Fn Vn]; [lia|].
  destruct (of_int_exact 1) as [F1 V1]; [lia|].
  assert (Bn : (0 <= rnd (IZR n) <= pow2 61)%R).
  { split; [apply rnd_pos, IZR_le; lia|]. apply rnd_le_repr; [apply repr_bpow; lia|].
    change (pow2 61) with (IZR (2 ^ 61)). apply IZR_le. lia. }
  assert (P61 : (1 <= pow2 61)%R) by (apply (bpow_le radix2 0 61); lia).
  destruct (fsub_bnd (of_int n) (of_int 1) (pow2 61) Fn F1) as (F2 & V2 & B2).
  { apply repr_bpow; lia. } { apply bpow_lt; lia. }
  { rewrite Vn, V1. apply Rabs_le. split; lra. }
  rewrite Vn, V1 in V2.
  destruct (fadd_bnd (fsub (of_int n) (of_int 1)) (fmul (of_int 10) (lit 1 (-23))) (pow2 62) F2 Fs)
    as (F3 & V3 & B3).
  { apply repr_bpow; lia. } { apply bpow_lt; lia. }
  { rewrite Vs. apply Rabs_le_inv in B2.
    assert (E62 : (pow2 62 = pow2 61 * 2)%R) by exact (bpow_plus radix2 61 1).
    assert (0 < IZR 10 * pow2 (-23) <= 1)%R.
    { change (pow2 (-23)) with (/ IZR (2 ^ 23))%R. simpl (2 ^ 23)%Z. lra. }
    apply Rabs_le. split; lra. }
  split; [exact F3|]. now rewrite V3, Vs, V2.
Qed.

(** Rounding a large value plus the slack does not move it. *)
Lemma slack_absorbed (m : R) : repr m -> (pow2 5 <= m)%R -> (rnd (m + IZR 10 * pow2 (-23)) <= m)%R.
Proof.
  intros Hr Hm.
  apply (round_N_le_midp radix2 fexp32 _ m); [exact Hr|].
  assert (P5 := bpow_gt_0 radix2 5).
  rewrite succ_eq_pos by lra.
  assert (U : (pow2 (-18) <= ulp radix2 fexp32 m)%R).
  { rewrite ulp_neq_0 by lra. apply bpow_le. unfold cexp, FLT_exp.
    assert (6 <= mag radix2 m)%Z.
    { apply mag_ge_bpow. rewrite Rabs_pos_eq by lra. exact Hm. }
    lia. }
  assert (IZR 10 * pow2 (-23) < pow2 (-18) / 2)%R.
  { change (pow2 (-18)) with (/ IZR (2 ^ 18))%R. change (pow2 (-23)) with (/ IZR (2 ^ 23))%R.
    simpl (2 ^ 18)%Z. simpl (2 ^ 23)%Z. lra. }
  lra.
Qed.

Lemma trunc_of_int z x : (Z.abs z < 2 ^ 127) -> fin x = true -> val x = val (of_int z) ->
  exists k, val x = IZR k /\ Ztrunc (val x) = k /\ rnd (IZR z) = IZR k.
Proof.
  intros Hz Fx E. destruct (of_int_spec z Hz) as [_ V]. destruct (rnd_int z) as [k Hk].
  exists k. rewrite E, V, Hk. rewrite Ztrunc_IZR. auto.
Qed.

(** The key point: when both guards of the last-sample branch hold, the truncated
    index is a valid one, even where [(len-1) as f32] rounds up. *)
Lemma guard_safe n x : 1 <= n <= 2 ^ 61 ->
  neq x (nint (n - 1)) = true -> nlt x (slack_end n) = true ->
  fin x = true /\ (0 <= val x)%R /\ val x = IZR (Ztrunc (val x)) /\ 0 <= Ztrunc (val x) < n.
Proof.
  intros Hn He Hl. cbn [neq nlt num_f32] in He, Hl. rewrite nint_f32 in He.
  destruct (of_int_spec (n - 1)) as [Fo Vo]; [lia|].
  apply feq_true in He as (Nx & No & Ee). rewrite (ext_fin _ Fo) in Ee.
  assert (Fx : fin x = true).
  { apply ext_fin_of_bounds; auto. rewrite Ee. apply Rabs_lt_inv, val_lt_big. }
  rewrite (ext_fin _ Fx) in Ee.
  destruct (trunc_of_int (n - 1) x) as (k & Vk & Tk & Rk); [lia| auto | auto |].
  assert (Hk0 : 0 <= k).
  { apply le_IZR. rewrite <- Rk. apply rnd_pos. apply IZR_le. lia. }
  split; auto. split; [rewrite Vk; apply IZR_le; lia|]. rewrite Tk. split; auto. split; auto.
  destruct (Z.lt_ge_cases k n) as [Hk|Hk]; auto. exfalso.
  destruct (slack_end_val n Hn) as [Fs Vs].
  rewrite (flt_fin _ _ Fx Fs) in Hl.
  assert (L : (val x < val (slack_end n))%R) by (revert Hl; case Rlt_bool_spec; auto; discriminate).
  assert (Rn : rnd (IZR n) = IZR k).
  { apply Rle_antisym.
    - apply rnd_le_repr; [rewrite <- Rk; apply repr_rnd | now apply IZR_le].
    - rewrite <- Rk. apply rnd_le. apply IZR_le. lia. }
  assert (Hbig : 2 ^ 24 <= k).
  { destruct (Z.le_gt_cases (2 ^ 24) k); auto. exfalso.
    rewrite (rnd_repr (IZR (n - 1))) in Rk by (apply repr_int; lia).
    apply eq_IZR in Rk. lia. }
  rewrite Vs, Rn, Vk in L.
  assert (Rk' : repr (IZR k)) by (rewrite <- Rk; apply repr_rnd).
  assert (K5 : (pow2 5 <= IZR k)%R).
  { change (pow2 5) with (IZR (2 ^ 5)). apply IZR_le. lia. }
  assert (A := slack_absorbed (IZR k) Rk' K5).
  assert (rnd (IZR k - 1) <= IZR k)%R by (apply rnd_le_repr; [exact Rk'|lra]).
  assert (rnd (rnd (IZR k - 1) + IZR 10 * pow2 (-23)) <= rnd (IZR k + IZR 10 * pow2 (-23)))%R
    by (apply rnd_le; lra).
  lra.
Qed.

Lemma n_usize_fin x : fin x = true -> (0 <= val x)%R -> Ztrunc (val x) <= usize_max ->
  n_usize x = Ztrunc (val x).
Proof.
  intros F P H. unfold n_usize. cbn [ntrunc num_f32]. rewrite to_int_fin by exact F.
  assert (0 <= Ztrunc (val x)).
  { rewrite Ztrunc_floor by exact P. apply Zfloor_lub. exact P. }
  lia.
Qed.

(** [ms_lerp] with the first guards resolved. *)
Lemma ms_lerp_unfold h s x : 1 <= ms_len s -> nlt x (nint 0) = false ->
  ms_lerp h s x =
    if neq x (nint (ms_len s - 1)) && nlt x (slack_end (ms_len s))
    then do v <- get_unchecked h s (n_usize x) ; Ret (Ok v)
    else
      do ra <- get h s (n_usize x) ;
      match ra with
      | Err e => Ret (Err e)
      | Ok a =>
          do k1 <- usize_add (n_usize x) 1 ;
          do rb <- get h s k1 ;
          match rb with
          | Err e => Ret (Err e)
          | Ok b => Ret (Ok (lerp_unchecked a b (nsub x (nint (n_usize x)))))
          end
      end.
Proof.
  intros Hn Hx. unfold ms_lerp. rewrite Hx, usize_sub_ok by lia. reflexivity.
Qed.

Lemma ms_lerp_general h s l x : covers h s l -> 1 <= ms_len s -> nlt x (nint 0) = false ->
  let k := n_usize x in
  ms_lerp h s x =
    if neq x (nint (ms_len s - 1)) && nlt x (slack_end (ms_len s))
    then match nthz l k with Some v => Ret (Ok v) | None => UB end
    else match nthz l k, nthz l (k + 1) with
         | Some a, Some b => Ret (Ok (lerp_unchecked a b (nsub x (nint k))))
         | _, _ => Ret (Err IndexOutOfBound)
         end.
Proof.
  intros C Hn Hx k. rewrite ms_lerp_unfold by auto. fold k.
  pose proof (covers_len _ _ _ C) as Hc. pose proof C as (Hl & _).
  pose proof (n_usize_range x) as Hk. fold k in Hk.
  destruct (neq x (nint (ms_len s - 1)) && nlt x (slack_end (ms_len s))) eqn:G.
  - apply andb_true_iff in G as [G1 G2]. pose proof (len_small _ _ _ C).
    destruct (guard_safe (ms_len s) x) as (Fx & Px & _ & Tx); auto; try lia.
    assert (Ek : k = Ztrunc (val x)).
    { apply n_usize_fin; auto. rewrite usize_isize. lia. }
    destruct (nthz_ex l k) as [v Hv]; [lia|].
    rewrite (get_unchecked_ok _ _ _ _ _ C Hv), Hv. reflexivity.
  - rewrite (get_spec h s l k C) by lia. cbn [bind].
    destruct (nthz l k) as [a|] eqn:Ea; [|reflexivity].
    pose proof (nthz_bounds _ _ _ Ea) as Hb.
    rewrite usize_add_ok by (rewrite usize_isize; lia). cbn [bind].
    rewrite (get_spec h s l (k + 1) C) by lia. cbn [bind].
    destruct (nthz l (k + 1)); reflexivity.
Qed.

Lemma ms_lerp_safe h s l x : covers h s l -> 1 <= ms_len s ->
  ms_lerp h s x = Ret (Err IndexOutOfBound) \/ exists v, ms_lerp h s x = Ret (Ok v).
Proof.
  intros C Hn. destruct (nlt x (nint 0)) eqn:E0.
  { left. unfold ms_lerp. now rewrite E0. }
  rewrite (ms_lerp_general h s l x C Hn E0).
  destruct (neq x (nint (ms_len s - 1)) && nlt x (slack_end (ms_len s))) eqn:G.
  - apply andb_true_iff in G as [G1 G2]. pose proof (len_small _ _ _ C).
    destruct (guard_safe (ms_len s) x) as (Fx & Px & _ & Tx); auto; try lia.
    pose proof C as (Hl & Hm & _).
    destruct (nthz_ex l (n_usize x)) as [v Hv].
    { rewrite n_usize_fin; auto; rewrite ?usize_isize; lia. }
    right. exists v. now rewrite Hv.
  - destruct (nthz l (n_usize x)); auto. destruct (nthz l (n_usize x + 1)); eauto.
Qed.

Lemma ms_lerp_empty h s l x : covers h s l -> ms_len s = 0 ->
  ms_lerp h s x = (if nlt x (nint 0) then Ret (Err IndexOutOfBound)
                   else if ovf_checks then Panic else Ret (Err IndexOutOfBound)).
Proof.
  intros C H0. unfold ms_lerp. destruct (nlt x (nint 0)) eqn:E0; auto.
  rewrite H0. unfold usize_sub. replace (1 <=? 0) with false by reflexivity. cbv beta iota.
  destruct ovf_checks; [reflexivity|]. cbn [bind].
  assert (Hu : as_usize (0 - 1) = usize_max).
  { unfold as_usize, usize_max. change (0 - 1) with (-1).
    assert (1 < usize_mod) by (rewrite usize_mod_max, usize_isize; pose proof isize_max_pos; lia).
    replace (-1) with (usize_mod - 1 + (-1) * usize_mod) by lia.
    rewrite Z.mod_add by lia. apply Z.mod_small. lia. }
  rewrite Hu.
  destruct (neq x (nint usize_max) && nlt x (nadd (nsub (nint 0) (nint 1)) (nmul (nint 10) (ndy 1 (-23))))) eqn:G.
  - exfalso. apply andb_true_iff in G as [G1 G2].
    assert (E : (nadd (nsub (nint 0) (nint 1)) (nmul (nint 10) (ndy 1 (-23))) : f32) = lit (-16777196) (-24)).
    { apply bits_inj. vm_compute. reflexivity. }
    rewrite E in G2. clear E.
    destruct (lit_exact (-16777196) (-24)) as [F V]; try lia.
    cbn [nlt num_f32] in G2, E0. apply flt_true in G2 as (N1 & N2 & L). rewrite (ext_fin _ F), V in L.
    apply flt_false in E0; auto. rewrite nint_f32 in E0.
    destruct (of_int_exact 0) as [F0 V0]; [lia|]. rewrite (ext_fin _ F0), V0 in E0.
    pose proof (bpow_gt_0 radix2 (-24)). lra.
  - rewrite (get_spec h s l _ C) by apply n_usize_range. pose proof C as (Hl & _).
    rewrite nthz_None by (pose proof (n_usize_range x); lia). reflexivity.
Qed.

(** The last sample. *)
Lemma slack_small_true n : 1 <= n <= 32 -> nlt (nint (n - 1)) (slack_end n) = true.
Proof.
  intros Hn.
  assert (E : forallb (fun n => nlt (nint (n - 1)) (slack_end n)) (map Z.of_nat (seq 1 32)) = true)
    by (vm_compute; reflexivity).
  rewrite forallb_forall in E. apply (E n).
  apply in_map_iff. exists (Z.to_nat n). split; [lia|]. apply in_seq. lia.
Qed.
Lemma slack_large_false n : 33 <= n <= 2 ^ 24 -> nlt (nint (n - 1)) (slack_end n) = false.
Proof.
  intros Hn. destruct (slack_end_val n) as [F V]; [lia|].
  destruct (of_int_exact (n - 1)) as [F1 V1]; [lia|].
  cbn [nlt num_f32]. rewrite nint_f32, (flt_fin _ _ F1 F), V, V1.
  rewrite (rnd_repr (IZR n)) by (apply repr_int; lia).
  replace (IZR n - 1)%R with (IZR (n - 1)) by (rewrite minus_IZR; reflexivity).
  rewrite (rnd_repr (IZR (n - 1))) by (apply repr_int; lia).
  apply Rlt_bool_false. apply slack_absorbed; [apply repr_int; lia|].
  change (pow2 5) with (IZR (2 ^ 5)). apply IZR_le. lia.
Qed.

Lemma of_int_not_neg z : 0 <= z <= 2 ^ 61 -> nlt (nint z) (nint 0) = false.
Proof.
  intros Hz. cbn [nlt num_f32]. rewrite !nint_f32.
  rewrite flt_fin by (apply fin_of_int; lia). apply Rlt_bool_false.
  apply of_int_le; lia.
Qed.
Lemma feq_refl_fin x : fin x = true -> feq x x = true.
Proof. intros F. now apply feq_true_fin. Qed.

Lemma last_index n : 1 <= n <= 2 ^ 24 -> n <= usize_max -> n_usize (nint (n - 1)) = n - 1.
Proof.
  intros H Hu. rewrite nint_f32. destruct (of_int_exact (n - 1)) as [F V]; [lia|].
  rewrite n_usize_fin; rewrite ?V, ?Ztrunc_IZR; auto; try lia. apply IZR_le. lia.
Qed.

Lemma ms_lerp_last h s l v : covers h s l -> 1 <= ms_len s <= 2 ^ 24 ->
  nthz l (ms_len s - 1) = Some v ->
  ms_lerp h s (nint (ms_len s - 1)) =
    Ret (if ms_len s <=? 32 then Ok v else Err IndexOutOfBound).
Proof.
  intros C Hn Hv. pose proof C as (Hl & Hm & _).
  rewrite (ms_lerp_general h s l) by (auto; try lia; apply of_int_not_neg; lia).
  rewrite last_index by (try lia; rewrite usize_isize; lia).
  assert (E1 : neq (nint (ms_len s - 1) : f32) (nint (ms_len s - 1)) = true).
  { cbn [neq num_f32]. rewrite nint_f32. apply feq_refl_fin, fin_of_int. lia. }
  rewrite E1. cbn [andb]. destruct (Z.leb_spec (ms_len s) 32).
  - rewrite slack_small_true by lia. now rewrite Hv.
  - rewrite slack_large_false by lia. rewrite Hv.
    rewrite nthz_None by lia. reflexivity.
Qed.

(** Interior points. *)
Lemma ms_lerp_interior h s l x a b : covers h s l -> fin x = true -> (0 <= val x)%R ->
  let k := Zfloor (val x) in
  nthz l k = Some a -> nthz l (k + 1) = Some b ->
  exists t : f32, fin t = true /\ val t = (val x - IZR k)%R /\ (0 <= val t < 1)%R /\
    (ms_lerp h s x = Ret (Ok (lerp_unchecked a b t)) \/
     (2 ^ 24 < ms_len s /\ val t = 0%R /\ ms_lerp h s x = Ret (Ok a))).
Proof.
  intros C Fx Px k Ha Hb. pose proof C as (Hl & Hm & _).
  pose proof (nthz_bounds _ _ _ Ha) as Bk. pose proof (nthz_bounds _ _ _ Hb) as Bk1.
  pose proof (len_small _ _ _ C) as Hsm.
  assert (Tk : Ztrunc (val x) = k) by (apply Ztrunc_floor; exact Px).
  assert (Uk : n_usize x = k).
  { rewrite n_usize_fin, Tk; auto. rewrite Tk, usize_isize. lia. }
  destruct (frac_exact x k Fx Px) as (Fk & Vk & Ft & Vt & Bt); [lia|exact Tk|].
  exists (fsub x (of_int k)). repeat split; auto; try lra.
  assert (E0 : nlt x (nint 0) = false).
  { cbn [nlt num_f32]. rewrite nint_f32. destruct (of_int_exact 0) as [F0 V0]; [lia|].
    rewrite flt_fin, V0 by auto. now apply Rlt_bool_false. }
  rewrite (ms_lerp_general h s l) by (auto; lia). rewrite Uk, Ha, Hb.
  destruct (neq x (nint (ms_len s - 1)) && nlt x (slack_end (ms_len s))) eqn:G; [|now left].
  right. apply andb_true_iff in G as [G1 G2].
  destruct (guard_safe (ms_len s) x) as (_ & _ & Ix & _); auto; try lia.
  rewrite Tk in Ix.
  split; [|split; [rewrite Vt, Ix; lra | reflexivity]].
  destruct (Z.lt_ge_cases (2 ^ 24) (ms_len s)); auto. exfalso.
  cbn [neq num_f32] in G1. rewrite nint_f32 in G1.
  destruct (of_int_exact (ms_len s - 1)) as [Fo Vo]; [lia|].
  apply (feq_true_fin _ _ Fx Fo) in G1. rewrite Ix, Vo in G1. apply eq_IZR in G1. lia.
Qed.

Lemma ms_lerp_outside h s l x : covers h s l -> 1 <= ms_len s -> isnan x = false ->
  (ext x < 0 \/ IZR (ms_len s) <= ext x \/ (IZR (ms_len s - 1) < ext x))%R ->
  ms_lerp h s x = Ret (Err IndexOutOfBound).
Proof.
  intros C Hn Nx H. pose proof C as (Hl & Hm & _). pose proof (len_small _ _ _ C) as Hsm.
  assert (F0 : ext (nint 0 : f32) = 0%R).
  { rewrite nint_f32. destruct (of_int_exact 0) as [F0 V0]; [lia|]. now rewrite ext_fin. }
  assert (N0 : isnan (nint 0 : f32) = false) by reflexivity.
  destruct (nlt x (nint 0)) eqn:E0.
  { unfold ms_lerp. now rewrite E0. }
  cbn [nlt num_f32] in E0. apply flt_false in E0; auto. rewrite F0 in E0.
  assert (H' : (IZR (ms_len s - 1) < ext x)%R).
  { destruct H as [H|[H|H]]; try lra. eapply Rlt_le_trans; [|exact H]. apply IZR_lt. lia. }
  clear H.
  rewrite (ms_lerp_general h s l) by (auto; cbn [nlt num_f32]; rewrite flt_ext, F0 by auto; now apply Rlt_bool_false).
  destruct (neq x (nint (ms_len s - 1)) && nlt x (slack_end (ms_len s))) eqn:G.
  - exfalso. apply andb_true_iff in G as [G1 G2].
    destruct (guard_safe (ms_len s) x) as (Fx & _ & Ix & Tx); auto; try lia.
    rewrite (ext_fin _ Fx), Ix in H'. apply lt_IZR in H'. lia.
  - destruct (not_nan_cases x Nx) as [Fx|[-> | ->]].
    + rewrite (ext_fin _ Fx) in *.
      assert (Tge : ms_len s - 1 <= Ztrunc (val x)).
      { rewrite Ztrunc_floor by exact E0. apply Zfloor_lub. lra. }
      assert (Uge : ms_len s - 1 <= n_usize x).
      { unfold n_usize. cbn [ntrunc num_f32]. rewrite to_int_fin by exact Fx.
        rewrite usize_isize. lia. }
      rewrite (nthz_None l (n_usize x + 1)) by lia. destruct (nthz l (n_usize x)); reflexivity.
    + assert (U : n_usize f_inf = usize_max) by reflexivity. rewrite U.
      rewrite (nthz_None l (usize_max + 1)) by (rewrite usize_isize; lia).
      destruct (nthz l usize_max); reflexivity.
    + simpl in E0. pose proof big_pos. lra.
Qed.

Lemma ms_lerp_nan h s l x : covers h s l -> isnan x = true ->
  match l with
  | a :: b :: _ => exists r, ms_lerp h s x = Ret (Ok r) /\ isnan r = true
  | [_] => ms_lerp h s x = Ret (Err IndexOutOfBound)
  | [] => True
  end.
Proof.
  intros C Nx. destruct l as [|a l']; auto. pose proof C as (Hl & Hm & _).
  assert (Hn : 1 <= ms_len s) by (simpl in Hl; lia).
  assert (E0 : nlt x (nint 0) = false) by (apply flt_nan; auto).
  rewrite (ms_lerp_general h s _ x C Hn E0).
  assert (E1 : neq x (nint (ms_len s - 1)) = false) by (apply feq_nan; auto).
  rewrite E1. cbn [andb].
  assert (U : n_usize x = 0) by (destruct x; try discriminate Nx; reflexivity).
  rewrite U. cbn. destruct l' as [|b l'']; [reflexivity|].
  eexists. split; [reflexivity|]. unfold lerp_unchecked. cbn [nadd nmul nsub num_f32].
  apply fadd_nan. left. apply fmul_nan. right. apply fsub_nan. right. apply fsub_nan. auto.
Qed.

(** Wrapped lerp. *)
Lemma ms_lerp_wrapped_general h s l x : covers h s l -> 1 <= ms_len s ->
  let i := n_isize (m_floor x) in
  (ms_lerp_wrapped h s x = Panic /\ ovf_checks = true /\ i = isize_max) \/
  exists a b, nthz l (i mod ms_len s) = Some a /\
    nthz l ((if i =? isize_max then isize_min else i + 1) mod ms_len s) = Some b /\
    ms_lerp_wrapped h s x = Ret (lerp_unchecked a b (nsub x (nint i))).
Proof.
  intros C Hn i. pose proof (n_isize_range (m_floor x)) as Hi. fold i in Hi.
  unfold ms_lerp_wrapped. fold i.
  destruct (get_wrapped_ok h s l i C ltac:(lia) Hi) as (a & A1 & A2). rewrite A2. cbn [bind].
  destruct (Z.eqb_spec i isize_max) as [E|E].
  - unfold isize_add. rewrite E. destruct (Z.leb_spec (isize_max + 1) isize_max); [lia|].
    rewrite andb_false_r. destruct ovf_checks; [left; auto|]. right. cbn [bind].
    assert (W : as_isize (isize_max + 1) = isize_min).
    { unfold as_isize. rewrite isize_min_max.
      assert (E2 : 2 ^ (usize_bits - 1) = isize_max + 1) by (unfold isize_max; lia). rewrite E2.
      replace (isize_max + 1 + (isize_max + 1)) with (0 + 1 * usize_mod)
        by (rewrite usize_mod_max, usize_isize; lia).
      rewrite Z.mod_add by (rewrite usize_mod_max, usize_isize; pose proof isize_max_pos; lia).
      rewrite Z.mod_0_l by (rewrite usize_mod_max, usize_isize; pose proof isize_max_pos; lia). lia. }
    rewrite W.
    destruct (get_wrapped_ok h s l isize_min C ltac:(lia)) as (b & B1 & B2).
    { unfold is_isize. rewrite isize_min_max. pose proof isize_max_pos. lia. }
    exists a, b. rewrite B2, <- E. auto.
  - right. unfold is_isize in Hi. rewrite isize_add_ok by lia. cbn [bind].
    destruct (get_wrapped_ok h s l (i + 1) C ltac:(lia)) as (b & B1 & B2).
    { unfold is_isize. lia. }
    exists a, b. rewrite B2. auto.
Qed.

Lemma n_isize_fin x : fin x = true -> is_isize (Ztrunc (val x)) -> n_isize x = Ztrunc (val x).
Proof.
  intros F H. unfold n_isize. cbn [ntrunc num_f32]. rewrite to_int_fin by exact F.
  unfold is_isize in H. lia.
Qed.

Lemma pow2_lt_big e : (e < 128)%Z -> (pow2 e < big)%R.
Proof. intros H. now apply bpow_lt. Qed.

Lemma ms_lerp_wrapped_interp h s l x : floor_ok MO -> covers h s l -> 1 <= ms_len s ->
  fin x = true -> (Rabs (val x) < pow2 23)%R ->
  let i := Zfloor (val x) in is_isize i -> is_isize (i + 1) ->
  exists a b t, nthz l (i mod ms_len s) = Some a /\ nthz l ((i + 1) mod ms_len s) = Some b /\
    ms_lerp_wrapped h s x = Ret (lerp_unchecked a b t) /\
    fin t = true /\ val t = rnd (val x - IZR i) /\ (0 <= val t <= 1)%R.
Proof.
  intros Hf C Hn Fx Hx i Hi Hi1.
  destruct (Hf x Fx) as [Ff Vf].
  { eapply Rlt_trans; [exact Hx|]. apply bpow_lt. lia. }
  fold i in Vf.
  assert (Ui : n_isize (m_floor x) = i).
  { rewrite n_isize_fin, Vf, ?Ztrunc_IZR; auto. now rewrite Vf, Ztrunc_IZR. }
  assert (Bi : (Z.abs i <= 2 ^ 24)).
  { apply Rabs_lt_inv in Hx. change (pow2 23) with (IZR (2 ^ 23)) in Hx.
    pose proof (Zfloor_lb (val x)). pose proof (Zfloor_ub (val x)). fold i in H, H0.
    assert (i < 2 ^ 23) by (apply lt_IZR; lra).
    assert (- 2 ^ 23 - 1 < i).
    { apply lt_IZR. rewrite minus_IZR, opp_IZR. lra. }
    lia. }
  pose proof (ms_lerp_wrapped_general h s l x C Hn) as G. cbv zeta in G. rewrite Ui in G.
  unfold is_isize in Hi, Hi1.
  destruct G as [(_ & _ & G)|(a & b & A & Bb & G)]; [lia|].
  destruct (Z.eqb_spec i isize_max); [lia|].
  exists a, b, (fsub x (of_int i)).
  destruct (of_int_exact i Bi) as [Fo Vo].
  pose proof (Zfloor_lb (val x)). pose proof (Zfloor_ub (val x)). fold i in H, H0.
  destruct (fsub_bnd x (of_int i) 1 Fx Fo) as (F & V & Bt).
  { apply (repr_int 1). lia. } { apply (pow2_lt_big 0). lia. }
  { rewrite Vo. apply Rabs_le. lra. }
  rewrite Vo in V. repeat split; auto.
  - rewrite V. apply rnd_pos. lra.
  - apply Rabs_le_inv in Bt. lra.
Qed.
End Lerp.
