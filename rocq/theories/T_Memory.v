(** * Theorems: memory slices (C01-C12, C16). *)

From Coq Require Import ZArith List Bool Reals Lia Lra.
From Flocq Require Import Core.
From Verif Require Import Base F32 F32Lemmas F32Ints Num M_Memory S_Memory S_SliceHistory
  P_Memory P_Lerp P_Interp P_SliceHistory Examples.
Import ListNotations.
Open Scope Z_scope.

(** C01: the checked read returns the sample of the covered range, or the error. *)
Theorem C01_get_exact : forall (F : Type) (B : Build) (h : heap F) s l i,
  covers h s l -> is_usize i ->
  get h s i = Ret (match nthz l i with Some v => Ok v | None => Err IndexOutOfBound end).
Proof. intros F B h s l i C Hi. exact (get_spec h s l i C (proj1 Hi)). Qed.
Print Assumptions C01_get_exact.

Example C01_example : covers (B := dbg32) ex_heap ex_slice ex_list /\
  get ex_heap ex_slice 2 = Ret (Ok (of_int 3)) /\
  get ex_heap ex_slice 3 = Ret (Err IndexOutOfBound).
Proof. split; [apply ex_covers|split; reflexivity]. Qed.

(** C02: the checked write changes exactly the addressed cell, for every observer. *)
Theorem C02_assign_exact : forall (F : Type) (B : Build) (h : heap F) s l i v,
  covers h s l -> is_usize i ->
  if i <? ms_len s then
    exists h', assign h s i v = Ret (h', Ok tt) /\
      covers h' s (upd l (Z.to_nat i) v) /\
      (* every cell of every allocation *)
      (forall b o, cell h' b o = if match addr s i with
                                    | Some (b0, o0) => Nat.eqb b0 b && (o0 =? o)
                                    | None => false end then Some v else cell h b o) /\
      (* every other slice over the same memory *)
      (forall s2 l2, covers h s2 l2 -> exists l2', covers h' s2 l2' /\
         length l2' = length l2 /\
         forall j, 0 <= j < ms_len s2 ->
           nthz l2' j = if match addr s i, addr s2 j with
                           | Some (b0, o0), Some (b1, o1) => Nat.eqb b0 b1 && (o0 =? o1)
                           | _, _ => false end then Some v else nthz l2 j)
  else assign h s i v = Ret (h, Err IndexOutOfBound).
Proof. intros F B h s l i v C Hi. exact (assign_spec h s l i v C (proj1 Hi)). Qed.
Print Assumptions C02_assign_exact.

Example C02_example : exists h', assign ex_heap ex_slice 1 (of_int 8) = Ret (h', Ok tt) /\
  covers (B := dbg32) h' ex_slice [of_int 1; of_int 8; of_int 3] /\
  get h' (MS (PAt 0 2) 2) 0 = Ret (Ok (of_int 8)) /\
  cell h' 1 0 = Some (of_int 5).
Proof.
  eexists. split; [reflexivity|]. split; [|split; reflexivity].
  split; [reflexivity|]. split; [vm_compute; discriminate|].
  exists [of_int 7], [of_int 9]. split; reflexivity.
Qed.

(** C03: the wrapped read is the Euclidean modulo of the index. *)
Theorem C03_get_wrapped_modulo : forall (F : Type) (B : Build) (h : heap F) s l i,
  covers h s l -> is_isize i ->
  (0 < ms_len s -> exists v, nthz l (i mod ms_len s) = Some v /\ get_wrapped h s i = Ret v) /\
  (ms_len s = 0 -> get_wrapped h s i = Panic).
Proof.
  intros F B h s l i C Hi. split; intros H.
  - exact (get_wrapped_ok h s l i C H Hi).
  - exact (get_wrapped_0 h s l i C H).
Qed.
Print Assumptions C03_get_wrapped_modulo.

Example C03_example : is_isize (B := dbg32) (- 2 ^ 31) /\
  get_wrapped (B := dbg32) ex_heap ex_slice (- 2 ^ 31) = Ret (of_int 2) /\
  get_wrapped (B := dbg32) ex_heap null_slice 4 = Panic.
Proof. repeat split; vm_compute; congruence. Qed.

(** C04: an accepted sub-slice is an alias of the parent's cells. *)
Theorem C04_sub_slice_alias : forall (F : Type) (B : Build) (h : heap F) s l o n s',
  covers h s l -> is_usize o -> is_usize n -> o + n <= usize_max ->
  get_sub_slice h s o n = Ret (Ok s') ->
  ms_len s' = n /\ o + n <= ms_len s /\
  (forall (h2 : heap F) l2, covers h2 s l2 -> covers h2 s' (firstn (Z.to_nat n) (skipn (Z.to_nat o) l2))) /\
  (forall (h2 : heap F) l2 i, covers h2 s l2 -> 0 <= i < n -> get h2 s' i = get h2 s (o + i)) /\
  (forall (h2 : heap F) l2 i v, covers h2 s l2 -> 0 <= i < n -> assign h2 s' i v = assign h2 s (o + i) v).
Proof. exact @sub_alias. Qed.
Print Assumptions C04_sub_slice_alias.

Example C04_example : exists s', get_sub_slice (B := dbg32) ex_heap ex_slice 1 1 = Ret (Ok s') /\
  get ex_heap s' 0 = Ret (Ok (of_int 2)).
Proof. eexists. split; reflexivity. Qed.

(** C05: exactly which sub-slices are accepted; full-range and suffix ones are not. *)
Theorem C05_sub_slice_acceptance : forall (F : Type) (B : Build) (h : heap F) s l o n,
  covers h s l -> is_usize o -> is_usize n -> o + n <= usize_max ->
  (get_sub_slice h s o n = Ret (Err IndexOutOfBound) <-> ms_len s <= o) /\
  (get_sub_slice h s o n = Ret (Err LengthOutOfBound) <-> o < ms_len s <= o + n) /\
  ((exists s', get_sub_slice h s o n = Ret (Ok s')) <-> o + n < ms_len s).
Proof.
  intros F B h s l o n C Ho Hn Hov.
  destruct (get_sub_slice_spec h s l o n C (proj1 Ho) (proj1 Hn) Hov) as (S1 & S2 & S3).
  destruct Ho as [Ho _], Hn as [Hn _].
  assert (D : ms_len s <= o \/ o < ms_len s <= o + n \/ o + n < ms_len s) by lia.
  destruct D as [D|[D|D]].
  - rewrite (S1 D). repeat split; intros; try congruence; try lia. destruct H; congruence.
  - rewrite (S2 D). repeat split; intros; try congruence; try lia. destruct H; congruence.
  - destruct (S3 D) as (s' & E & _). rewrite E. repeat split; intros; try congruence; try lia. eauto.
Qed.
Print Assumptions C05_sub_slice_acceptance.

(** The in-range suffix (here the whole slice) is refused. *)
Corollary C05_whole_slice_refused : forall (F : Type) (B : Build) (h : heap F) s l o,
  covers h s l -> 0 <= o < ms_len s ->
  get_sub_slice h s o (ms_len s - o) = Ret (Err LengthOutOfBound).
Proof.
  intros F B h s l o C Ho. pose proof (covers_len h s l C). pose proof usize_isize.
  apply (C05_sub_slice_acceptance F B h s l); auto; unfold is_usize; lia.
Qed.
Print Assumptions C05_whole_slice_refused.

Example C05_example :
  get_sub_slice (B := dbg32) ex_heap ex_slice 0 3 = Ret (Err LengthOutOfBound) /\
  get_sub_slice (B := dbg32) ex_heap ex_slice 0 2 = Ret (Ok (MS (PAt 0 1) 2)).
Proof. split; reflexivity. Qed.

(** C06: when offset + length overflows: a panic with overflow checks; without them
    safe code gets a slice longer than its parent and then reads out of bounds. *)
Theorem C06_sub_slice_overflow_checked : forall (F : Type) (B : Build) (h : heap F) s l o n,
  covers h s l -> ovf_checks = true -> 0 <= o < ms_len s -> is_usize n -> usize_max < o + n ->
  get_sub_slice h s o n = Panic.
Proof. intros F B h s l o n C Hc Ho _ Hov. exact (sub_overflow_checks h s l o n C Ho Hov Hc). Qed.
Print Assumptions C06_sub_slice_overflow_checked.

Theorem C06_sub_slice_in_bounds_refuted : forall (F : Type) (B : Build) (h : heap F) s l,
  covers h s l -> heap_ok h -> 2 <= ms_len s -> ovf_checks = false ->
  exists o n s' i, 0 <= o < ms_len s /\ is_usize n /\ is_usize i /\
    get_sub_slice h s o n = Ret (Ok s') /\ ms_len s' = n /\ ms_len s < n /\
    get h s' i = UB.
Proof. exact @sub_overflow_ub. Qed.
Print Assumptions C06_sub_slice_in_bounds_refuted.

Example C06_example :
  get_sub_slice (B := rel32) ex_heap ex_slice 1 (2 ^ 32 - 1) = Ret (Ok (MS (PAt 0 2) (2 ^ 32 - 1))) /\
  get ex_heap (MS (PAt 0 2) (2 ^ 32 - 1)) 3 = UB /\
  get_sub_slice (B := dbg32) ex_heap ex_slice 1 (2 ^ 32 - 1) = Panic /\
  heap_ok (B := rel32) ex_heap.
Proof. split; [reflexivity|]. split; [reflexivity|]. split; [reflexivity|]. apply ex_heap_ok. Qed.

(** C07: the checked lerp never leaves the slice, for every length and every f32. *)
Theorem C07_lerp_in_bounds : forall (NP : NanPolicy) (B : Build) (h : heap f32) s l (x : f32),
  covers h s l ->
  (1 <= ms_len s ->
     ms_lerp h s x = Ret (Err IndexOutOfBound) \/ exists v, ms_lerp h s x = Ret (Ok v)) /\
  (ms_len s = 0 ->
     ms_lerp h s x = if flt x (of_int 0) then Ret (Err IndexOutOfBound)
                     else if ovf_checks then Panic else Ret (Err IndexOutOfBound)) /\
  (isnan x = true -> 2 <= ms_len s -> exists r, ms_lerp h s x = Ret (Ok r) /\ isnan r = true).
Proof.
  intros NP B h s l x C. split; [|split].
  - exact (ms_lerp_safe h s l x C).
  - exact (ms_lerp_empty h s l x C).
  - intros N H2. pose proof (ms_lerp_nan h s l x C N) as R. destruct C as [Hl _].
    destruct l as [|a [|b l]]; cbn in Hl; try lia. exact R.
Qed.
Print Assumptions C07_lerp_in_bounds.

Example C07_example (NP : NanPolicy) :
  orbits (ms_lerp (B := dbg32) ex_heap ex_slice f_inf) = Ret (Err IndexOutOfBound) /\
  orbits (ms_lerp (B := dbg32) ex_heap ex_slice (of_int 2)) = Ret (Ok (to_bits (of_int 3))) /\
  orbits (ms_lerp (B := dbg32) ex_heap null_slice (of_int 0)) = Panic.
Proof. repeat split; vm_compute; reflexivity. Qed.

(** C08: reading exactly the last sample works iff the slice has at most 32 samples. *)
Theorem C08_lerp_last_sample_refuted : forall (NP : NanPolicy) (B : Build) (h : heap f32) s l v,
  covers h s l -> 1 <= ms_len s <= 2 ^ 24 -> nthz l (ms_len s - 1) = Some v ->
  ms_lerp h s (of_int (ms_len s - 1)) =
    Ret (if ms_len s <=? 32 then Ok v else Err IndexOutOfBound).
Proof. exact @ms_lerp_last. Qed.
Print Assumptions C08_lerp_last_sample_refuted.

Example C08_example (NP : NanPolicy) :
  let h := [repeat (of_int 4) 40] in
  orbits (ms_lerp (B := dbg32) h (MS (PAt 0 0) 32) (of_int 31)) = Ret (Ok (to_bits (of_int 4))) /\
  orbits (ms_lerp (B := dbg32) h (MS (PAt 0 0) 33) (of_int 32)) = Ret (Err IndexOutOfBound).
Proof. split; vm_compute; reflexivity. Qed.

(** C09: inside, the checked lerp is the f32 interpolation of the two neighbours with
    the exact fraction; outside it is the error. Above 2^24 samples an integral
    position may return the sample itself without interpolating. *)
Theorem C09_lerp_neighbours : forall (NP : NanPolicy) (B : Build) (h : heap f32) s l (x a b : f32),
  covers h s l -> fin x = true -> (0 <= val x)%R ->
  let k := Zfloor (val x) in
  nthz l k = Some a -> nthz l (k + 1) = Some b ->
  exists t : f32, fin t = true /\ val t = (val x - IZR k)%R /\ (0 <= val t < 1)%R /\
    (ms_lerp h s x = Ret (Ok (interpolation a b t)) \/
     (2 ^ 24 < ms_len s /\ val t = 0%R /\ ms_lerp h s x = Ret (Ok a))).
Proof. exact @ms_lerp_interior. Qed.
Print Assumptions C09_lerp_neighbours.

Theorem C09_lerp_outside : forall (NP : NanPolicy) (B : Build) (h : heap f32) s l (x : f32),
  covers h s l -> 1 <= ms_len s -> fin x = true ->
  (val x < 0 \/ IZR (ms_len s - 1) < val x)%R ->
  ms_lerp h s x = Ret (Err IndexOutOfBound).
Proof.
  intros NP B h s l x C Hn Fx H. apply (ms_lerp_outside h s l x C Hn (fin_notnan _ Fx)).
  rewrite (ext_fin _ Fx). tauto.
Qed.
Print Assumptions C09_lerp_outside.

(** A slice of more than 2^24 samples is not needed for the example. *)
Example C09_example (NP : NanPolicy) :
  orbits (ms_lerp (B := dbg32) ex_heap ex_slice (lit 3 (-1))) = Ret (Ok (to_bits (lit 5 (-1)))) /\
  orbits (ms_lerp (B := dbg32) ex_heap ex_slice (lit 5 (-1))) = Ret (Err IndexOutOfBound).
Proof. split; vm_compute; reflexivity. Qed.

(** C10: the wrapped lerp never reads outside (any floor routine, any f32; it can
    only panic on index overflow), and interpolates the two wrapped neighbours. *)
Theorem C10_lerp_wrapped_in_bounds : forall (NP : NanPolicy) (MO : MathOps f32) (B : Build)
    (h : heap f32) s l (x : f32),
  covers h s l -> 1 <= ms_len s ->
  let i := to_isize (m_floor x) in
  (ms_lerp_wrapped h s x = Panic /\ ovf_checks = true /\ i = isize_max) \/
  exists a b, nthz l (i mod ms_len s) = Some a /\
    nthz l ((if i =? isize_max then isize_min else i + 1) mod ms_len s) = Some b /\
    ms_lerp_wrapped h s x = Ret (interpolation a b (fsub x (of_int i))).
Proof. exact @ms_lerp_wrapped_general. Qed.
Print Assumptions C10_lerp_wrapped_in_bounds.

Theorem C10_lerp_wrapped_neighbours : forall (NP : NanPolicy) (MO : MathOps f32) (B : Build)
    (h : heap f32) s l (x : f32),
  floor_ok MO -> covers h s l -> 1 <= ms_len s ->
  fin x = true -> (Rabs (val x) < pow2 23)%R ->
  let i := Zfloor (val x) in is_isize i -> is_isize (i + 1) ->
  exists a b t, nthz l (i mod ms_len s) = Some a /\ nthz l ((i + 1) mod ms_len s) = Some b /\
    ms_lerp_wrapped h s x = Ret (interpolation a b t) /\
    fin t = true /\ val t = rnd (val x - IZR i) /\ (0 <= val t <= 1)%R.
Proof. exact @ms_lerp_wrapped_interp. Qed.
Print Assumptions C10_lerp_wrapped_neighbours.

(** At an integer position with finite neighbours the result is the sample itself. *)
Theorem C10_integer_position : forall (NP : NanPolicy) (MO : MathOps f32) (B : Build)
    (h : heap f32) s l (x a b : f32) (i : Z),
  floor_ok MO -> covers h s l -> 1 <= ms_len s -> is_isize i -> is_isize (i + 1) ->
  fin x = true -> (Rabs (val x) < pow2 23)%R -> val x = IZR i ->
  nthz l (i mod ms_len s) = Some a -> nthz l ((i + 1) mod ms_len s) = Some b -> fin a = true -> fin b = true ->
  exists v, ms_lerp_wrapped h s x = Ret v /\ fin v = true /\ val v = val a.
Proof.
  intros NP MO B h s l x a b i Hf C Hn Hi Hi1 Fx Bx Vx Ha Hb Fa Fb.
  assert (Z : Zfloor (val x) = i) by (rewrite Vx; apply Zfloor_IZR).
  destruct (C10_lerp_wrapped_neighbours NP MO B h s l x Hf C Hn Fx Bx) as (a' & b' & t & Ha' & Hb' & E & Ft & Vt & _); rewrite ?Z in *; auto.
  rewrite Ha in Ha'. injection Ha' as <-. rewrite Hb in Hb'. injection Hb' as <-.
  rewrite Vx, Rminus_eq_0, rnd_0 in Vt. exists (interpolation a b t). split; [exact E|].
  assert (U : unit_range t) by (split; [exact Ft|rewrite Vt; lra]). change (interpolation a b t) with (lerp_unchecked a b t).
  split; [apply (lerp_exact_form a b t Fa Fb U)|]. now apply lerp_at_0.
Qed.
Print Assumptions C10_integer_position.

Example C10_example (NP : NanPolicy) : floor_ok ref_math /\
  obits (ms_lerp_wrapped (MO := ref_math) (B := dbg32) ex_heap ex_slice (lit (-1) (-1))) =
    Ret (to_bits (of_int 2)) /\
  obits (ms_lerp_wrapped (MO := ref_math) (B := dbg32) ex_heap ex_slice (of_int (-2))) =
    Ret (to_bits (of_int 2)).
Proof. split; [apply ref_floor_ok | split; vm_compute; reflexivity]. Qed.

(** C11: the four-sample window. *)
Theorem C11_four_samples : forall (F : Type) (B : Build) (h : heap F) s l i,
  covers h s l -> 0 < ms_len s -> isize_min <= i <= isize_max - 3 ->
  exists a b c d,
    nthz l (i mod ms_len s) = Some a /\ nthz l ((i + 1) mod ms_len s) = Some b /\
    nthz l ((i + 2) mod ms_len s) = Some c /\ nthz l ((i + 3) mod ms_len s) = Some d /\
    get_slice_of_four_wrapped h s i = Ret (a, b, c, d).
Proof. exact @four_ok. Qed.
Print Assumptions C11_four_samples.

Example C11_example : get_slice_of_four_wrapped (B := dbg32) ex_heap ex_slice (-1)
  = Ret (of_int 3, of_int 1, of_int 2, of_int 3).
Proof. reflexivity. Qed.

(** C12: at the three largest indices it panics or leaves the allocation. *)
Theorem C12_four_samples_overflow_refuted : forall (F : Type) (B : Build) (h : heap F) s l i,
  covers h s l -> heap_ok h -> isize_max - 3 < i <= isize_max ->
  get_slice_of_four_wrapped h s i = if ovf_checks then Panic else UB.
Proof. exact @four_overflow. Qed.
Print Assumptions C12_four_samples_overflow_refuted.

Example C12_example :
  get_slice_of_four_wrapped (B := rel32) ex_heap ex_slice (2 ^ 31 - 1) = UB /\
  get_slice_of_four_wrapped (B := dbg32) ex_heap ex_slice (2 ^ 31 - 1) = Panic /\
  covers (B := rel32) ex_heap ex_slice ex_list /\ heap_ok (B := rel32) ex_heap.
Proof. split; [reflexivity|]. split; [reflexivity|]. split; [apply ex_covers|apply ex_heap_ok]. Qed.

(** C16: any history of safe calls on a pool of valid slices stays inside memory and
    shows exactly what the plain-array model shows. *)
Theorem C16_any_history : forall (NP : NanPolicy) (MO : MathOps f32) (B : Build)
    (h : heap f32) (pool : list mslice) (views : list view) (ops : list (slice_op f32)),
  Forall2 (fun s w => slice_view s w /\ exists l, covers h s l) pool views ->
  Forall args_ok ops ->
  match hist_run (h, pool) ops with
  | UB => False
  | Panic => True
  | Ret (h', pool', os) =>
      let '(m', views', os') := array_run (memory_of h, views) ops in
      os = os' /\ (forall b o, cell h' b o = m' b o) /\
      Forall2 (fun s w => slice_view s w /\ exists l, covers h' s l) pool' views'
  end.
Proof.
  intros NP MO B h pool views ops Hp Ha.
  pose proof (hist_run_ok ops (h, pool) (memory_of h, views) (conj (fun _ _ => eq_refl) Hp) Ha) as R.
  destruct (hist_run (h, pool) ops) as [[[h' pool'] os]| |]; auto.
  destruct (array_run (memory_of h, views) ops) as [[m' views'] os'].
  destruct R as [-> [R1 R2]]. auto.
Qed.
Print Assumptions C16_any_history.

(** ... and a single call panics only on an empty slice or at the end of the index range. *)
Theorem C16_panic_only_when : forall (NP : NanPolicy) (MO : MathOps f32) (B : Build)
    (h : heap f32) (pool : list mslice) (views : list view) (op : slice_op f32),
  Forall2 (fun s w => slice_view s w /\ exists l, covers h s l) pool views ->
  args_ok op -> hist_step (h, pool) op = Panic -> may_panic pool op.
Proof.
  intros NP MO B h pool views op Hp Ha E.
  exact (hist_step_panic (h, pool) (memory_of h, views) op (conj (fun _ _ => eq_refl) Hp) Ha E).
Qed.
Print Assumptions C16_panic_only_when.

Example C16_example (NP : NanPolicy) :
  let ops := [OSub 0 1 1; OAssign 1 0 (of_int 8); OGet 0 1; OGetWrapped 0 (-2); OFour 0 7] in
  Forall2 (fun s w => slice_view s w /\ exists l, covers (B := dbg32) ex_heap s l)
    [ex_slice] [(0%nat, 1, 3)] /\
  Forall (args_ok (F := f32) (B := dbg32)) ops /\
  hist_bits (hist_run (MO := ref_math) (B := dbg32) (ex_heap, [ex_slice]) ops) =
    let b z := Some (to_bits (of_int z)) in
    Ret [[]; []; [b 8]; [b 8]; [b 8; b 3; b 1; b 8]].
Proof.
  cbv zeta. split; [|split].
  - constructor; [|constructor]. split; [repeat split|]. exists ex_list. apply ex_covers.
  - repeat constructor; vm_compute; congruence.
  - vm_compute. reflexivity.
Qed.
