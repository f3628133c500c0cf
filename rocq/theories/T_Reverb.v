(** * Theorems: how fast a network of processors dies away once its input stops (C118). *)

From Coq Require Import ZArith List Bool Reals Lia Lra Psatz.
From Flocq Require Import Core.
From Verif Require Import Base F32 F32Lemmas F32Exact F32Range Num M_Memory M_Delay M_Biquad S_Memory S_Delay S_Biquad S_BiquadF32 S_Comb S_Rack S_Network S_NetworkF32 S_NetworkAcc S_Reverb
  P_DelayNum P_Comb P_NetworkLin P_NetworkAcc P_NetworkTail P_Reverb T_BiquadF32 T_Network T_NetworkAcc.
Import ListNotations.
Local Open Scope R_scope.

Lemma then_silence (xs : list R) k : map (fun i => nth i xs 0) (seq 0 (length xs + S k)) = xs ++ repeat 0 (S k).
Proof.
  apply nth_ext with 0 (nth (length (xs ++ repeat 0 (S k))) xs 0).
  - now rewrite map_length, seq_length, app_length, repeat_length.
  - intros i Hi. rewrite map_length, seq_length in Hi.
    rewrite (nth_indep (map _ _) 0 (nth 0 xs 0)) by (rewrite map_length, seq_length; exact Hi).
    rewrite (map_nth (fun i => nth i xs 0)), seq_nth by exact Hi. cbn [Nat.add].
    destruct (Nat.lt_ge_cases i (length xs)) as [L|L].
    + rewrite app_nth1 by exact L. now apply nth_indep.
    + rewrite (nth_overflow xs) by exact L. rewrite app_nth2 by exact L.
      rewrite (nth_indep _ _ 0) by (rewrite repeat_length; lia). symmetry. apply nth_repeat.
Qed.

(** In exact arithmetic: any inputs within [M], then silence; the output falls by [rho] every sample. *)
Theorem C118_network_falls : forall (B : Build) (h : heap R) n p ss (xs : list R) (rho M L : R) (k : nat),
  fresh h n p ss -> apart ss -> 0 < rho <= 1 -> falls rho p M L -> 0 <= M -> Forall (fun x => Rabs x <= M) xs ->
  exists h' n' ys, net_run h n (xs ++ repeat 0 (S k)) = Ret (h', n', ys) /\ length ys = (length xs + S k)%nat /\
    Rabs (last ys 0) <= L * rho ^ k.
Proof.
  intros B h n p ss xs rho M L k FR HA Hr HF PM Hx.
  destruct (C111_network_is_composition R _ B h n p ss (xs ++ repeat 0 (S k)) FR HA) as (h' & n' & E & _).
  exists h', n'. eexists. split; [exact E|]. rewrite <- then_silence, signal_stream, map_length, seq_length. split; [reflexivity|].
  rewrite Nat.add_succ_r, last_map_seq. cbn [Nat.add].
  replace (rho ^ k) with (w rho (length xs) (length xs + k)) by (unfold w; f_equal; lia).
  apply (falls_sound rho (length xs) Hr p M L HF). intros i. unfold w.
  destruct (Nat.lt_ge_cases i (length xs)) as [Li|Li].
  - replace (i - length xs)%nat with 0%nat by lia. cbn [pow]. rewrite Rmult_1_r. rewrite Forall_forall in Hx. apply Hx, nth_In, Li.
  - rewrite nth_overflow by exact Li. rewrite Rabs_R0. apply Rmult_le_pos; [exact PM|apply pow_le; lra].
Qed.
Print Assumptions C118_network_falls.

(** Every network of stable parts has such a rate below 1, the same for every input level. *)
Theorem C118_stable_networks_fall : forall p : plan R, stable p ->
  exists rho, 0 < rho < 1 /\ forall M, 0 <= M -> exists L, 0 <= L /\ falls rho p M L.
Proof.
  intros p H. destruct (stable_rate p H) as (r & Hr & HR). exists r. split; [exact Hr|]. intros M PM. apply HR; [lra|exact PM].
Qed.
Print Assumptions C118_stable_networks_fall.

(** The same for the running program: one rate for the network, one level for each level of the input, for every
    input and every length of the silence. *)
Theorem C118_stable_runs_fall : forall (B : Build) (h : heap R) n p ss, fresh h n p ss -> apart ss -> stable p ->
  exists rho, 0 < rho < 1 /\ forall M, 0 <= M -> exists L, forall (xs : list R) (k : nat), Forall (fun x => Rabs x <= M) xs ->
  exists h' n' ys, net_run h n (xs ++ repeat 0 (S k)) = Ret (h', n', ys) /\ length ys = (length xs + S k)%nat /\
    Rabs (last ys 0) <= L * rho ^ k.
Proof.
  intros B h n p ss FR HA ST. destruct (C118_stable_networks_fall p ST) as (rho & Hr & HL). exists rho. split; [exact Hr|].
  intros M PM. destruct (HL M PM) as (L & _ & HF). exists L. intros xs k Hx.
  exact (C118_network_falls B h n p ss xs rho M L k FR HA ltac:(lra) HF PM Hx).
Qed.
Print Assumptions C118_stable_runs_fall.

(** In f32 the output falls in the same way, down to the accuracy of the arithmetic (C111). *)
Theorem C118_f32_network_falls : forall (NP : NanPolicy) (B : Build) (h : heap f32) n p ss (xs : list f32) e e' E G (rho L : R) (k : nat),
  fresh h n p ss -> apart ss -> level p e e' -> accuracy p e E G -> 0 < rho <= 1 -> falls rho (exact_plan p) (pow2 e) L ->
  Forall (bounded (pow2 e)) xs ->
  exists h' n' ys, net_run h n (xs ++ repeat (of_int 0) (S k)) = Ret (h', n', ys) /\
    fin (last ys (of_int 0)) = true /\ Rabs (val (last ys (of_int 0))) <= L * rho ^ k + E.
Proof.
  intros NP B h n p ss xs e e' E G rho L k FR HA LV AC Hr HF Hx. destruct (of_int_exact 0 ltac:(lia)) as [F0 V0].
  set (all := xs ++ repeat (of_int 0) (S k)).
  assert (Hall : Forall (bounded (pow2 e)) all).
  { apply Forall_app. split; [exact Hx|]. apply Forall_forall. intros y Hy. apply repeat_spec in Hy. subst y. split; [exact F0|]. rewrite V0, Rabs_R0. apply bpow_ge_0. }
  destruct (C111_network_is_composition f32 _ B h n p ss all FR HA) as (h' & n' & Er & _).
  exists h', n'. eexists. split; [exact Er|].
  pose proof (level_signal p e e' LV all Hall) as LS. pose proof (acc_sound p e E G AC all Hall) as CL.
  assert (EA : map val all = map val xs ++ repeat 0 (S k)).
  { unfold all. rewrite map_app. f_equal. clear - V0. induction (S k) as [|j IH]; [reflexivity|]. cbn [repeat map]. now rewrite V0, IH. }
  rewrite EA, <- then_silence, signal_stream in CL. rewrite map_length in CL.
  set (ys := signal p all) in *. clearbody ys.
  assert (Ln : ys <> []).
  { intros Z. rewrite Z, Nat.add_succ_r in CL. inversion CL. }
  assert (LY : fin (last ys (of_int 0)) = true).
  { rewrite Forall_forall in LS. apply LS. destruct (exists_last Ln) as (u & v & ->). rewrite last_last. apply in_or_app. right. now left. }
  split; [exact LY|].
  assert (LD : forall us vs, close E us vs -> us <> [] -> Rabs (last us 0 - last vs 0) <= E).
  { induction 1 as [|u v us vs H1 H2 IH]; intros Nn; [congruence|]. destruct H2 as [|u' v' us vs H3 H4]; [exact H1|]. apply IH. discriminate. }
  pose proof (LD _ _ CL) as D.
  assert (LM : last (map val ys) 0 = val (last ys (of_int 0))).
  { rewrite <- V0. clear. induction ys as [|y ys IH]; [reflexivity|]. destruct ys as [|z ys]; [reflexivity|]. exact IH. }
  rewrite LM in D. specialize (D ltac:(destruct ys; [congruence|discriminate])).
  rewrite Nat.add_succ_r, last_map_seq in D. cbn [Nat.add] in D.
  assert (FS : Rabs (stream (exact_plan p) (fun i => nth i (map val xs) 0) (length xs + k)) <= L * rho ^ k).
  { replace (rho ^ k) with (w rho (length xs) (length xs + k)) by (unfold w; f_equal; lia).
    apply (falls_sound rho (length xs) Hr _ _ _ HF). intros i. unfold w.
    destruct (Nat.lt_ge_cases i (length xs)) as [Li|Li].
    - replace (i - length xs)%nat with 0%nat by lia. cbn [pow]. rewrite Rmult_1_r. rewrite <- V0, map_nth. rewrite Forall_forall in Hx. apply Hx, nth_In, Li.
    - rewrite nth_overflow by (rewrite map_length; exact Li). rewrite Rabs_R0. apply Rmult_le_pos; [apply bpow_ge_0|apply pow_le; lra]. }
  set (a := val (last ys (of_int 0))) in *. set (b := stream _ _ _) in *. replace a with ((a - b) + b) by ring. eapply Rle_trans; [apply Rabs_triang|]. lra.
Qed.
Print Assumptions C118_f32_network_falls.

(** ** The theorems are about networks that exist *)

(** Two combs and an all-pass: a rate and a level in numbers. One thousand samples into the silence the output of the
    room is below 10^-40. *)
Definition hall : plan R := PSeries (PMix (PComb (zeros 3) (1 / 4) (1 / 2)) (PComb (zeros 4) (1 / 4) (1 / 2))) (PPass (zeros 2)).

Lemma zeros_within n b : 0 <= b -> Forall (fun v => Rabs v <= b) (zeros n : list R).
Proof.
  intros Hb. apply Forall_forall. intros v Hv. unfold zeros in Hv. apply repeat_spec in Hv. subst v. rewrite nint_0, Rabs_R0. exact Hb.
Qed.

Example C118_hall : falls (9 / 10) hall 1 68.
Proof.
  unfold hall. apply falls_series with 16.
  - apply falls_mix with (B := 8) (C := 8); [| |lra].
    + apply falls_comb with (T := 84 / 10); try lra; [discriminate| |apply zeros_within; cbn; lra].
      rewrite Rabs_pos_eq by lra. cbn. lra.
    + apply falls_comb with (T := 84 / 10); try lra; [discriminate| |apply zeros_within; cbn; lra].
      rewrite Rabs_pos_eq by lra. cbn. lra.
  - apply falls_pass with (V := 52); [discriminate|cbn; lra|apply zeros_within; cbn; lra|lra].
Qed.

Example C118_hall_silent : 68 * (9 / 10) ^ 1000 <= / 10 ^ 40.
Proof.
  replace 1000%nat with (22 * 45 + 10)%nat by reflexivity. rewrite pow_add, pow_mult.
  assert (H : (9 / 10) ^ 22 <= / 10) by lra. assert (P : 0 <= (9 / 10) ^ 22) by (apply pow_le; lra).
  pose proof (pow_incr _ _ 45 (conj P H)) as Q. assert (R : (9 / 10) ^ 10 <= 1) by lra. assert (R0 : 0 <= (9 / 10) ^ 10) by (apply pow_le; lra).
  assert (Z : 0 <= ((9 / 10) ^ 22) ^ 45) by (apply pow_le; exact P).
  set (u := ((9 / 10) ^ 22) ^ 45) in *. set (v := (9 / 10) ^ 10) in *. clearbody u v.
  assert (u * v <= (/ 10) ^ 45 * 1) by (apply Rmult_le_compat; assumption).
  assert (I : / 10 ^ 40 = (/ 10) ^ 40) by (now rewrite pow_inv). rewrite I. change 45%nat with (40 + 5)%nat in H0. rewrite pow_add in H0.
  assert (0 < (/ 10) ^ 40) by (apply pow_lt; lra). set (t := (/ 10) ^ 40) in *. clearbody t. lra.
Qed.

Lemma room_stable : stable (room_plan (F := R)).
Proof.
  assert (C : forall n, stable (PComb (zeros (S n)) room_damp room_feedback)).
  { intros n. apply stable_comb; [discriminate| |]; unfold room_damp, room_feedback; cbn [ndy num_R].
    - cbn. lra. - rewrite Rabs_pos_eq; cbn; lra. }
  unfold room_plan. apply stable_series; [apply stable_series; [apply stable_mix; apply C|apply stable_pass; discriminate]|].
  apply stable_series; [|apply stable_scale]. apply stable_filter. unfold poles_inside, room_coeffs. cbn [a1 a2 ndy num_R].
  replace (IZR (-1859) * bpow radix2 (-10)) with (- 1859 / 1024) by (cbn; lra). replace (IZR 851 * bpow radix2 (-10)) with (851 / 1024) by (cbn; lra).
  intros u v H1 H2. assert (H3 : v * (2 * u - 1859 / 1024) = 0) by lra. destruct (Rmult_integral _ _ H3) as [->|H4].
  - assert (0 <= (u - 1859 / 2048) * (u - 1859 / 2048)) by apply Rle_0_sqr. nra.
  - assert (E : u = 1859 / 2048) by lra. subst u. lra.
Qed.

Lemma room_exact (NP : NanPolicy) : exact_plan (room_plan (F := f32)) = room_plan (F := R).
Proof.
  destruct (of_int_exact 0 ltac:(lia)) as [F0 V0].
  destruct (lit_exact 1 (-2) ltac:(lia) ltac:(lia)) as [Fd Vd]. destruct (lit_exact 1 (-1) ltac:(lia) ltac:(lia)) as [Ff Vf]. destruct (lit_exact 1 (-4) ltac:(lia) ltac:(lia)) as [Fg Vg].
  destruct (lit_exact 1 (-8) ltac:(lia) ltac:(lia)) as [_ W0]. destruct (lit_exact 2 (-8) ltac:(lia) ltac:(lia)) as [_ W1].
  destruct (lit_exact (-1859) (-10) ltac:(lia) ltac:(lia)) as [_ Wa]. destruct (lit_exact 851 (-10) ltac:(lia) ltac:(lia)) as [_ Wb].
  unfold room_plan. cbn [exact_plan].
  assert (Z : forall k, map val (zeros k : list f32) = zeros k).
  { intros k. unfold zeros. induction k as [|k IH]; cbn [repeat map]; [reflexivity|]. rewrite IH. f_equal. change (val (of_int 0) = nint 0). rewrite V0. now rewrite nint_0. }
  rewrite !Z. unfold room_damp, room_feedback, room_coeffs, exact_coeffs. cbn [b0 b1 b2 a1 a2]. change (@ndy f32 _) with lit. rewrite Vd, Vf, Vg, W0, W1, Wa, Wb. reflexivity.
Qed.

(** The room of C111 in f32: it dies away down to 1/100 of full level, at least. *)
Example C118_met (NP : NanPolicy) (B : Build) :
  exists rho L, 0 < rho < 1 /\ forall (xs : list f32) k, Forall (bounded 1) xs ->
  exists h' n' ys, net_run (room_heap (F := f32)) room (xs ++ repeat (of_int 0) (S k)) = Ret (h', n', ys) /\
    Rabs (val (last ys (of_int 0))) <= L * rho ^ k + 1 / 100.
Proof.
  destruct (C111_tracks_met NP B) as (_ & E & G & AC & HE & _). destruct (C111_met f32 _ B) as [FR AP].
  destruct (C118_stable_networks_fall _ room_stable) as (rho & Hr & HL). destruct (HL (pow2 0) (bpow_ge_0 _ _)) as (L & _ & HF).
  exists rho, L. split; [exact Hr|]. intros xs k Hx. rewrite <- (room_exact NP) in HF.
  destruct (C118_f32_network_falls NP B _ _ _ _ xs 0 9 E G rho L k FR AP (C111_level_met NP) AC ltac:(lra) HF Hx) as (h' & n' & ys & H1 & _ & H3).
  exists h', n', ys. split; [exact H1|]. lra.
Qed.
