(** * T_Mse: property C126 (Distance is the mean squared difference of the
    signals, for every wavelet and size). *)
Require Import List Bool Arith ZArith QArith Qreals Reals Lra Lia Psatz.
Require Import Flocq.Core.Core Flocq.IEEE754.BinarySingleNaN.
Require Import Verif.M_Base Verif.M_Params Verif.M_Buffer Verif.M_Real Verif.M_Float Verif.M_Binary32 Verif.M_Metrics Verif.M_MetricsF.
Require Import Verif.S_Params Verif.S_Buffer Verif.S_Exact Verif.S_Metrics Verif.S_MetricsF Verif.S_Round Verif.S_Stable Verif.S_Mse.
Require Import Verif.P_Params Verif.P_Impl Verif.P_Api Verif.P_Stable2 Verif.P_Round3 Verif.P_Float Verif.P_Binary32 Verif.P_Bin2 Verif.P_Acc2 Verif.P_Mse Verif.P_Mse2.
Import ListNotations.
Open Scope R_scope.

Local Ltac consts :=
  replace (/ 2 ^ 24) with u32 by (unfold u32; rewrite (pow_IZR 2 24); reflexivity);
  replace (/ 2 ^ 150) with eta32 by (unfold eta32; rewrite (pow_IZR 2 150); reflexivity).

(** ** exact arithmetic *)
(** Two signals decomposed into two buffers of the same parameters: the root of
    Distance is, to seven parts in 10^8, the root of the mean squared
    difference of the signals. *)
Theorem C126_exact p (b1 b2 : buffer R) d1 d2 b1' b2' : accepted p -> small_shape p -> reachable p b1 -> reachable p b2 ->
  Z.of_nat (length d1) = signum p -> Z.of_nat (length d2) = signum p ->
  Forall (shaped p) d1 -> Forall (shaped p) d2 ->
  decompose b1 d1 null_denoiser = Ok (true, b1') -> decompose b2 d2 null_denoiser = Ok (true, b2') ->
  let rms := sqrt (signal_gap p d1 d2 / IZR (samples p)) in
  exists D, distance b1' b2' = Ok (Num D) /\ 0 <= D /\ Rabs (sqrt D - rms) <= 7 / 10 ^ 8 * rms.
Proof. exact (fun HA => distance_mean_squared p HA b1 b2 d1 d2 b1' b2'). Qed.
Print Assumptions C126_exact.

(** The same with the error of the filter tables. *)
Theorem C126_exact_gain p (b1 b2 : buffer R) d1 d2 b1' b2' : accepted p -> small_shape p -> reachable p b1 -> reachable p b2 ->
  Z.of_nat (length d1) = signum p -> Z.of_nat (length d2) = signum p ->
  Forall (shaped p) d1 -> Forall (shaped p) d2 ->
  decompose b1 d1 null_denoiser = Ok (true, b1') -> decompose b2 d2 null_denoiser = Ok (true, b2') ->
  let rms := sqrt (signal_gap p d1 d2 / IZR (samples p)) in
  exists D, distance b1' b2' = Ok (Num D) /\ 0 <= D /\
    sqrt D <= gain_exact p * rms /\ (1 - rel_err p) * rms <= gain_exact p * sqrt D.
Proof. exact (fun HA => distance_rms p HA b1 b2 d1 d2 b1' b2'). Qed.
Print Assumptions C126_exact_gain.

(** ** single precision *)
(** Distance returns, up to the rounding of its sums (C104), the square of a
    number within [dev] of the root of the mean squared difference: *)
Theorem C126_binary32 p sum square (b1 b2 : buffer f32) (d1 d2 : list (mat f32)) b1' b2' N :
  accepted p -> summation32 sum -> good_square square -> small_shape p -> reachable p b1 -> reachable p b2 ->
  Z.of_nat (length d1) = signum p -> Z.of_nat (length d2) = signum p ->
  Forall (shaped p) d1 -> Forall (shaped p) d2 -> Forall all_finite d1 -> Forall all_finite d2 ->
  Forall (fun m => padded_energy p (values m) <= 2 ^ 220) d1 -> Forall (fun m => padded_energy p (values m) <= 2 ^ 220) d2 ->
  decompose b1 d1 null_denoiser = Ok (true, b1') -> decompose b2 d2 null_denoiser = Ok (true, b2') ->
  Forall (fun m => (length (elts m) <= N)%nat) (subbands b1') -> (Z.of_nat (N + 8) <= 2 ^ 22)%Z ->
  (Z.of_nat (length (subbands b1')) <= 2 ^ 27)%Z ->
  let n := IZR (samples p) in
  let rms := sqrt (signal_gap p (map values d1) (map values d2) / n) in
  let dev := 7 / 10 ^ 8 * rms + sqrt (rounding_gap (/ 2 ^ 24) (/ 2 ^ 150) p (map values d1) / n)
                              + sqrt (rounding_gap (/ 2 ^ 24) (/ 2 ^ 150) p (map values d2) / n) in
  n * ((rms + dev) * (rms + dev)) <= bpow radix2 120 ->
  exists d v, distance32 sum square b1' b2' = Ok d /\ is_finite d = true /\ 0 <= B2R d /\
    0 <= v /\ Rabs (v - rms) <= dev /\
    Rabs (B2R d - v * v) <= INR (N + 8) * bpow radix2 (-23) * (v * v)
      + (INR (length (values32 b1')) / n * bpow radix2 (-148) + bpow radix2 (-149)).
Proof. consts. exact (fun HA => distance32_mean_squared p HA sum square b1 b2 d1 d2 b1' b2' N). Qed.
Print Assumptions C126_binary32.

(** and the rounding part of [dev] is at most 38 / 10^7 of the size of the
    signal per step and dimension, beyond what underflow adds *)
Theorem C126_rounding p (d : list (mat R)) : accepted p -> Forall (shaped p) d ->
  sqrt (rounding_gap (/ 2 ^ 24) (/ 2 ^ 150) p d) <=
  INR (passes p * nsteps p) * (38 / 10 ^ 7) * sqrt (fold_right (fun m s => padded_energy p m + s) 0 d)
  + INR (nsteps p) / 2 ^ 75 * sqrt (INR (length d)).
Proof. consts. exact (fun HA => rounding_gap_bound p HA d). Qed.
Print Assumptions C126_rounding.

(** ** cases *)
(** 7 samples, DB2, one step: padded to 8; a ramp against zeros *)
Definition ex7 : params := Params [7]%Z 1 1 2.
Definition ramp : list Z := [1; 2; 3; 4; 5; 6; 7]%Z.
Definition rampR : mat R := mcolvec (map IZR ramp).
Definition zeroR : mat R := mcolvec (map IZR (repeat 0%Z 7)).
Lemma ex7_ok : accepted ex7 /\ small_shape ex7.
Proof.
  split.
  - unfold accepted, params_rep, legal, u64, i32, ex7. cbn [shape signum steps wtype length]. repeat split; auto; try (repeat constructor); lia.
  - unfold small_shape, samples, channel_samples, ex7. cbn [shape signum fold_right]. repeat split; try lia. repeat constructor; lia.
Qed.
Example C126_exact_case : exists b b1' b2' : buffer R,
  accepted ex7 /\ small_shape ex7 /\ reachable ex7 b /\
  decompose b [rampR] null_denoiser = Ok (true, b1') /\ decompose b [zeroR] null_denoiser = Ok (true, b2') /\
  signal_gap ex7 [rampR] [zeroR] = 189 /\ samples ex7 = 7%Z.
Proof.
  destruct ex7_ok as [HA HS]. destruct (reachable_ex ex7 HA) as (b & Rb).
  exists b. eexists _, _. split; auto. split; auto. split; auto.
  split; [apply (@dec_okA R exactR ex7 HA b); auto; [cbn; lia|repeat constructor]|].
  split; [apply (@dec_okA R exactR ex7 HA b); auto; [cbn; lia|repeat constructor]|].
  split; [|reflexivity]. cbn [signal_gap]. unfold padded_error. rewrite sqrt_sqrt.
  - change (level_rows ex7 0) with 8%nat. change (level_cols ex7 0) with 1%nat.
    cbv -[Rplus Rmult Ropp Rinv IZR Rdiv Rminus]. lra.
  - change (level_rows ex7 0) with 8%nat. change (level_cols ex7 0) with 1%nat.
    cbv -[Rplus Rmult Ropp Rinv IZR Rdiv Rminus Rle]. lra.
Qed.

Definition rampF : mat f32 := mcolvec (map f32_of_int ramp).
Definition zeroF : mat f32 := mcolvec (map f32_of_int (repeat 0%Z 7)).
Lemma ints_mat l : Forall (fun z => (-256 <= z <= 256)%Z) l ->
  all_finite (mcolvec (map f32_of_int l)) /\ values (mcolvec (map f32_of_int l)) = mcolvec (map IZR l).
Proof.
  intros H. unfold all_finite, values, mcolvec. cbn [rows cols elts]. rewrite !map_length. 
  assert (E : Forall (fun x : f32 => is_finite x = true) (map f32_of_int l) /\ map (@B2R 24 128) (map f32_of_int l) = map IZR l).
  { induction H as [|z l Hz H [IH1 IH2]]; [split; [constructor|reflexivity]|].
    destruct (val_int z Hz) as [V F]. split.
    - constructor; auto.
    - cbn [map]. rewrite IH2. f_equal. exact V. }
  destruct E as [E1 E2]. split; auto. rewrite E2. reflexivity.
Qed.
Lemma ramp_energy : padded_energy ex7 rampR = 189 /\ padded_energy ex7 zeroR = 0.
Proof.
  unfold padded_energy. change (level_rows ex7 0) with 8%nat. change (level_cols ex7 0) with 1%nat.
  split; cbv -[Rplus Rmult Ropp Rinv IZR Rdiv Rminus]; lra.
Qed.
Lemma ramp_gap : signal_gap ex7 [rampR] [zeroR] = 189.
Proof. destruct C126_exact_case as (_ & _ & _ & _ & _ & _ & _ & _ & H & _). exact H. Qed.
Lemma sqrt_below x y : 0 <= y -> x <= y * y -> sqrt x <= y.
Proof. intros Hy H. rewrite <- (sqrt_square y) by auto. apply sqrt_le_1_alt. auto. Qed.
Example C126_binary32_case : exists b b1' b2' : buffer f32,
  reachable ex7 b /\ Forall (shaped ex7) [rampF] /\ Forall (shaped ex7) [zeroF] /\
  Forall all_finite [rampF] /\ Forall all_finite [zeroF] /\
  Forall (fun m => padded_energy ex7 (values m) <= 2 ^ 220) [rampF] /\
  Forall (fun m => padded_energy ex7 (values m) <= 2 ^ 220) [zeroF] /\
  decompose b [rampF] null_denoiser = Ok (true, b1') /\ decompose b [zeroF] null_denoiser = Ok (true, b2') /\
  Forall (fun m => (length (elts m) <= 4)%nat) (subbands b1') /\ length (subbands b1') = 2%nat /\
  let n := IZR (samples ex7) in
  let rms := sqrt (signal_gap ex7 (map values [rampF]) (map values [zeroF]) / n) in
  let dev := 7 / 10 ^ 8 * rms + sqrt (rounding_gap (/ 2 ^ 24) (/ 2 ^ 150) ex7 (map values [rampF]) / n)
                              + sqrt (rounding_gap (/ 2 ^ 24) (/ 2 ^ 150) ex7 (map values [zeroF]) / n) in
  rms * rms = 27 /\ n * ((rms + dev) * (rms + dev)) <= bpow radix2 120.
Proof.
  destruct ex7_ok as [HA HS].
  destruct (ints_mat ramp) as [F1 V1]; [repeat constructor; lia|].
  destruct (ints_mat (repeat 0%Z 7)) as [F2 V2]; [repeat constructor; lia|].
  fold rampF rampR in F1, V1. fold zeroF zeroR in F2, V2.
  assert (Sh : shaped ex7 rampR /\ shaped ex7 zeroR) by (repeat constructor).
  assert (Rb : reachable ex7 (@Buffer f32 ex7 (repeat (repeat mempty (decomposition_size ex7)) (Z.to_nat (signum ex7))))).
  { apply reach_new. apply new_buffer_legal; [apply HA|cbn; lia|apply HA]. }
  eexists. exists (Buffer ex7 (map (dec_of ex7 null_denoiser) [rampF])), (Buffer ex7 (map (dec_of ex7 null_denoiser) [zeroF])).
  split; [exact Rb|]. split; [repeat constructor|]. split; [repeat constructor|].
  split; [auto|]. split; [auto|].
  destruct ramp_energy as [N1 N2].
  split; [constructor; [rewrite V1, N1; rewrite pow_IZR; apply IZR_le; cbn; lia|constructor]|].
  split; [constructor; [rewrite V2, N2; apply pow_le; lra|constructor]|].
  split; [apply (@dec_okA f32 binary32 ex7 HA); auto; [cbn; lia|repeat constructor]|].
  split; [apply (@dec_okA f32 binary32 ex7 HA); auto; [cbn; lia|repeat constructor]|].
  split. { unfold subbands. cbn [bdec map concat]. rewrite app_nil_r.
    assert (L : has_layout ex7 (dec_of ex7 null_denoiser rampF)) by (apply dec_of_layout; auto; apply null_keepsA).
    assert (E : forallb (fun m => Nat.leb (length (elts m)) 4) (dec_of ex7 null_denoiser rampF) = true) by (vm_compute; reflexivity).
    rewrite forallb_forall in E. apply Forall_forall. intros m Hm. apply Nat.leb_le. auto. }
  split. { vm_compute. reflexivity. }
  cbn [map]. rewrite V1, V2, ramp_gap. change (samples ex7) with 7%Z.
  split; [rewrite sqrt_sqrt; lra|].
  pose proof (C126_rounding ex7 [rampR] HA (Forall_cons _ (proj1 Sh) (Forall_nil _))) as G1.
  pose proof (C126_rounding ex7 [zeroR] HA (Forall_cons _ (proj2 Sh) (Forall_nil _))) as G2.
  cbn [fold_right length] in G1, G2. rewrite N1 in G1. rewrite N2 in G2. rewrite !Rplus_0_r in G1, G2.
  change (passes ex7 * nsteps ex7)%nat with 1%nat in G1, G2. change (nsteps ex7) with 1%nat in G1, G2.
  cbn [INR] in G1, G2. rewrite sqrt_1, sqrt_0 in *.
  assert (B1 : sqrt 189 <= 14) by (apply sqrt_below; lra).
  assert (B2 : 1 / 2 ^ 75 <= 1).
  { unfold Rdiv. rewrite Rmult_1_l. replace 1 with (/ 1) by apply Rinv_1. apply Rinv_le_contravar; [lra|]. apply pow_R1_Rle. lra. }
  assert (B3 : sqrt (189 / 7) <= 6) by (apply sqrt_below; lra).
  assert (Q : forall x, sqrt x <= 2 -> sqrt (x / 7) <= 2).
  { intros x Hx. destruct (Rle_dec 0 x) as [H|H].
    - apply sqrt_below; [lra|]. pose proof (sqrt_sqrt x H). pose proof (sqrt_pos x).
      assert (x <= 4) by (rewrite <- H0; apply Rle_trans with (2 * 2); [apply Rmult_le_compat; auto|lra]). lra.
    - rewrite sqrt_neg_0 by lra. lra. }
  assert (Q1 := Q (rounding_gap (/ 2 ^ 24) (/ 2 ^ 150) ex7 [rampR]) ltac:(lra)).
  assert (Q2 := Q (rounding_gap (/ 2 ^ 24) (/ 2 ^ 150) ex7 [zeroR]) ltac:(lra)).
  set (q1 := sqrt (rounding_gap _ _ _ [rampR] / 7)) in *. set (q2 := sqrt (rounding_gap _ _ _ [zeroR] / 7)) in *.
  pose proof (sqrt_pos (189 / 7)) as P3. set (r := sqrt (189 / 7)) in *.
  assert (P1 : 0 <= q1) by apply sqrt_pos. assert (P2 : 0 <= q2) by apply sqrt_pos.
  set (t := r + (7 / 10 ^ 8 * r + q1 + q2)).
  assert (T : 0 <= t <= 12) by (unfold t; lra).
  assert (t * t <= 12 * 12) by (apply Rmult_le_compat; lra).
  apply Rle_trans with (IZR (2 ^ 120)); [|cbn [bpow]; apply IZR_le; cbn; lia].
  apply Rle_trans with 1008; [lra|]. apply IZR_le. cbn. lia.
Qed.
