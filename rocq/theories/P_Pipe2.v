(** * P_Pipe2: the numbers of the example of README.md *)
Require Import List Bool Arith ZArith QArith Qreals Lia Reals Lra.
Require Import ZifyBool.
Require Import Flocq.Core.Core Flocq.IEEE754.BinarySingleNaN.
Require Import Verif.M_Base Verif.M_Params Verif.M_Wavelet Verif.M_Buffer Verif.M_Real Verif.M_Float Verif.M_Binary32 Verif.M_Denoise Verif.M_Mag32.
Require Import Verif.S_Params Verif.S_Buffer Verif.S_Exact Verif.S_Round Verif.S_Stable Verif.S_Local Verif.S_Serializer Verif.S_Lossy.
Require Import Verif.P_Base Verif.P_L2 Verif.P_Exact Verif.P_Round Verif.P_Round2 Verif.P_Stable Verif.P_Bin2 Verif.P_Float Verif.P_Binary32 Verif.P_Bin3 Verif.P_DenoiseF Verif.P_Loc6 Verif.P_Loc7 Verif.P_Peak2 Verif.P_Peak3.
Import ListNotations.
Open Scope R_scope.

(** a threshold that is the same at every step *)
Lemma flat_threshold (b : f32) s : (s <= 256)%nat -> is_finite b = true ->
  is_finite (get_threshold (B754_zero false : f32) b s) = true /\ B2R (get_threshold (B754_zero false : f32) b s) = B2R b.
Proof.
  intros Hs Fb. unfold get_threshold. cbn [aadd amul mnat binary32 floatMag].
  destruct (val_int (Z.of_nat s) ltac:(lia)) as [_ FS].
  destruct (f32_of_int (Z.of_nat s)); try discriminate; destruct b as [sb| | |sb mb eb Hb]; try discriminate; cbn; destruct s0; try destruct sb; cbn; auto.
Qed.

Lemma readme_numbers n T : accepted (Params [n] 1 3 1) -> 0 <= T <= 1 ->
  let p := Params [n] 1 3 1 in let L := lost p u32 eta32 (powerRZ 2 (-8)) (powerRZ 2 (-134)) 100 in
  float_rel u32 p * (sqrt (INR (window_area p)) * 100) + underflow u32 eta32 p
    + step_gain u32 p ^ nsteps p * spread p (Rmax (T + powerRZ 2 (-134)) L) L <= 222 / 100.
Proof.
  intros HA HT p L.
  assert (H1 : wtype p = 1%Z) by reflexivity.
  assert (PA : passes p = 1%nat) by reflexivity. assert (BA : bands p = 1%nat) by reflexivity. assert (NS : nsteps p = 3%nat) by reflexivity.
  assert (WI : window p = 8%nat) by reflexivity. assert (CO : cone p = 1%nat) by reflexivity.
  assert (A1 : float_rel u32 p * (sqrt (INR (window_area p)) * 100) + underflow u32 eta32 p <= 25 / 10 ^ 4).
  { pose proof (float_rel_db1 p HA H1) as F1. destruct (float_bounds p HA) as [_ F2].
    assert (U : underflow u32 eta32 p <= 1 / 10 ^ 7).
    { eapply Rle_trans; [exact F2|]. rewrite NS.
      assert (B : 10 ^ 8 <= 2 ^ 74) by (rewrite (pow_IZR 2 74), (pow_IZR 10 8); apply IZR_le; vm_compute; discriminate).
      apply (Rmult_le_reg_r (2 ^ 74)); [apply pow_lt; lra|]. unfold Rdiv at 1. rewrite Rmult_assoc, Rinv_l, Rmult_1_r by (apply pow_nonzero; lra).
      set (w := 2 ^ 74) in *. clearbody w. simpl INR. lra. }
    pose proof (sqrt_area p HA) as SA. rewrite WI in SA. replace (INR 8) with 8 in SA by (simpl; lra).
    pose proof (sqrt_pos (INR (window_area p))) as SP. rewrite PA, NS in F1. replace (INR (1 * 3)) with 3 in F1 by (simpl; lra).
    assert (float_rel u32 p * (sqrt (INR (window_area p)) * 100) <= (3 * (102 / 10 ^ 8)) * (8 * 100)).
    { apply Rle_trans with ((3 * (102 / 10 ^ 8)) * (sqrt (INR (window_area p)) * 100)); [apply Rmult_le_compat_r; lra|].
      apply Rmult_le_compat_l; lra. }
    lra. }
  assert (A2 : 0 <= step_gain u32 p ^ nsteps p <= 1 + 1 / 10 ^ 5).
  { unfold step_gain. rewrite H1, PA, <- pow_mult, NS. destruct pass_db1 as [Q1 Q2]. split; [apply pow_le; lra|].
    set (w := pass_gain u32 1) in *. change (1 * 3)%nat with 3%nat. replace w with (1 + (w - 1)) by ring.
    assert (E : (1 + (w - 1)) ^ 3 - 1 <= 7 / 10 ^ 6 / (1 - 7 / 10 ^ 6)); [|lra].
    apply pow_bound; try lra. simpl INR. lra. }
  assert (S2 : 0 <= sqrt 2 <= 141422 / 10 ^ 5).
  { split; [apply sqrt_pos|]. apply sqrt_le_by; lra. }
  assert (SS : sqrt 2 * sqrt 2 = 2) by (apply sqrt_sqrt; lra).
  assert (PK : 0 <= peak u32 eta32 p (passes p * nsteps p) 100 <= 28292 / 100).
  { split; [apply (peak_0 u32 eta32 u32_pos eta32_pos p HA); [lra|lia]|].
    eapply Rle_trans; [apply (peak_bound p (passes p * nsteps p) 100 HA); [lra|lia]|].
    rewrite H1, PA, NS. change (coefficient_sum 1) with 1%Q. rewrite RMicromega.Q2R_1, Rmult_1_r. change (1 * 3)%nat with 3%nat.
    replace (sqrt 2 ^ 3) with (2 * sqrt 2) by (cbn [pow]; rewrite Rmult_1_r, SS; ring).
    assert (B : / 2 ^ 136 <= / 10 ^ 5).
    { apply Rinv_le_contravar; [lra|]. rewrite (pow_IZR 2 136), (pow_IZR 10 5). apply IZR_le. vm_compute. discriminate. }
    assert (B0 : 0 < / 2 ^ 136) by (apply Rinv_0_lt_compat, pow_lt; lra).
    set (w := / 2 ^ 136) in *. clearbody w. set (v := sqrt 2) in *. clearbody v.
    apply Rle_trans with ((1 + 2 / 10 ^ 4) * (2 * (141422 / 10 ^ 5)) * (100 + / 10 ^ 5)); [|lra].
    apply Rmult_le_compat; try lra. }
  assert (E8 : powerRZ 2 (-8) = / 256) by (rewrite <- (bpow_powerRZ radix2); reflexivity).
  assert (E134 : 0 < powerRZ 2 (-134) <= / 10 ^ 9).
  { rewrite <- (bpow_powerRZ radix2). split; [apply bpow_gt_0|]. apply Rle_trans with (bpow radix2 (-30)); [apply bpow_le; lia|].
    cbn [bpow]. apply Rinv_le_contravar; [lra|]. rewrite (pow_IZR 10 9). apply IZR_le. vm_compute. discriminate. }
  assert (LL : 0 <= L <= 110517 / 10 ^ 5).
  { unfold L, lost. rewrite E8. lra. }
  set (M := Rmax (T + powerRZ 2 (-134)) L).
  assert (MM : 0 <= M <= 110517 / 10 ^ 5).
  { split; [eapply Rle_trans; [apply LL|apply Rmax_r]|]. apply Rmax_lub; lra. }
  assert (A3 : 0 <= spread p M L <= 221035 / 10 ^ 5).
  { split; [apply sqrt_pos|]. unfold spread. rewrite CO, BA, NS. change (INR 1) with 1. replace (INR (3 * 1)) with 3 by (simpl; lra).
    apply sqrt_le_by; [lra|]. nra. }
  assert (step_gain u32 p ^ nsteps p * spread p M L <= (1 + 1 / 10 ^ 5) * (221035 / 10 ^ 5)) by (apply Rmult_le_compat; lra).
  lra.
Qed.
