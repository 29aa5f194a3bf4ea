(** * P_Peak3: numbers, 8-bit pictures that were stored *)
Require Import List Bool Arith ZArith QArith Qreals Lia Reals Lra.
Require Import ZifyBool.
Require Import Flocq.Core.Core Flocq.IEEE754.BinarySingleNaN.
Require Import Verif.M_Base Verif.M_Params Verif.M_Wavelet Verif.M_Buffer Verif.M_Image Verif.M_Real Verif.M_Float Verif.M_Binary32 Verif.M_Denoise
  Verif.M_Archive Verif.M_SfCodec Verif.M_SfEqual Verif.M_Serializer.
Require Import Verif.S_Params Verif.S_Buffer Verif.S_Exact Verif.S_Round Verif.S_Stable Verif.S_Local Verif.S_Serializer Verif.S_Lossy.
Require Import Verif.P_Base Verif.P_Wavelet Verif.P_Buffer Verif.P_Impl Verif.P_Api Verif.P_Api2 Verif.P_Image Verif.P_Denoise Verif.P_Sum Verif.P_Lin Verif.P_PR Verif.P_L2 Verif.P_Rec Verif.P_Exact
  Verif.P_Rel Verif.P_Round Verif.P_Round2 Verif.P_Round3 Verif.P_Float Verif.P_Binary32 Verif.P_Bin2 Verif.P_Bin3 Verif.P_Stable Verif.P_Stable2 Verif.P_Loc4 Verif.P_Loc5 Verif.P_Loc6 Verif.P_Loc7 Verif.P_Peak Verif.P_Peak2.
Import ListNotations.
Open Scope R_scope.

Lemma Q2R_sum_pos t : 0 <= Q2R (coefficient_sum t).
Proof.
  assert (H : (0 <= coefficient_sum t)%Q).
  { unfold coefficient_sum. destruct t as [|q|q]; try apply Qle_refl. do 4 (destruct q as [q|q|]; try (unfold Qle; simpl; lia)). }
  apply Qle_Rle in H. rewrite RMicromega.Q2R_0 in H. exact H.
Qed.
Lemma peak_bound p n B : accepted p -> 0 <= B -> (n <= passes p * nsteps p)%nat ->
  peak u32 eta32 p n B <= (1 + 2 / 10 ^ 4) * (sqrt 2 * Q2R (coefficient_sum (wtype p))) ^ n * (B + / 2 ^ 136).
Proof.
  intros HA B0 Hn. pose proof (K62 p HA) as K. rewrite (K_nsteps p HA) in K.
  assert (N : (n <= 124)%nat) by (unfold passes in Hn; destruct (is_1d p); lia).
  pose proof (acc_type p HA) as W. set (t := wtype p) in *.
  assert (U : u32 = / 16777216) by reflexivity.
  unfold peak, peak_gain, peak_under. fold t. rewrite Rpow_mult_distr, <- pow_mult.
  set (S := (sqrt 2 * Q2R (coefficient_sum t)) ^ n).
  assert (S0 : 0 <= S) by (apply pow_le, Rmult_le_pos; [apply sqrt_pos|apply Q2R_sum_pos]).
  assert (P1 : (1 + u32) ^ ((2 * Z.to_nat t + 4) * n) <= 1 + 2 / 10 ^ 4).
  { assert (NN : (INR ((2 * Z.to_nat t + 4) * n) <= 2976)).
    { rewrite INR_IZR_INZ. apply IZR_le. nia. }
    assert (E : (1 + u32) ^ ((2 * Z.to_nat t + 4) * n) - 1 <= 178 / 10 ^ 6 / (1 - 178 / 10 ^ 6)); [|lra].
    apply (pow_bound u32 ((2 * Z.to_nat t + 4) * n) (178 / 10 ^ 6)); rewrite ?U; lra. }
  assert (P2 : (1 + u32) ^ (2 * Z.to_nat t) <= 2).
  { pose proof (u_pow (2 * Z.to_nat t) ltac:(lia)). lra. }
  assert (P0 : 1 <= (1 + u32) ^ (2 * Z.to_nat t)) by (apply pow_ge_1; rewrite U; lra).
  assert (P3 : 1 <= (1 + u32) ^ ((2 * Z.to_nat t + 4) * n)) by (apply pow_ge_1; rewrite U; lra).
  assert (T10 : 0 <= INR (Z.to_nat t) <= 10). { split; [apply pos_INR|]. replace 10 with (INR 10) by (simpl; lra). apply le_INR. lia. }
  assert (N124 : 0 <= INR n <= 124). { split; [apply pos_INR|]. apply le_INR in N. rewrite (INR_IZR_INZ 124) in N. exact N. }
  assert (E0 : 0 <= eta32) by apply eta32_pos.
  assert (Q : 0 <= INR n * (4 * INR (Z.to_nat t) * (1 + u32) ^ (2 * Z.to_nat t) * eta32) <= / 2 ^ 136).
  { set (w := (1 + u32) ^ (2 * Z.to_nat t)) in *. set (a := INR n) in *. set (b := INR (Z.to_nat t)) in *.
    assert (Hbw : 0 <= b * w <= 20) by nra. assert (Habw : 0 <= a * (b * w) <= 2480) by nra.
    replace (a * (4 * b * w * eta32)) with (4 * (a * (b * w)) * eta32) by ring.
    split; [apply Rmult_le_pos; lra|].
    assert (E : eta32 = / 2 ^ 136 * / 2 ^ 14).
    { unfold eta32. rewrite <- Rinv_mult, <- pow_add. change (136 + 14)%nat with 150%nat. rewrite (pow_IZR 2 150). reflexivity. }
    assert (Q0 : 0 < / 2 ^ 136) by (apply Rinv_0_lt_compat, pow_lt; lra).
    rewrite E. set (c := / 2 ^ 136) in *. clearbody c.
    replace (4 * (a * (b * w)) * (c * / 2 ^ 14)) with (c * (4 * (a * (b * w)) * / 2 ^ 14)) by ring.
    rewrite <- (Rmult_1_r c) at 2. apply Rmult_le_compat_l; [lra|]. lra. }
  set (e := / 2 ^ 136) in *. clearbody e.
  replace ((1 + 2 / 10 ^ 4) * S * (B + e)) with (S * (1 + 2 / 10 ^ 4) * (B + e)) by ring.
  apply Rmult_le_compat.
  - apply Rmult_le_pos; lra.
  - lra.
  - apply Rmult_le_compat_l; auto.
  - lra.
Qed.

(** a level that moved by at most k *)
Lemma level_moved x z k : (1 <= k)%Z -> is_finite x = true -> (0 <= z <= 255)%Z -> Rabs (B2R x - B2R (of_pixel z)) <= IZR k * (38 / 10 ^ 4) ->
  (z - k <= to_pixel x <= z + k - 1)%Z.
Proof.
  intros Hk Fx Hz H. destruct (of_pixel_close z Hz) as (_ & _ & Hp). pose proof (to_pixel_range x) as Rg.
  assert (b24 : bpow radix2 (-24) = / 16777216) by reflexivity.
  assert (b16 : bpow radix2 (-16) = / 65536) by reflexivity.
  assert (b53 : 0 <= bpow radix2 (-53) <= / 16777216).
  { split; [apply bpow_ge_0|]. rewrite <- b24. apply bpow_le. lia. }
  apply Rabs_le_inv in H. apply Rabs_le_inv in Hp. assert (K1 : 1 <= IZR k) by (apply IZR_le; lia).
  assert (Z0 : 0 <= IZR z <= 255) by (split; apply IZR_le; lia).
  assert (L1 : IZR (to_pixel x) < IZR z + IZR k).
  { destruct (Rlt_le_dec (B2R x) 0) as [L|L].
    - pose proof (to_pixel_mono x (of_pixel 0)) as M. rewrite pixel_back in M by lia.
      destruct (of_pixel_close 0 ltac:(lia)) as (F0 & (P0 & _) & _). specialize (M Fx F0 ltac:(lra)).
      apply IZR_le in M. lra.
    - destruct (Rlt_le_dec 1 (B2R x)) as [U|U].
      + assert (IZR (to_pixel x) <= 255) by (apply IZR_le; lia). lra.
      + destruct (to_pixel_close x Fx (conj L U)) as [_ Q]. lra. }
  assert (L2 : IZR z - IZR k - 1 < IZR (to_pixel x)).
  { destruct (Rlt_le_dec (B2R x) 0) as [L|L].
    - assert (0 <= IZR (to_pixel x)) by (apply IZR_le; lia). lra.
    - destruct (Rlt_le_dec 1 (B2R x)) as [U|U].
      + pose proof (to_pixel_mono (of_pixel 255) x) as M. rewrite pixel_back in M by lia.
        destruct (of_pixel_close 255 ltac:(lia)) as (F0 & (_ & P0) & _). specialize (M F0 Fx ltac:(lra)).
        apply IZR_le in M. lra.
      + destruct (to_pixel_close x Fx (conj L U)) as [Q _]. lra. }
  rewrite <- plus_IZR in L1. rewrite <- !minus_IZR in L2. apply lt_IZR in L1, L2. lia.
Qed.

Section P.
Variable p : params.
Hypothesis HA : accepted p.

(** one picture of 8-bit levels, stored: levels move by at most k *)
Theorem stored_levels b data cd sf q d e k :
  @reachable f32 binary32 p b -> Forall (fun n => (1 <= n)%Z) (shape p) ->
  (Z.of_nat (level_rows p 0) < 2 ^ 31)%Z -> (Z.of_nat (level_cols p 0) < 2 ^ 31)%Z ->
  (Z.of_nat (level_rows p 0) * Z.of_nat (level_cols p 0) < 2 ^ 32)%Z ->
  (1 <= signum p)%Z -> Z.of_nat (length data) = signum p -> Forall (shaped p) data ->
  Forall (fun m => Forall (fun x => exists z, (0 <= z <= 255)%Z /\ x = of_pixel z) (elts m)) data ->
  (1 <= sf)%Z -> codec_faithful cd (33 - Z.min 31 sf) q -> codec_total cd (33 - Z.min 31 sf) ->
  0 <= d <= 1 / 2 -> 0 <= e <= 1 -> loses d e q -> (1 <= k)%Z ->
  float_rel u32 p * sqrt (INR (window_area p)) + underflow u32 eta32 p
    + step_gain u32 p ^ nsteps p * spread p (lost p u32 eta32 d e 1) (lost p u32 eta32 d e 1) <= IZR k * (38 / 10 ^ 4) ->
  exists b0 blob b1 out, @decompose f32 binary32 b data null_denoiser = Ok (true, b0) /\
    serialize cd (patterns b0) sf = Ok (Some blob) /\ Forall is_byte blob /\
    (forall legacy extra, parse cd legacy (blob ++ extra) = Ok (Some b1)) /\
    @compose f32 binary32 (floats b1) 0 = Ok (true, out) /\ length out = length data /\
    forall c m o, nth_error data c = Some m -> nth_error out c = Some o ->
      sized (drows p) (dcols p) o /\
      forall i j z, (i < drows p)%nat -> (j < dcols p)%nat -> (0 <= z <= 255)%Z -> mget m i j = Ok (of_pixel z) ->
        exists x, mget o i j = Ok x /\ (z - k <= to_pixel x <= z + k - 1)%Z.
Proof.
  intros Hr Hpos S1 S2 S3 Hsig HL HS HV Hsf HC HT Hd He Hq Hk HB.
  assert (B1 : 0 <= 1 <= 2 ^ 46) by (split; [lra|apply pow_R1_Rle; lra]).
  assert (HBd : Forall (bounded 1) data) by (eapply Forall_impl; [|exact HV]; intros m Hm; apply levels_bounded; exact Hm).
  destruct (stored_samples p HA b data cd sf q d e 1 Hr Hpos S1 S2 S3 Hsig HL HS B1 HBd Hsf HC HT Hd He Hq)
    as (b0 & blob & b1 & out & E1 & E2 & E3 & E4 & E5 & E6 & H).
  exists b0, blob, b1, out. do 6 (split; [assumption|]). intros c m o Hm Ho.
  destruct (H c m o Hm Ho) as (Sz & Fo & G). split; [exact Sz|]. intros i j z Hi Hj Hz Gm.
  destruct Sz as (Wo & Ro & Co).
  destruct (mget_some o i j) as (x & Ex); [auto|lia|lia|]. exists x. split; [exact Ex|].
  apply mget_at in Gm as [A1 _]. apply mget_at in Ex as [A2 I2]. specialize (G i j Hi Hj).
  unfold all_finite in Fo. rewrite Forall_forall in Fo. apply level_moved; auto.
  rewrite <- A1, <- A2. eapply Rle_trans; [exact G|]. rewrite Rmult_1_r. exact HB.
Qed.

(** DB1 and a codec that drops sf - 1 bits *)
Lemma sum_db1 (H1 : wtype p = 1%Z) (H2 : length (shape p) = 2%nat) (H6 : (steps p <= 6)%Z) d e X :
  0 <= d -> 0 <= e <= / 10 ^ 9 -> d * 2 ^ nsteps p <= X -> 
  float_rel u32 p * sqrt (INR (window_area p)) + underflow u32 eta32 p
    + step_gain u32 p ^ nsteps p * spread p (lost p u32 eta32 d e 1) (lost p u32 eta32 d e 1) <= 79 / 10 ^ 5 + X * (447 / 100).
Proof.
  intros Hd He HX.
  assert (I2 : is_1d p = false) by (unfold is_1d; rewrite H2; reflexivity).
  assert (NS : (nsteps p <= 6)%nat) by (unfold nsteps; lia).
  assert (PA : passes p = 2%nat) by (unfold passes; rewrite I2; reflexivity).
  assert (BA : bands p = 3%nat) by (unfold bands; rewrite I2; reflexivity).
  assert (T1 : Z.to_nat (wtype p) = 1%nat) by (rewrite H1; reflexivity).
  assert (WI : window p = (2 ^ nsteps p)%nat).
  { unfold window. rewrite T1. destruct (Nat.eqb_spec (nsteps p) 0) as [->|]; [reflexivity|]. lia. }
  assert (CO : cone p = 1%nat).
  { unfold cone. rewrite T1. change (2 * 1 - 1)%nat with 1%nat. rewrite Nat.pow_1_l. destruct (nsteps p =? 0)%nat; reflexivity. }
  assert (N6 : 0 <= INR (nsteps p) <= 6). { split; [apply pos_INR|]. replace 6 with (INR 6) by (simpl; lra). apply le_INR. lia. }
  assert (P64 : 1 <= 2 ^ nsteps p <= 64).
  { split; [apply pow_R1_Rle; lra|]. apply Rle_trans with (2 ^ 6); [apply Rle_pow; [lra|lia]|lra]. }
  (* rounding *)
  assert (A1 : float_rel u32 p * sqrt (INR (window_area p)) + underflow u32 eta32 p <= 7899 / 10 ^ 7).
  { pose proof (float_rel_db1 p HA H1) as F1. destruct (float_bounds p HA) as [_ F2].
    assert (U : underflow u32 eta32 p <= 1 / 10 ^ 7).
    { eapply Rle_trans; [exact F2|].
      assert (B : 10 ^ 8 <= 2 ^ 74) by (rewrite (pow_IZR 2 74), (pow_IZR 10 8); apply IZR_le; vm_compute; discriminate).
      apply (Rmult_le_reg_r (2 ^ 74)); [apply pow_lt; lra|]. unfold Rdiv at 1. rewrite Rmult_assoc, Rinv_l, Rmult_1_r by (apply pow_nonzero; lra). 
      set (w := 2 ^ 74) in *. clearbody w. lra. }
    pose proof (sqrt_area p HA) as SA. rewrite WI, pow_INR in SA. change (INR 2) with 2 in SA.
    pose proof (sqrt_pos (INR (window_area p))) as SP. rewrite PA, mult_INR in F1. change (INR 2) with 2 in F1.
    assert (float_rel u32 p * sqrt (INR (window_area p)) <= (2 * 6 * (102 / 10 ^ 8)) * 64).
    { apply Rle_trans with ((2 * INR (nsteps p) * (102 / 10 ^ 8)) * sqrt (INR (window_area p))); [apply Rmult_le_compat_r; auto|].
      apply Rmult_le_compat; try lra. }
    lra. }
  (* gain *)
  assert (A2 : 0 <= step_gain u32 p ^ nsteps p <= 1 + 1 / 10 ^ 5).
  { unfold step_gain. rewrite H1, PA, <- pow_mult. destruct pass_db1 as [L H]. split; [apply pow_le; lra|].
    set (w := pass_gain u32 1) in *. replace w with (1 + (w - 1)) by ring.
    assert (NN : 0 <= INR (2 * nsteps p) <= 12) by (rewrite mult_INR; change (INR 2) with 2; lra).
    assert (E : (1 + (w - 1)) ^ (2 * nsteps p) - 1 <= 7 / 10 ^ 6 / (1 - 7 / 10 ^ 6)); [|lra].
    apply pow_bound; try lra. nra. }
  (* what is lost *)
  set (T := lost p u32 eta32 d e 1).
  assert (PK : 0 <= peak u32 eta32 p (passes p * nsteps p) 1 <= (1 + 3 / 10 ^ 4) * 2 ^ nsteps p).
  { split; [apply (peak_0 u32 eta32 u32_pos eta32_pos p HA); [lra|lia]|].
    eapply Rle_trans; [apply (peak_bound p (passes p * nsteps p) 1 HA); [lra|lia]|].
    rewrite H1, PA. change (coefficient_sum 1) with 1%Q. rewrite RMicromega.Q2R_1, Rmult_1_r, pow_mult, <- Rsqr_pow2, Rsqr_sqrt by lra.
    assert (B : / 2 ^ 136 <= / 10 ^ 5).
    { apply Rinv_le_contravar; [lra|]. rewrite (pow_IZR 2 136), (pow_IZR 10 5). apply IZR_le. vm_compute. discriminate. }
    assert (B0 : 0 < / 2 ^ 136) by (apply Rinv_0_lt_compat, pow_lt; lra).
    set (w := / 2 ^ 136) in *. clearbody w. 
    assert ((1 + 2 / 10 ^ 4) * (1 + w) <= 1 + 3 / 10 ^ 4) by lra. nra. }
  assert (TT : 0 <= T <= (1 + 3 / 10 ^ 4) * X + / 10 ^ 9).
  { unfold T, lost. set (w := peak u32 eta32 p (passes p * nsteps p) 1) in *.
    assert (0 <= d * w) by (apply Rmult_le_pos; lra).
    assert (d * w <= d * ((1 + 3 / 10 ^ 4) * 2 ^ nsteps p)) by (apply Rmult_le_compat_l; lra). lra. }
  assert (A3 : spread p T T <= 436 / 100 * T).
  { unfold spread. rewrite CO, BA, mult_INR. change (INR 1) with 1. replace (INR 3) with 3 by (simpl; lra).
    apply sqrt_le_by; [lra|]. nra. }
  assert (A4 : 0 <= spread p T T) by apply sqrt_pos.
  assert (X0 : 0 <= X) by (eapply Rle_trans; [|exact HX]; apply Rmult_le_pos; lra).
  assert (A5 : step_gain u32 p ^ nsteps p * spread p T T <= (1 + 1 / 10 ^ 5) * (436 / 100 * T)) by (apply Rmult_le_compat; lra).
  lra.
Qed.
End P.
