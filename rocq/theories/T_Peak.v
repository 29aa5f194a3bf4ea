(** * T_Peak: properties C97 (magnitude of coefficients) and C98 (what lossy
    compression does to one sample, and to an 8-bit picture). *)
Require Import List Bool Arith ZArith QArith Qreals Reals Lra Lia.
Require Import Flocq.Core.Core Flocq.IEEE754.BinarySingleNaN.
Require Import Verif.M_Base Verif.M_Params Verif.M_Wavelet Verif.M_Buffer Verif.M_Image Verif.M_Real Verif.M_Float Verif.M_Binary32 Verif.M_Denoise
  Verif.M_Archive Verif.M_Serializer Verif.M_SfEqual.
Require Import Verif.S_Params Verif.S_Buffer Verif.S_Exact Verif.S_Round Verif.S_Stable Verif.S_Local Verif.S_Serializer Verif.S_Lossy.
Require Import Verif.P_Stable2 Verif.P_Float Verif.P_Binary32 Verif.P_Blob Verif.P_Lossy Verif.P_Lossy2 Verif.P_Peak Verif.P_Peak2 Verif.P_Peak3 Verif.T_Lossy.
Import ListNotations.
Open Scope R_scope.

Local Ltac consts :=
  replace (/ 2 ^ 24) with u32 by (unfold u32; rewrite (pow_IZR 2 24); reflexivity);
  replace (/ 2 ^ 150) with eta32 by (unfold eta32; rewrite (pow_IZR 2 150); reflexivity).

(** ** C97: samples of magnitude at most B: a coefficient is at most [peak] at
    the number of passes its subband went through, in any arithmetic that
    rounds with relative error u and underflow eta *)
Theorem C97_any_rounding u eta (A : Arith R) p (b : buffer R) data B :
  rounding u eta A -> 0 <= u -> 0 <= eta -> accepted p -> @reachable R A p b ->
  (1 <= signum p)%Z -> Z.of_nat (length data) = signum p -> Forall (shaped p) data ->
  0 <= B -> Forall (fun m => Forall (fun x => Rabs x <= B) (elts m)) data ->
  exists b', @decompose R A b data null_denoiser = Ok (true, b') /\
    forall ch k d, In ch (bdec b') -> nth_error ch k = Some d ->
      Forall (fun x => Rabs x <= peak u eta p (passes p * depth p k) B) (elts d).
Proof. exact (fun HR Hu He HA => peaks u eta A HR Hu He p HA b data B). Qed.
Print Assumptions C97_any_rounding.
(** in exact arithmetic: (sqrt 2 * coefficient_sum)^passes times B *)
Theorem C97_exact p (b : buffer R) data B :
  accepted p -> @reachable R exactR p b ->
  (1 <= signum p)%Z -> Z.of_nat (length data) = signum p -> Forall (shaped p) data ->
  0 <= B -> Forall (fun m => Forall (fun x => Rabs x <= B) (elts m)) data ->
  exists b', @decompose R exactR b data null_denoiser = Ok (true, b') /\
    forall ch k d, In ch (bdec b') -> nth_error ch k = Some d ->
      Forall (fun x => Rabs x <= (sqrt 2 * Q2R (coefficient_sum (wtype p))) ^ (passes p * depth p k) * B) (elts d).
Proof.
  intros HA Hr Hs HL HS HB HD.
  destruct (C97_any_rounding 0 0 exactR p b data B exact_rounding ltac:(lra) ltac:(lra) HA Hr Hs HL HS HB HD) as (b' & E & H).
  exists b'. split; auto. intros ch k d Hc Hd. specialize (H ch k d Hc Hd). eapply Forall_impl; [|exact H].
  intros x Hx. eapply Rle_trans; [exact Hx|]. apply Req_le. unfold peak, peak_gain, peak_under. rewrite !Rplus_0_r, !pow1, !Rmult_1_r, !Rmult_0_r, Rplus_0_r. reflexivity.
Qed.
Print Assumptions C97_exact.
(** in single precision; nothing overflows for B up to 2^46 *)
Theorem C97_binary32 p (b : buffer f32) data B :
  accepted p -> reachable p b ->
  (1 <= signum p)%Z -> Z.of_nat (length data) = signum p -> Forall (shaped p) data ->
  0 <= B <= 2 ^ 46 -> Forall (fun m => Forall (fun x : f32 => is_finite x = true /\ Rabs (B2R x) <= B) (elts m)) data ->
  exists b', decompose b data null_denoiser = Ok (true, b') /\
    forall ch k d, In ch (bdec b') -> nth_error ch k = Some d ->
      Forall (fun x : f32 => is_finite x = true /\
        Rabs (B2R x) <= (1 + 2 / 10 ^ 4) * (sqrt 2 * Q2R (coefficient_sum (wtype p))) ^ (passes p * depth p k) * (B + / 2 ^ 136)) (elts d).
Proof.
  intros HA Hr Hs HL HS HB HD. destruct (peaks32 p HA b data B Hr Hs HL HS HB HD) as (b' & E & H).
  exists b'. split; auto. intros ch k d Hc Hd. specialize (H ch k d Hc Hd). eapply Forall_impl; [|exact H].
  intros x [Fx Hx]. split; auto. eapply Rle_trans; [exact Hx|]. apply peak_bound; auto; [apply HB|].
  apply Nat.mul_le_mono_l. unfold depth. lia.
Qed.
Print Assumptions C97_binary32.
(** the bound is met: a constant signal, one step of DB1 *)
Theorem C97_attained : forall B, 0 <= B -> exists (b b' : buffer R) d x,
  reachable (Params [2]%Z 1 1 1) b /\ decompose b [Mat 2 1 [B; B]] null_denoiser = Ok (true, b') /\
  bdec b' = [[d; Mat 1 1 [x]]] /\ Rabs x = (sqrt 2 * Q2R (coefficient_sum 1)) ^ (passes (Params [2]%Z 1 1 1) * depth (Params [2]%Z 1 1 1) 1) * B.
Proof.
  intros B HB. eexists _, _, _, _. split; [apply reach_new; cbv -[Rplus Rmult Ropp Rinv sqrt IZR Q2R Rdiv Rminus]; reflexivity|].
  split; [cbv -[Rplus Rmult Ropp Rinv sqrt IZR Q2R Rdiv Rminus]; reflexivity|]. split; [reflexivity|].
  cbv -[Rplus Rmult Ropp Rinv sqrt IZR Q2R Rdiv Rminus Rabs].
  rewrite RMicromega.Q2R_1. pose proof (sqrt_pos 2).
  replace (0 + _ + _) with (sqrt 2 * B) by lra. rewrite Rabs_pos_eq; [ring|apply Rmult_le_pos; auto].
Qed.
Print Assumptions C97_attained.
(** the case of C96: a ramp from 0 to 220 *)
Example C97_case : accepted small_p /\ (exists b : buffer f32, reachable small_p b) /\ Forall (shaped small_p) [ramp; ramp] /\
  Forall (fun m => Forall (fun x : f32 => is_finite x = true /\ Rabs (B2R x) <= 221) (elts m)) [ramp; ramp] /\
  depth small_p 0 = 1%nat /\ depth small_p 5 = 2%nat /\ depth small_p 6 = 2%nat.
Proof.
  destruct C96_case as (HA & HR & _ & _ & _ & HS & _). split; auto. split; auto. split; auto. split; [|repeat split; reflexivity].
  assert (HB : Forall (fun x : f32 => is_finite x = true /\ Rabs (B2R x) <= 221) (elts ramp)).
  { apply Forall_forall. intros x Hx. unfold ramp in Hx. cbn [elts] in Hx. apply in_map_iff in Hx as (k & <- & Hk). apply in_seq in Hk.
    destruct (val_int (Z.of_nat k) ltac:(lia)) as [E Fk]. split; [exact Fk|]. rewrite E, <- abs_IZR. apply IZR_le. lia. }
  repeat (apply Forall_cons; [exact HB|]). apply Forall_nil.
Qed.

(** ** C98: decompose, serialize with a float codec that moves numbers by the
    fraction d of their magnitude and e, parse, compose: the error of a sample
    does not depend on the size of the signal *)
Theorem C98_samples p (b : buffer f32) data cd sf q d e B :
  accepted p -> reachable p b -> Forall (fun n => (1 <= n)%Z) (shape p) ->
  (Z.of_nat (level_rows p 0) < 2 ^ 31)%Z -> (Z.of_nat (level_cols p 0) < 2 ^ 31)%Z ->
  (Z.of_nat (level_rows p 0) * Z.of_nat (level_cols p 0) < 2 ^ 32)%Z ->
  (1 <= signum p)%Z -> Z.of_nat (length data) = signum p -> Forall (shaped p) data ->
  0 <= B <= 2 ^ 46 -> Forall (fun m => Forall (fun x : f32 => is_finite x = true /\ Rabs (B2R x) <= B) (elts m)) data ->
  (1 <= sf)%Z -> codec_faithful cd (33 - Z.min 31 sf) q -> codec_total cd (33 - Z.min 31 sf) ->
  0 <= d <= 1 / 2 -> 0 <= e <= 1 -> loses d e q ->
  exists b0 blob b1 out, decompose b data null_denoiser = Ok (true, b0) /\
    serialize cd (patterns b0) sf = Ok (Some blob) /\ Forall is_byte blob /\
    (forall legacy extra, parse cd legacy (blob ++ extra) = Ok (Some b1)) /\
    compose (floats b1) 0 = Ok (true, out) /\ length out = length data /\
    forall c m o, nth_error data c = Some m -> nth_error out c = Some o ->
      sized (drows p) (dcols p) o /\ all_finite o /\
      forall i j, (i < drows p)%nat -> (j < dcols p)%nat ->
        Rabs (at_ (values o) i j - at_ (values m) i j) <=
          float_rel (/ 2 ^ 24) p * (sqrt (INR (window_area p)) * B) + underflow (/ 2 ^ 24) (/ 2 ^ 150) p
          + step_gain (/ 2 ^ 24) p ^ nsteps p *
            spread p (lost p (/ 2 ^ 24) (/ 2 ^ 150) d e B) (lost p (/ 2 ^ 24) (/ 2 ^ 150) d e B).
Proof. consts. exact (fun HA => stored_samples p HA b data cd sf q d e B). Qed.
Print Assumptions C98_samples.
(** an 8-bit picture, up to 6 steps of DB1, a codec that keeps the upper
    33 - sf bits: with steps + sf at most 13 every level comes back or the one
    below it; every further bit doubles the distance *)
Theorem C98_picture p (b : buffer f32) data cd sf j :
  accepted p -> reachable p b -> length (shape p) = 2%nat -> wtype p = 1%Z -> (steps p <= 6)%Z ->
  Forall (fun n => (1 <= n)%Z) (shape p) ->
  (Z.of_nat (level_rows p 0) < 2 ^ 31)%Z -> (Z.of_nat (level_cols p 0) < 2 ^ 31)%Z ->
  (Z.of_nat (level_rows p 0) * Z.of_nat (level_cols p 0) < 2 ^ 32)%Z ->
  (1 <= signum p)%Z -> Z.of_nat (length data) = signum p -> Forall (shaped p) data ->
  Forall (fun m => Forall (fun x => exists z, (0 <= z <= 255)%Z /\ x = of_pixel z) (elts m)) data ->
  (1 <= sf <= 23)%Z -> (0 <= j)%Z -> (steps p + sf <= 13 + j)%Z ->
  codec_faithful cd (33 - sf) (clear_low (33 - sf)) -> codec_total cd (33 - sf) ->
  exists b0 blob b1 out, decompose b data null_denoiser = Ok (true, b0) /\
    serialize cd (patterns b0) sf = Ok (Some blob) /\ Forall is_byte blob /\
    (forall legacy extra, parse cd legacy (blob ++ extra) = Ok (Some b1)) /\
    compose (floats b1) 0 = Ok (true, out) /\ length out = length data /\
    forall c m o, nth_error data c = Some m -> nth_error out c = Some o ->
      sized (drows p) (dcols p) o /\
      forall y x z, (y < drows p)%nat -> (x < dcols p)%nat -> (0 <= z <= 255)%Z -> mget m y x = Ok (of_pixel z) ->
        exists v, mget o y x = Ok v /\ (z - 2 ^ j <= to_pixel v <= z + 2 ^ j - 1)%Z.
Proof.
  intros HA Hr H2 H1 H6 Hpos S1 S2 S3 Hsig HL HS HV Hsf Hj Hsum HC HT.
  pose proof (P_Impl.acc_steps p HA) as ST.
  assert (M : (Z.min 31 sf = sf)%Z) by lia.
  assert (Q : loses (powerRZ 2 (sf - 24)) (powerRZ 2 (sf - 150)) (clear_low (33 - sf))) by (apply C96_truncation; lia).
  rewrite <- !(bpow_powerRZ radix2) in Q.
  assert (D : 0 <= bpow radix2 (sf - 24) <= 1 / 2).
  { split; [apply bpow_ge_0|]. replace (1 / 2) with (bpow radix2 (-1)) by (cbn [bpow]; simpl; lra). apply bpow_le. lia. }
  assert (E : 0 <= bpow radix2 (sf - 150) <= / 10 ^ 9).
  { split; [apply bpow_ge_0|]. apply Rle_trans with (bpow radix2 (-30)); [apply bpow_le; lia|]. cbn [bpow]. apply Rinv_le_contravar; [lra|].
    rewrite (pow_IZR 10 9). apply IZR_le. vm_compute. discriminate. }
  assert (J1 : (1 <= 2 ^ j)%Z) by (apply (Z.pow_le_mono_r 2 0 j); lia).
  assert (JR : IZR (2 ^ j) = bpow radix2 j) by (rewrite <- (IZR_Zpower radix2) by lia; reflexivity).
  assert (X : bpow radix2 (sf - 24) * 2 ^ nsteps p <= bpow radix2 (-11) * bpow radix2 j).
  { replace (2 ^ nsteps p) with (bpow radix2 (steps p)).
    - rewrite <- !bpow_plus. apply bpow_le. lia.
    - unfold nsteps. rewrite <- (Z2Nat.id (steps p)) at 1 by lia. rewrite (pow_IZR 2 (Z.to_nat (steps p))), <- (IZR_Zpower radix2) by lia. reflexivity. }
  pose proof (sum_db1 p HA H1 H2 H6 (bpow radix2 (sf - 24)) (bpow radix2 (sf - 150)) _ (proj1 D) E X) as B.
  apply (stored_levels p HA b data cd sf (clear_low (33 - sf)) (bpow radix2 (sf - 24)) (bpow radix2 (sf - 150)) (2 ^ j)); auto; try lia; try lra.
  - rewrite M. exact HC.
  - rewrite M. exact HT.
  - eapply Rle_trans; [exact B|]. rewrite JR. assert (J : 1 <= bpow radix2 j) by (rewrite <- JR; apply IZR_le; exact J1).
    assert (B11 : bpow radix2 (-11) = / 2048) by reflexivity. rewrite B11. lra.
Qed.
Print Assumptions C98_picture.
(** 3 steps and sf_compression 10 meet this with j = 0 *)
Definition shot : params := Params [64; 48]%Z 1 3 1.
Definition gray (z : Z) : mat f32 := Mat 48 64 (repeat (of_pixel z) (48 * 64)).
Example C98_case : accepted shot /\ (exists b : buffer f32, reachable shot b) /\ Forall (shaped shot) [gray 77] /\
  Forall (fun m => Forall (fun x => exists z, (0 <= z <= 255)%Z /\ x = of_pixel z) (elts m)) [gray 77] /\
  Forall (fun n => (1 <= n)%Z) (shape shot) /\ (steps shot + 10 <= 13 + 0)%Z /\
  level_rows shot 0 = 48%nat /\ level_cols shot 0 = 64%nat /\
  codec_faithful plain_codec (33 - 10) (clear_low 23) /\ codec_total plain_codec (33 - 10).
Proof.
  split; [unfold accepted, shot, params_rep, legal, u64, i32; cbn [shape signum steps wtype length]; repeat split; auto; repeat constructor; lia|].
  split; [eexists; apply reach_new; vm_compute; reflexivity|].
  split; [apply Forall_cons; [|apply Forall_nil]; split; [unfold mwf, gray; cbn [rows cols elts]; apply repeat_length|split; reflexivity]|].
  split. { apply Forall_cons; [|apply Forall_nil]. apply Forall_forall. intros x Hx. exists 77%Z. split; [lia|]. exact (repeat_spec _ _ _ Hx). }
  split; [repeat constructor; lia|]. split; [cbn; lia|]. split; [reflexivity|]. split; [reflexivity|].
  split; [apply plain_faithful; lia|]. intros l; eexists; reflexivity.
Qed.
