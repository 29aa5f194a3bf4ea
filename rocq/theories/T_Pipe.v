(** * T_Pipe: property C105, the pipeline of README.md: decompose with a
    threshold denoiser, serialize with loss, parse, compose. *)
Require Import List Bool Arith ZArith QArith Qreals Reals Lra Lia.
Require Import Flocq.Core.Core Flocq.IEEE754.BinarySingleNaN.
Require Import Verif.M_Base Verif.M_Params Verif.M_Wavelet Verif.M_Buffer Verif.M_Image Verif.M_Real Verif.M_Float Verif.M_Binary32 Verif.M_Denoise
  Verif.M_Archive Verif.M_Serializer Verif.M_SfEqual.
Require Import Verif.S_Params Verif.S_Buffer Verif.S_Exact Verif.S_Round Verif.S_Stable Verif.S_Local Verif.S_Serializer Verif.S_Lossy.
Require Import Verif.P_Bin2 Verif.P_Float Verif.P_Binary32 Verif.P_Blob Verif.P_Preview2 Verif.P_Peak2 Verif.P_Pipe Verif.P_Pipe2 Verif.T_Lossy.
Import ListNotations.
Open Scope R_scope.

Local Ltac consts :=
  replace (/ 2 ^ 24) with u32 by (unfold u32; rewrite (pow_IZR 2 24); reflexivity);
  replace (/ 2 ^ 150) with eta32 by (unfold eta32; rewrite (pow_IZR 2 150); reflexivity).

(** ** C105: thresholds at most T at every step, a codec that moves numbers by
    the fraction d of their magnitude and e: every call succeeds, and a sample
    moves by the rounding errors of C57, by T at most in each detail
    coefficient that the denoiser cleared, and by the loss of the codec *)
Theorem C105_samples p (b : buffer f32) data (ta tb : f32) T cd sf q d e B :
  accepted p -> reachable p b -> Forall (fun n => (1 <= n)%Z) (shape p) ->
  (Z.of_nat (level_rows p 0) < 2 ^ 31)%Z -> (Z.of_nat (level_cols p 0) < 2 ^ 31)%Z ->
  (Z.of_nat (level_rows p 0) * Z.of_nat (level_cols p 0) < 2 ^ 32)%Z ->
  (1 <= signum p)%Z -> Z.of_nat (length data) = signum p -> Forall (shaped p) data ->
  0 <= B <= 2 ^ 46 -> Forall (fun m => Forall (fun x : f32 => is_finite x = true /\ Rabs (B2R x) <= B) (elts m)) data ->
  0 <= T -> (forall s, (s < nsteps p)%nat -> is_finite (get_threshold ta tb s) = true /\ B2R (get_threshold ta tb s) <= T) ->
  (1 <= sf)%Z -> codec_faithful cd (33 - Z.min 31 sf) q -> codec_total cd (33 - Z.min 31 sf) ->
  0 <= d <= 1 / 2 -> 0 <= e <= 1 -> loses d e q ->
  exists b0 blob b1 out, decompose b data (threshold_denoiser ta tb) = Ok (true, b0) /\
    serialize cd (patterns b0) sf = Ok (Some blob) /\ Forall is_byte blob /\
    (forall legacy extra, parse cd legacy (blob ++ extra) = Ok (Some b1)) /\
    compose (floats b1) 0 = Ok (true, out) /\ length out = length data /\
    forall c m o, nth_error data c = Some m -> nth_error out c = Some o ->
      sized (drows p) (dcols p) o /\ all_finite o /\
      forall i j, (i < drows p)%nat -> (j < dcols p)%nat ->
        Rabs (at_ (values o) i j - at_ (values m) i j) <=
          float_rel (/ 2 ^ 24) p * (sqrt (INR (window_area p)) * B) + underflow (/ 2 ^ 24) (/ 2 ^ 150) p
          + step_gain (/ 2 ^ 24) p ^ nsteps p *
            spread p (Rmax (T + e) (lost p (/ 2 ^ 24) (/ 2 ^ 150) d e B)) (lost p (/ 2 ^ 24) (/ 2 ^ 150) d e B).
Proof. consts. exact (fun HA => pipeline_samples p HA b data ta tb T cd sf q d e B). Qed.
Print Assumptions C105_samples.

(** the example of README.md: one signal of n samples between -100 and 100,
    three steps of DB1, ThresholdAbsDenoiseAlgorithm(0, t) with t at most 1,
    sf_compression 16 with a codec that keeps the upper 17 bits *)
Theorem C105_readme n (b : buffer f32) m (t : f32) cd :
  let p := Params [n] 1 3 1 in
  (8 <= n <= 2 ^ 30)%Z -> reachable p b -> shaped p m ->
  Forall (fun x : f32 => is_finite x = true /\ Rabs (B2R x) <= 100) (elts m) ->
  is_finite t = true -> 0 <= B2R t <= 1 ->
  codec_faithful cd 17 (clear_low 17) -> codec_total cd 17 ->
  exists b0 blob b1 o, decompose b [m] (threshold_denoiser (B754_zero false : f32) t) = Ok (true, b0) /\
    serialize cd (patterns b0) 16 = Ok (Some blob) /\
    (forall legacy, parse cd legacy blob = Ok (Some b1)) /\
    compose (floats b1) 0 = Ok (true, [o]) /\ shaped p o /\ all_finite o /\
    forall i, (i < Z.to_nat n)%nat -> Rabs (at_ (values o) i 0 - at_ (values m) i 0) <= 222 / 100.
Proof.
  intros p Hn Hr HS HB Ft Ht HC HT.
  assert (HA : accepted p).
  { unfold accepted, p, params_rep, legal, u64, i32. cbn [shape signum steps wtype length]. repeat split; auto; try lia; repeat constructor; lia. }
  assert (LR : (Z.of_nat (level_rows p 0) < 2 ^ 31)%Z).
  { unfold level_rows. rewrite Nat.div_1_r. pose proof (round_up_range (nsteps p) (drows p)) as R. revert R. unfold p, nsteps, drows. cbn [shape steps].
    change (Z.to_nat 3) with 3%nat. change (2 ^ Z.of_nat 3)%Z with 8%Z. rewrite Z2Nat.id by lia. lia. }
  assert (LC : level_cols p 0 = 1%nat) by reflexivity.
  assert (D8 : powerRZ 2 (-8) = / 256) by (rewrite <- (bpow_powerRZ radix2); reflexivity).
  assert (E134 : 0 <= powerRZ 2 (-134) <= 1).
  { rewrite <- (bpow_powerRZ radix2). split; [apply bpow_ge_0|]. change 1 with (bpow radix2 0). apply bpow_le. lia. }
  assert (P1 : Forall (fun k => (1 <= k)%Z) (shape p)) by (constructor; [lia|constructor]).
  assert (P2 : (Z.of_nat (level_cols p 0) < 2 ^ 31)%Z) by (rewrite LC; lia).
  assert (P3 : (Z.of_nat (level_rows p 0) * Z.of_nat (level_cols p 0) < 2 ^ 32)%Z) by (rewrite LC; lia).
  assert (P4 : 0 <= 100 <= 2 ^ 46) by (split; [lra|]; rewrite (pow_IZR 2 46); apply IZR_le; lia).
  assert (P5 : forall s, (s < nsteps p)%nat -> is_finite (get_threshold (B754_zero false : f32) t s) = true /\ B2R (get_threshold (B754_zero false : f32) t s) <= B2R t).
  { intros s Hs. destruct (flat_threshold t s) as [Q1 Q2]; auto; [unfold p, nsteps in Hs; cbn [steps] in Hs; lia|]. split; auto. rewrite Q2. lra. }
  assert (P6 : loses (powerRZ 2 (-8)) (powerRZ 2 (-134)) (clear_low 17)) by (apply (C96_truncation 16); lia).
  destruct (pipeline_samples p HA b [m] (B754_zero false : f32) t (B2R t) cd 16 (clear_low 17) (powerRZ 2 (-8)) (powerRZ 2 (-134)) 100)
    as (b0 & blob & b1 & out & X1 & X2 & _ & X3 & X4 & X5 & X6); auto; try (cbn; lia); try lra.
  destruct out as [|o [|]]; try discriminate.
  destruct (X6 0%nat m o eq_refl eq_refl) as (Y1 & Y2 & Y3).
  exists b0, blob, b1, o. split; auto. split; auto. split; [intros legacy; specialize (X3 legacy []); rewrite app_nil_r in X3; exact X3|].
  split; auto. split; [exact Y1|]. split; auto. intros i Hi.
  eapply Rle_trans; [apply Y3; [exact Hi|cbn; lia]|]. apply (readme_numbers n (B2R t) HA Ht).
Qed.
Print Assumptions C105_readme.

(** its numbers: 1000 samples [index % 100], threshold 0.3f *)
Definition readme_signal : mat f32 := Mat 1000 1 (map (fun k => f32_of_int (Z.of_nat (k mod 100))) (seq 0 1000)).
Definition readme_t : f32 := @B754_finite 24 128 false 10066330 (-25) eq_refl.
Example C105_case : let p := Params [1000]%Z 1 3 1 in
  (8 <= 1000 <= 2 ^ 30)%Z /\ (exists b : buffer f32, reachable p b) /\ shaped p readme_signal /\
  Forall (fun x : f32 => is_finite x = true /\ Rabs (B2R x) <= 100) (elts readme_signal) /\
  is_finite readme_t = true /\ 0 <= B2R readme_t <= 1 /\ Rabs (B2R readme_t - 3 / 10) <= / 2 ^ 25 /\
  codec_faithful plain_codec 17 (clear_low 17) /\ codec_total plain_codec 17.
Proof.
  assert (E : B2R readme_t = 10066330 / 2 ^ 25).
  { unfold readme_t. cbn [B2R]. unfold F2R. cbn [Fnum Fexp cond_Zopp bpow]. replace (IZR (Z.pow_pos radix2 25)) with (2 ^ 25) by (rewrite (pow_IZR 2 25); reflexivity). reflexivity. }
  split; [lia|]. split; [eexists; apply reach_new; vm_compute; reflexivity|].
  split; [split; [unfold mwf, readme_signal; cbn [rows cols elts]; rewrite map_length, seq_length; reflexivity|split; reflexivity]|].
  split.
  { apply Forall_forall. intros x Hx. unfold readme_signal in Hx. cbn [elts] in Hx. apply in_map_iff in Hx as (k & <- & Hk).
    pose proof (Nat.mod_upper_bound k 100 ltac:(lia)) as U.
    destruct (val_int (Z.of_nat (k mod 100)) ltac:(lia)) as [Ek Fk]. split; [exact Fk|]. rewrite Ek, <- abs_IZR. apply IZR_le. lia. }
  split; [reflexivity|]. rewrite E. split; [split; lra|]. split; [apply Rabs_le; split; lra|].
  split; [apply plain_faithful; lia|]. intros l; eexists; reflexivity.
Qed.
