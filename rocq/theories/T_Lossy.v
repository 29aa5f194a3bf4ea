(** * T_Lossy: property C96 (what lossy compression does to the signal). *)
Require Import List Bool Arith ZArith Reals Lra Lia.
Require Import Flocq.Core.Core Flocq.IEEE754.BinarySingleNaN.
Require Import Verif.M_Base Verif.M_Params Verif.M_Buffer Verif.M_Float Verif.M_Binary32 Verif.M_Denoise
  Verif.M_Archive Verif.M_Serializer Verif.M_SfEqual.
Require Import Verif.S_Params Verif.S_Buffer Verif.S_Exact Verif.S_Round Verif.S_Stable Verif.S_Denoise Verif.S_Serializer Verif.S_Lossy.
Require Import Verif.P_Float Verif.P_Binary32 Verif.P_Blob Verif.P_Loc6 Verif.P_Lossy Verif.P_Lossy2.
Import ListNotations.
Open Scope R_scope.

Local Ltac consts :=
  replace (/ 2 ^ 24) with u32 by (unfold u32; rewrite (pow_IZR 2 24); reflexivity);
  replace (/ 2 ^ 150) with eta32 by (unfold eta32; rewrite (pow_IZR 2 150); reflexivity).

(** a float and its bit pattern *)
Theorem C96_pattern (x : f32) : f32_of_word (pattern x) = x.
Proof. exact (pattern_back x). Qed.
Print Assumptions C96_pattern.

(** C96: decompose (denoising or not), serialize with any sf_compression and a
    float codec that moves numbers by the fraction d of their magnitude and e,
    parse, compose. *)
Theorem C96_stored p (b : buffer f32) data cd sf q d e :
  accepted p -> reachable p b -> Forall (fun n => (1 <= n)%Z) (shape p) ->
  (Z.of_nat (level_rows p 0) < 2 ^ 31)%Z -> (Z.of_nat (level_cols p 0) < 2 ^ 31)%Z ->
  (Z.of_nat (level_rows p 0) * Z.of_nat (level_cols p 0) < 2 ^ 32)%Z ->
  (1 <= signum p)%Z -> Z.of_nat (length data) = signum p -> Forall (shaped p) data ->
  Forall all_finite data -> Forall (fun m => padded_energy p (values m) <= 2 ^ 220) data ->
  (1 <= sf)%Z -> codec_faithful cd (33 - Z.min 31 sf) q -> codec_total cd (33 - Z.min 31 sf) ->
  0 <= d <= 1 / 2 -> 0 <= e <= 1 -> loses d e q ->
  exists b0 blob b1 out, decompose b data null_denoiser = Ok (true, b0) /\
    serialize cd (patterns b0) sf = Ok (Some blob) /\ Forall is_byte blob /\
    (forall legacy extra, parse cd legacy (blob ++ extra) = Ok (Some b1)) /\
    compose (floats b1) 0 = Ok (true, out) /\ length out = length data /\
    forall c m o, nth_error data c = Some m -> nth_error out c = Some o ->
      sized (drows p) (dcols p) o /\ all_finite o /\
      error p (values o) (values m) <= lossy_error p (/ 2 ^ 24) (/ 2 ^ 150) d e (sqrt (padded_energy p (values m))).
Proof. consts. exact (fun HA => stored_binary32 p HA b data cd sf q d e). Qed.
Print Assumptions C96_stored.

(** with a denoiser that keeps or zeroes (both library denoisers: C86), what
    it removed is added *)
Theorem C96_denoised p (b : buffer f32) data den cd sf q d e :
  accepted p -> keeps_shape den -> keeps_or_zeroes den -> reachable p b -> Forall (fun n => (1 <= n)%Z) (shape p) ->
  (Z.of_nat (level_rows p 0) < 2 ^ 31)%Z -> (Z.of_nat (level_cols p 0) < 2 ^ 31)%Z ->
  (Z.of_nat (level_rows p 0) * Z.of_nat (level_cols p 0) < 2 ^ 32)%Z ->
  (1 <= signum p)%Z -> Z.of_nat (length data) = signum p -> Forall (shaped p) data ->
  Forall all_finite data -> Forall (fun m => padded_energy p (values m) <= 2 ^ 220) data ->
  (1 <= sf)%Z -> codec_faithful cd (33 - Z.min 31 sf) q -> codec_total cd (33 - Z.min 31 sf) ->
  0 <= d <= 1 / 2 -> 0 <= e <= 1 -> loses d e q ->
  exists b00 b0 blob b1 out, decompose b data null_denoiser = Ok (true, b00) /\
    decompose b data den = Ok (true, b0) /\
    serialize cd (patterns b0) sf = Ok (Some blob) /\ Forall is_byte blob /\
    (forall legacy extra, parse cd legacy (blob ++ extra) = Ok (Some b1)) /\
    compose (floats b1) 0 = Ok (true, out) /\ length out = length data /\
    forall c m ch00 ch0 o, nth_error data c = Some m -> nth_error (bdec b00) c = Some ch00 ->
      nth_error (bdec b0) c = Some ch0 -> nth_error out c = Some o ->
      sized (drows p) (dcols p) o /\ all_finite o /\
      error p (values o) (values m) <= lossy_error p (/ 2 ^ 24) (/ 2 ^ 150) d e (sqrt (padded_energy p (values m)))
        + step_gain (/ 2 ^ 24) p ^ nsteps p * sqrt (distance2 (map values ch00) (map values ch0)).
Proof. consts. exact (fun HA => stored_denoised_binary32 p HA b data den cd sf q d e). Qed.
Print Assumptions C96_denoised.

(** the bound in numbers, n the norm of the padded signal *)
Theorem C96_bound p d e n : accepted p -> 0 <= d <= 1 / 2 -> 0 <= e -> 0 <= n ->
  lossy_error p (/ 2 ^ 24) (/ 2 ^ 150) d e n <=
    (INR (passes p * nsteps p) * (75 / 10 ^ 7) + 103 / 100 * d) * n
    + 101 / 100 * e * sqrt (INR (level_rows p 0 * level_cols p 0)) + INR (nsteps p) / 2 ^ 73.
Proof. consts. exact (fun HA => lossy_small p HA d e n). Qed.
Print Assumptions C96_bound.

(** a codec that keeps the upper 33 - sf bits of every number loses this much:
    2^(sf-24) of every normal number *)
Theorem C96_truncation sf : (1 <= sf <= 24)%Z ->
  loses (powerRZ 2 (sf - 24)) (powerRZ 2 (sf - 150)) (clear_low (33 - sf)).
Proof.
  intros H. rewrite <- !(bpow_powerRZ radix2). replace (sf - 24)%Z with (sf - 1 - 23)%Z by lia. replace (sf - 150)%Z with (sf - 1 - 149)%Z by lia.
  replace (33 - sf)%Z with (32 - (sf - 1))%Z by lia. apply clear_low_loses. lia.
Qed.
Print Assumptions C96_truncation.

(** sf_compression 0: the floats come back as they were *)
Theorem C96_uncompressed cd legacy (b : buffer f32) : storable (patterns b) ->
  exists blob b1, serialize cd (patterns b) 0 = Ok (Some blob) /\
    (forall extra, parse cd legacy (blob ++ extra) = Ok (Some b1)) /\ floats b1 = b.
Proof. exact (floats_back cd legacy b). Qed.
Print Assumptions C96_uncompressed.

(** what a decomposition stores meets the hypotheses of C24 *)
Theorem C96_storable p (b0 : buffer f32) : accepted p -> Forall (fun n => (1 <= n)%Z) (shape p) ->
  (Z.of_nat (level_rows p 0) < 2 ^ 31)%Z -> (Z.of_nat (level_cols p 0) < 2 ^ 31)%Z ->
  (Z.of_nat (level_rows p 0) * Z.of_nat (level_cols p 0) < 2 ^ 32)%Z ->
  bpar b0 = p -> Z.of_nat (length (bdec b0)) = signum p -> (forall ch, In ch (bdec b0) -> has_layout p ch) ->
  storable (patterns b0) /\ indexable (patterns b0) /\ no_empty_subband (patterns b0) /\ int_sides (patterns b0).
Proof. exact (fun HA => patterns_storable p HA b0). Qed.
Print Assumptions C96_storable.

(** a decomposed channel has as many coefficients as the padded signal has samples *)
Theorem C96_count {T} p (ch : list (mat T)) : has_layout p ch -> coefficient_count ch = (level_rows p 0 * level_cols p 0)%nat.
Proof. exact (count_layout p ch). Qed.
Print Assumptions C96_count.

(** two channels of 13 x 17 samples, two steps of DB2, sf_compression 16, a
    codec that keeps 17 bits *)
Definition small_p : params := Params [17; 13]%Z 2 2 2.
Definition ramp : mat f32 := Mat 13 17 (map (fun k => Verif.M_Float.f32_of_int (Z.of_nat k)) (seq 0 221)).
Example C96_case : accepted small_p /\ (exists b : buffer f32, reachable small_p b) /\
  Forall (fun n => (1 <= n)%Z) (shape small_p) /\ level_rows small_p 0 = 16%nat /\ level_cols small_p 0 = 20%nat /\
  Forall (shaped small_p) [ramp; ramp] /\ Forall all_finite [ramp; ramp] /\
  Forall (fun m => padded_energy small_p (values m) <= 2 ^ 220) [ramp; ramp] /\
  codec_faithful plain_codec (33 - Z.min 31 16) (clear_low 17) /\ codec_total plain_codec (33 - Z.min 31 16) /\
  loses (powerRZ 2 (-8)) (powerRZ 2 (-134)) (clear_low 17).
Proof.
  assert (HA : accepted small_p) by (unfold accepted, small_p, params_rep, legal, u64, i32; cbn [shape signum steps wtype length]; repeat split; auto; repeat constructor; lia).
  assert (HS : shaped small_p ramp) by repeat constructor.
  assert (HB : bounded 221 ramp).
  { apply Forall_forall. intros x Hx. unfold ramp in Hx. cbn [elts] in Hx. apply in_map_iff in Hx as (k & <- & Hk). apply in_seq in Hk.
    destruct (val_int (Z.of_nat k) ltac:(lia)) as [E Fk]. split; [exact Fk|]. rewrite E, <- abs_IZR. apply IZR_le. lia. }
  assert (two : forall P : mat f32 -> Prop, P ramp -> Forall P [ramp; ramp]) by (intros P H; repeat constructor; exact H).
  split; [exact HA|].
  split; [eexists; apply reach_new; vm_compute; reflexivity|].
  split; [repeat constructor; lia|]. split; [reflexivity|]. split; [reflexivity|].
  split; [apply two, HS|]. split; [apply two, (bounded_finite 221), HB|].
  split; [apply two, (bounded_energy small_p HA 221); auto; rewrite (pow_IZR 2 46); apply IZR_le; lia|].
  split; [apply plain_faithful; lia|]. split; [intros l; eexists; reflexivity|].
  apply (C96_truncation 16). lia.
Qed.
