(** * T_Photo: property C113, the program examples/image_example.cc: import a
    JPEG picture with a threshold denoiser, serialize with loss, parse, export. *)
Require Import List Bool Arith ZArith QArith Qreals Reals Lra Lia.
Require Import Flocq.Core.Core Flocq.IEEE754.BinarySingleNaN.
Require Import Verif.M_Base Verif.M_Params Verif.M_Wavelet Verif.M_Buffer Verif.M_View Verif.M_Image Verif.M_Real Verif.M_Float Verif.M_Binary32 Verif.M_Denoise
  Verif.M_Archive Verif.M_Serializer Verif.M_SfEqual.
Require Import Verif.S_Params Verif.S_Buffer Verif.S_Exact Verif.S_Round Verif.S_Stable Verif.S_Local Verif.S_Image Verif.S_Serializer Verif.S_Lossy.
Require Import Verif.P_Bin2 Verif.P_Float Verif.P_Binary32 Verif.P_Blob Verif.P_Peak2 Verif.P_Pipe2 Verif.P_Photo Verif.T_Image Verif.T_Lossy.
Import ListNotations.
Open Scope R_scope.

Local Ltac consts :=
  replace (/ 2 ^ 24) with u32 by (unfold u32; rewrite (pow_IZR 2 24); reflexivity);
  replace (/ 2 ^ 150) with eta32 by (unfold eta32; rewrite (pow_IZR 2 150); reflexivity).

(** ** C113: every call succeeds, and every 8-bit level moves by at most k, if
    k/255 (with a margin for the rounding to levels) is not below the bound of
    C105 for samples of magnitude 1 *)
Theorem C113_picture p (b : buffer f32) lib quality data img (ta tb : f32) T cd sf q d e k :
  let ic := ImageCodec f32 (fun data => rgb_decode lib of_pixel data [] 0)
                           (fun image => rgb_encode lib to_pixel quality image 0) 3 in
  accepted p -> reachable p b ->
  shape p = [Z.of_nat (cwidth img); Z.of_nat (cheight img)] -> signum p = 3%Z ->
  data <> [] -> jload lib data = Some img -> cimg_wf img -> cspectrum img = 3%nat ->
  cwidth img <> 0%nat -> cheight img <> 0%nat ->
  Forall (fun z => 0 <= z <= 255)%Z (cpixels img) ->
  (Z.of_nat (level_rows p 0) < 2 ^ 31)%Z -> (Z.of_nat (level_cols p 0) < 2 ^ 31)%Z ->
  (Z.of_nat (level_rows p 0) * Z.of_nat (level_cols p 0) < 2 ^ 32)%Z ->
  0 <= T -> (forall s, (s < nsteps p)%nat -> is_finite (get_threshold ta tb s) = true /\ B2R (get_threshold ta tb s) <= T) ->
  (1 <= sf)%Z -> codec_faithful cd (33 - Z.min 31 sf) q -> codec_total cd (33 - Z.min 31 sf) ->
  0 <= d <= 1 / 2 -> 0 <= e <= 1 -> loses d e q -> (1 <= k)%Z ->
  float_rel (/ 2 ^ 24) p * sqrt (INR (window_area p)) + underflow (/ 2 ^ 24) (/ 2 ^ 150) p
    + step_gain (/ 2 ^ 24) p ^ nsteps p *
      spread p (Rmax (T + e) (lost p (/ 2 ^ 24) (/ 2 ^ 150) d e 1)) (lost p (/ 2 ^ 24) (/ 2 ^ 150) d e 1) <= IZR k * (38 / 10 ^ 4) ->
  exists b0 blob b1 img' size, import_string b data (threshold_denoiser ta tb) ic 0 = Ok (kOk, b0) /\
    serialize cd (patterns b0) sf = Ok (Some blob) /\ Forall is_byte blob /\
    (forall legacy extra, parse cd legacy (blob ++ extra) = Ok (Some b1)) /\
    export_string (floats b1) ic 0 = (let* bytes := jsave lib img' size quality in Ok (kOk, Some bytes)) /\
    cwidth img' = cwidth img /\ cheight img' = cheight img /\ cspectrum img' = 3%nat /\ cimg_wf img' /\
    forall x y c z, (x < cwidth img)%nat -> (y < cheight img)%nat -> (c < 3)%nat -> pixel img x y c = Some z ->
      exists z', pixel img' x y c = Some z' /\ (z - k <= z' <= z + k - 1)%Z.
Proof. consts. exact (photo_stored p b lib quality data img ta tb T cd sf q d e k). Qed.
Print Assumptions C113_picture.

(** ** up to 6 steps of DB1, ThresholdAbsDenoiseAlgorithm(0, t), a codec that
    keeps the upper 33 - sf bits, steps + sf at most 13: levels move by at most
    1 + 1117 t, that is 1 + 4.4 t in units of the full range *)
Theorem C113_db1 p (b : buffer f32) lib quality data img (t : f32) cd sf k :
  let ic := ImageCodec f32 (fun data => rgb_decode lib of_pixel data [] 0)
                           (fun image => rgb_encode lib to_pixel quality image 0) 3 in
  accepted p -> reachable p b -> wtype p = 1%Z -> (steps p <= 6)%Z ->
  shape p = [Z.of_nat (cwidth img); Z.of_nat (cheight img)] -> signum p = 3%Z ->
  data <> [] -> jload lib data = Some img -> cimg_wf img -> cspectrum img = 3%nat ->
  cwidth img <> 0%nat -> cheight img <> 0%nat ->
  Forall (fun z => 0 <= z <= 255)%Z (cpixels img) ->
  (Z.of_nat (level_rows p 0) < 2 ^ 31)%Z -> (Z.of_nat (level_cols p 0) < 2 ^ 31)%Z ->
  (Z.of_nat (level_rows p 0) * Z.of_nat (level_cols p 0) < 2 ^ 32)%Z ->
  is_finite t = true -> 0 <= B2R t -> (1 <= k)%Z -> 1117 * B2R t <= IZR k - 1 ->
  (1 <= sf)%Z -> (steps p + sf <= 13)%Z ->
  codec_faithful cd (33 - sf) (clear_low (33 - sf)) -> codec_total cd (33 - sf) ->
  exists b0 blob b1 img' size, import_string b data (threshold_denoiser (B754_zero false : f32) t) ic 0 = Ok (kOk, b0) /\
    serialize cd (patterns b0) sf = Ok (Some blob) /\ Forall is_byte blob /\
    (forall legacy extra, parse cd legacy (blob ++ extra) = Ok (Some b1)) /\
    export_string (floats b1) ic 0 = (let* bytes := jsave lib img' size quality in Ok (kOk, Some bytes)) /\
    cwidth img' = cwidth img /\ cheight img' = cheight img /\ cspectrum img' = 3%nat /\ cimg_wf img' /\
    forall x y c z, (x < cwidth img)%nat -> (y < cheight img)%nat -> (c < 3)%nat -> pixel img x y c = Some z ->
      exists z', pixel img' x y c = Some z' /\ (z - k <= z' <= z + k - 1)%Z.
Proof.
  intros ic HA Hr H1 H6 Ep E3 Hne Hl W Sp HW HH Hp S1 S2 S3 Ft Ht Hk Hkt Hsf Hsum HC HT.
  pose proof (P_Impl.acc_steps p HA) as ST.
  assert (M : (Z.min 31 sf = sf)%Z) by lia.
  assert (Q : loses (powerRZ 2 (sf - 24)) (powerRZ 2 (sf - 150)) (clear_low (33 - sf))) by (apply C96_truncation; lia).
  rewrite <- !(bpow_powerRZ radix2) in Q.
  assert (D : 0 <= bpow radix2 (sf - 24) <= 1 / 2).
  { split; [apply bpow_ge_0|]. replace (1 / 2) with (bpow radix2 (-1)) by (cbn [bpow]; simpl; lra). apply bpow_le. lia. }
  assert (E : 0 <= bpow radix2 (sf - 150) <= / 10 ^ 9).
  { split; [apply bpow_ge_0|]. apply Rle_trans with (bpow radix2 (-30)); [apply bpow_le; lia|]. cbn [bpow]. apply Rinv_le_contravar; [lra|].
    rewrite (pow_IZR 10 9). apply IZR_le. vm_compute. discriminate. }
  assert (X : bpow radix2 (sf - 24) * 2 ^ nsteps p <= bpow radix2 (-11)).
  { replace (2 ^ nsteps p) with (bpow radix2 (steps p)).
    - rewrite <- !bpow_plus. apply bpow_le. lia.
    - unfold nsteps. rewrite <- (Z2Nat.id (steps p)) at 1 by lia. rewrite (pow_IZR 2 (Z.to_nat (steps p))), <- (IZR_Zpower radix2) by lia. reflexivity. }
  assert (L2 : length (shape p) = 2%nat) by (rewrite Ep; reflexivity).
  pose proof (photo_db1 p HA H1 L2 H6 (B2R t) (bpow radix2 (sf - 24)) (bpow radix2 (sf - 150)) _ Ht (proj1 D) E X) as B.
  apply (photo_stored p b lib quality data img (B754_zero false : f32) t (B2R t) cd sf (clear_low (33 - sf)) (bpow radix2 (sf - 24)) (bpow radix2 (sf - 150)) k); auto; try lra.
  - intros s Hs. destruct (flat_threshold t s) as [Q1 Q2]; auto; [unfold nsteps in Hs; lia|]. split; auto. rewrite Q2. lra.
  - rewrite M. exact HC.
  - rewrite M. exact HT.
  - eapply Rle_trans; [exact B|]. assert (B11 : bpow radix2 (-11) = / 2048) by reflexivity. rewrite B11. lra.
Qed.
Print Assumptions C113_db1.

(** 4 x 4 pixels, two steps of DB1, sf_compression 11 and the threshold of image_example.cc, 0.07f *)
Definition postcard : cimg := CImg 4 4 3 (map (fun i => Z.of_nat (i * 5)) (seq 0 48)).
Definition postcard_params : params := Params [4; 4]%Z 3 2 1.
Definition photo_t : f32 := @B754_finite 24 128 false 9395241 (-27) eq_refl.
Example C113_case : accepted postcard_params /\
  (exists b : buffer f32, reachable postcard_params b) /\ wtype postcard_params = 1%Z /\ (steps postcard_params <= 6)%Z /\
  shape postcard_params = [Z.of_nat (cwidth postcard); Z.of_nat (cheight postcard)] /\ signum postcard_params = 3%Z /\
  jload plain_jpeg (4 :: 4 :: 3 :: map (fun i => Z.of_nat (i * 5)) (seq 0 48))%Z = Some postcard /\
  cimg_wf postcard /\ cspectrum postcard = 3%nat /\ Forall (fun z => 0 <= z <= 255)%Z (cpixels postcard) /\
  level_rows postcard_params 0 = 4%nat /\ level_cols postcard_params 0 = 4%nat /\
  is_finite photo_t = true /\ Rabs (B2R photo_t - 7 / 100) <= / 2 ^ 27 /\ 0 <= B2R photo_t /\ 1117 * B2R photo_t <= 80 - 1 /\
  (steps postcard_params + 11 <= 13)%Z /\
  codec_faithful plain_codec (33 - 11) (clear_low (33 - 11)) /\ codec_total plain_codec (33 - 11).
Proof.
  assert (A1 : accepted postcard_params)
    by (unfold accepted, postcard_params, params_rep, legal, u64, i32; cbn [shape signum steps wtype length]; repeat split; auto; repeat constructor; lia).
  assert (A5 : Forall (fun z => 0 <= z <= 255)%Z (cpixels postcard))
    by (apply Forall_forall; intros z Hz; apply in_map_iff in Hz as (i & <- & Hi); apply in_seq in Hi; lia).
  assert (E : B2R photo_t = 9395241 / 2 ^ 27).
  { unfold photo_t. cbn [B2R]. unfold F2R. cbn [Fnum Fexp cond_Zopp bpow]. replace (IZR (Z.pow_pos radix2 27)) with (2 ^ 27) by (rewrite (pow_IZR 2 27); reflexivity). reflexivity. }
  split; [exact A1|]. split; [eexists; apply reach_new; vm_compute; reflexivity|].
  do 2 (split; [cbn; lia|]). do 2 (split; [assumption || reflexivity|]). do 2 (split; [reflexivity|]). split; [reflexivity|]. split; [exact A5|].
  do 3 (split; [reflexivity|]). rewrite E. split; [apply Rabs_le; split; lra|]. do 2 (split; [lra|]). split; [cbn; lia|].
  split; [apply plain_faithful; lia|]. intros l; eexists; reflexivity.
Qed.
