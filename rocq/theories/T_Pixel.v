(** * T_Pixel: property C44 (the pixel conversions in binary32), C64 (quality),
    and C61, C62 with these conversions *)
Require Import ZArith Bool List Reals Lra Lia.
Require Import Flocq.Core.Core Flocq.IEEE754.BinarySingleNaN.
Require Import Verif.M_Base Verif.M_Params Verif.M_Buffer Verif.M_Image Verif.M_Float
  Verif.S_Params Verif.S_Buffer Verif.S_Serializer Verif.S_Image Verif.P_Image Verif.P_Float.
Import ListNotations.
Open Scope Z_scope.

(** ** C44: every 8-bit value survives decoding and encoding *)
Theorem C44_pixel_round_trip z : 0 <= z <= 255 -> to_pixel (of_pixel z) = z.
Proof. exact (pixel_back z). Qed.
Print Assumptions C44_pixel_round_trip.
(** any float, NaN and infinities included, gives an 8-bit value *)
Theorem C44_clamped x : 0 <= to_pixel x <= 255.
Proof. exact (to_pixel_range x). Qed.
Print Assumptions C44_clamped.
Theorem C44_special : to_pixel B754_nan = 255 /\ to_pixel (B754_infinity false) = 255 /\ to_pixel (B754_infinity true) = 0.
Proof. vm_compute. auto. Qed.
Print Assumptions C44_special.
(** the order of samples is kept *)
Theorem C44_monotone x y : is_finite x = true -> is_finite y = true -> (B2R x <= B2R y)%R -> to_pixel x <= to_pixel y.
Proof. exact (to_pixel_mono x y). Qed.
Print Assumptions C44_monotone.
(** a sample in [0,1] is quantised to the step below it (up to rounding) *)
Theorem C44_quantised x : is_finite x = true -> (0 <= B2R x <= 1)%R ->
  (255 * B2R x - 1 - bpow radix2 (-16) < IZR (to_pixel x) <= 255 * B2R x + bpow radix2 (-16))%R.
Proof. exact (to_pixel_close x). Qed.
Print Assumptions C44_quantised.
Theorem C44_decoded z : 0 <= z <= 255 ->
  is_finite (of_pixel z) = true /\ (0 <= B2R (of_pixel z) <= 1)%R /\
  (Rabs (B2R (of_pixel z) - IZR z / 255) <= bpow radix2 (-24) + bpow radix2 (-53))%R.
Proof. exact (of_pixel_close z). Qed.
Print Assumptions C44_decoded.
Example C44_case : is_finite (of_pixel 77) = true /\ to_pixel (of_pixel 77) = 77 /\
  to_pixel (f32_of_int (-3)) = 0 /\ to_pixel (f32_of_int 2) = 255.
Proof. vm_compute. auto. Qed.

(** ** C61 in binary32: with a JPEG library that loses nothing samples in [0,1]
    come back within one step of 1/255 *)
Theorem C61_float_round_trip lib quality (image old : list (mat f32)) start start' :
  lossless lib quality -> Forall mwf image -> encodable 3 image start ->
  (forall m x, In m image -> In x (elts m) -> is_finite x = true /\ (0 <= B2R x <= 1)%R) ->
  exists bytes image', rgb_encode lib to_pixel quality image start = Ok (Some bytes) /\
    rgb_decode lib of_pixel bytes old start' = Ok (true, image') /\
    forall k m, (k < 3)%nat -> nth_error image (start + k) = Some m ->
      exists m', nth_error image' (start' + k) = Some m' /\ rows m' = rows m /\ cols m' = cols m /\
        Forall2 (fun x x' => (Rabs (B2R x' - B2R x) <= 1 / 255 + bpow radix2 (-22))%R) (elts m) (elts m').
Proof.
  intros HL W HE Hx. destruct (proj2 (rgb_encode_when lib to_pixel quality image start W) HE) as (img & size & HS & E).
  destruct (round_trip lib to_pixel of_pixel quality 3 (rgb_encode lib to_pixel quality) image old start start' img size HL HS W E)
    as (bytes & E1 & im' & E2 & E3). exists bytes, im'. split; [exact E1|]. split; [exact E2|].
  intros k m Hk Hm. exists (map_mat (fun x => of_pixel (to_pixel x)) m). split; [auto|]. split; [reflexivity|]. split; [reflexivity|].
  pose proof (fun x => Hx m x (nth_error_In _ _ Hm)) as Hx'. unfold map_mat; cbn [elts].
  induction (elts m) as [|x l IH]; cbn [map]; constructor.
  - destruct (Hx' x (or_introl eq_refl)). apply pixel_error; auto.
  - apply IH. intros y Hy. apply Hx'. right. exact Hy.
Qed.
Print Assumptions C61_float_round_trip.

(** ** C62 in binary32, whatever the other float operations do: importing a
    colour JPEG into WaveletImage(channels, w, h) and exporting it hands the
    library the picture it loaded *)
Theorem C62_float_same_picture (A : Arith f32) lib quality channels data den start img :
  let cd := ImageCodec f32 (fun data => rgb_decode lib of_pixel data [] 0)
                           (fun image => rgb_encode lib to_pixel quality image 0) 3 in
  let w := Z.of_nat (cwidth img) in let h := Z.of_nat (cheight img) in
  accepted (Params [w; h] channels 0 1) -> channels < 2 ^ 31 -> keeps_shape den ->
  data <> [] -> jload lib data = Some img -> cimg_wf img -> cspectrum img = 3%nat ->
  cwidth img <> 0%nat -> cheight img <> 0%nat ->
  Forall (fun z => 0 <= z <= 255) (cpixels img) ->
  0 <= start -> start + 3 <= channels ->
  exists b b' size, @new_image f32 channels w h = Ok b /\ import_string b data den cd start = Ok (kOk, b') /\
    export_string b' cd start = let* bytes := jsave lib img size quality in Ok (kOk, Some bytes).
Proof.
  intros cd w h H1 H2 H3 H4 H5 H6 H7 H8 H9 H10 H11 H12.
  apply (picture_round_trip lib to_pixel of_pixel quality channels data den start img); auto.
  eapply Forall_impl; [|exact H10]. intros z. apply pixel_back.
Qed.
Print Assumptions C62_float_same_picture.

(** ** C64: the quality of a JPEG codec: numbers outside [0,1] are refused, the
    others give a percentage; NaN is accepted and its conversion undefined *)
Theorem C64_refused q : is_finite q = true -> quality_refused q = true <-> (B2R q < 0 \/ 1 < B2R q)%R.
Proof. exact (quality_refused_iff q). Qed.
Print Assumptions C64_refused.
Theorem C64_infinite s : quality_refused (B754_infinity s) = true.
Proof. destruct s; reflexivity. Qed.
Print Assumptions C64_infinite.
Theorem C64_accepted q : is_nan q = false -> quality_refused q = false ->
  exists n, quality_percent q = Some n /\ 0 <= n <= 100.
Proof. exact (quality_ok q). Qed.
Print Assumptions C64_accepted.
Theorem C64_accepted_is_defined_refuted : exists q, quality_refused q = false /\ quality_percent q = None.
Proof. exists B754_nan. vm_compute. auto. Qed.
Print Assumptions C64_accepted_is_defined_refuted.
Example C64_case : is_nan (of_pixel 128) = false /\ quality_refused (of_pixel 128) = false /\ quality_percent (of_pixel 128) = Some 50 /\
  quality_refused (B754_infinity false) = true.
Proof. vm_compute. auto. Qed.
