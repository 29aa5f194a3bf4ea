(** * T_ColorF: properties C84 and C85, the colour conversions in binary32 *)
Require Import ZArith QArith Qreals Bool Reals Lra Lia List.
Require Import Flocq.Core.Core Flocq.IEEE754.BinarySingleNaN.
Require Import Verif.M_Base Verif.M_Params Verif.M_Buffer Verif.M_Image Verif.M_Float Verif.M_ColorF
  Verif.S_Image Verif.S_ColorF Verif.P_Float Verif.P_ColorF Verif.P_ColorF3 Verif.P_ColorF4 Verif.P_Literal Verif.T_Image.
Import ListNotations.
Open Scope R_scope.

(** ** C84: every float colour of the unit cube goes to finite hue, saturation
    and luminance and comes back within 0.001001 *)
Theorem C84_round_trip r g b : is_finite r = true -> is_finite g = true -> is_finite b = true ->
  0 <= B2R r <= 1 -> 0 <= B2R g <= 1 -> 0 <= B2R b <= 1 ->
  let '(h, s, l) := rgb_to_hsl32 r g b in
  let '(r', g', b') := hsl_to_rgb32 h s l in
  (is_finite h = true /\ is_finite s = true /\ is_finite l = true /\
   0 <= B2R h <= 1 /\ 0 <= B2R s <= 1001 / 1000 /\ 0 <= B2R l <= 1) /\
  (is_finite r' = true /\ is_finite g' = true /\ is_finite b' = true) /\
  Rabs (B2R r' - B2R r) <= 1001 / 10 ^ 6 /\ Rabs (B2R g' - B2R g) <= 1001 / 10 ^ 6 /\ Rabs (B2R b' - B2R b) <= 1001 / 10 ^ 6.
Proof. exact (colour_round_trip r g b). Qed.
Print Assumptions C84_round_trip.
(** within 0.00012 unless almost grey, and within 0.000012 unless two components
    are almost equal and largest *)
Theorem C84_sharp r g b : is_finite r = true -> is_finite g = true -> is_finite b = true ->
  0 <= B2R r <= 1 -> 0 <= B2R g <= 1 -> 0 <= B2R b <= 1 ->
  let M := Rmax (Rmax (B2R r) (B2R g)) (B2R b) in
  1001 / 10 ^ 6 <= M - Rmin (Rmin (B2R r) (B2R g)) (B2R b) ->
  let '(h, s, l) := rgb_to_hsl32 r g b in
  let '(r', g', b') := hsl_to_rgb32 h s l in
  (Rabs (B2R r' - B2R r) <= 12 / 10 ^ 5 /\ Rabs (B2R g' - B2R g) <= 12 / 10 ^ 5 /\ Rabs (B2R b' - B2R b) <= 12 / 10 ^ 5) /\
  ((B2R r = M \/ 101 / 10 ^ 6 <= M - B2R r) -> (B2R g = M \/ 101 / 10 ^ 6 <= M - B2R g) ->
   Rabs (B2R r' - B2R r) <= 12 / 10 ^ 6 /\ Rabs (B2R g' - B2R g) <= 12 / 10 ^ 6 /\ Rabs (B2R b' - B2R b) <= 12 / 10 ^ 6).
Proof. exact (colour_sharp r g b). Qed.
Print Assumptions C84_sharp.
Theorem C84_grey r : is_finite r = true -> 0 <= B2R r <= 1 ->
  let '(h, s, l) := rgb_to_hsl32 r r r in hsl_to_rgb32 h s l = (r, r, r).
Proof.
  intros F H. pose proof (grey_fixed r r r F H eq_refl eq_refl) as K. unfold through_hsl in K.
  destruct (rgb_to_hsl32 r r r) as ((h & s) & l). exact K.
Qed.
Print Assumptions C84_grey.
(** the saturation need not stay in [0,1]: white with two components a little
    lower is "more than" saturated *)
Theorem C84_saturation_refuted : exists r g b, is_finite r = true /\ is_finite g = true /\ is_finite b = true /\
  0 <= B2R r <= 1 /\ 0 <= B2R g <= 1 /\ 0 <= B2R b <= 1 /\
  f32_lt (f32_of_int 1) (snd (fst (rgb_to_hsl32 r g b))) = true.
Proof.
  set (x := binary_normalize 24 128 _ _ mode_NE (2 ^ 24 - 16781) (-24) false : f32).
  exists (f32_of_int 1), x, x. 
  assert (F1 : is_finite (f32_of_int 1) = true) by reflexivity. assert (Fx : is_finite x = true) by (vm_compute; reflexivity).
  destruct (int_val 1 ltac:(lia)) as (_ & V1). destruct (int_val 0 ltac:(lia)) as (F0 & V0).
  assert (Bx : 0 <= B2R x <= 1).
  { split; apply Rnot_lt_le; intros L.
    - assert (E : f32_lt x (f32_of_int 0) = false) by (vm_compute; reflexivity).
      rewrite f32_lt_val in E by auto. rewrite V0, Rlt_bool_true in E by auto. discriminate.
    - assert (E : f32_lt (f32_of_int 1) x = false) by (vm_compute; reflexivity).
      rewrite f32_lt_val in E by auto. rewrite V1, Rlt_bool_true in E by auto. discriminate. }
  rewrite V1. split; [auto|]. split; [auto|]. split; [auto|]. split; [lra|]. split; [auto|]. split; [auto|].
  vm_compute. reflexivity.
Qed.
Print Assumptions C84_saturation_refuted.
(** a case for the hypotheses of [C84_sharp]: the 8-bit colour (10, 20, 30) *)
Example C84_case : let r := of_pixel 10 in let g := of_pixel 20 in let b := of_pixel 30 in
  let M := Rmax (Rmax (B2R r) (B2R g)) (B2R b) in
  1001 / 10 ^ 6 <= M - Rmin (Rmin (B2R r) (B2R g)) (B2R b) /\ 101 / 10 ^ 6 <= M - B2R r /\ 101 / 10 ^ 6 <= M - B2R g.
Proof.
  cbv zeta. destruct (level 10 ltac:(lia)) as (_ & _ & N1). destruct (level 20 ltac:(lia)) as (_ & _ & N2). destruct (level 30 ltac:(lia)) as (_ & _ & N3).
  pose proof u32_range as U. unfold near in *. rewrite Rmax_right by (rewrite Rmax_right; lra). rewrite (Rmin_left (B2R (of_pixel 10))), Rmin_left by lra. lra.
Qed.

(** ** C85: an 8-bit colour comes back with every component the same or one less *)
Theorem C85_levels a b c : (0 <= a <= 255)%Z -> (0 <= b <= 255)%Z -> (0 <= c <= 255)%Z ->
  let '(h, s, l) := rgb_to_hsl32 (of_pixel a) (of_pixel b) (of_pixel c) in
  let '(r', g', b') := hsl_to_rgb32 h s l in
  (to_pixel r' = a \/ to_pixel r' = a - 1)%Z /\ (to_pixel g' = b \/ to_pixel g' = b - 1)%Z /\ (to_pixel b' = c \/ to_pixel b' = c - 1)%Z.
Proof.
  intros Ha Hb Hc. pose proof (pixel_hsl a b c Ha Hb Hc) as K. unfold through_hsl in K.
  destruct (rgb_to_hsl32 _ _ _) as ((h & s) & l). destruct (hsl_to_rgb32 h s l) as ((r' & g') & b'). exact K.
Qed.
Print Assumptions C85_levels.
(** so a colour JPEG decoded and encoded with the HSL codec hands the library a
    picture of the same size with every value the same or one less *)
Theorem C85_hsl_codec lib quality blob (image : list (mat f32)) start img :
  blob <> [] -> jload lib blob = Some img -> cimg_wf img -> cspectrum img = 3%nat ->
  cwidth img <> 0%nat -> cheight img <> 0%nat -> Forall mwf image ->
  Forall (fun z => 0 <= z <= 255)%Z (cpixels img) ->
  exists image' img' size, hsl_decode lib of_pixel rgb_to_hsl32 blob image start = Ok (true, image') /\
    hsl_encode lib to_pixel quality hsl_to_rgb32 image' start = (let* bytes := jsave lib img' size quality in Ok (Some bytes)) /\
    cwidth img' = cwidth img /\ cheight img' = cheight img /\ cspectrum img' = 3%nat /\ cimg_wf img' /\
    Forall2 (fun z z' => z' = z \/ z' = z - 1)%Z (cpixels img) (cpixels img').
Proof. exact (hsl_picture_levels lib quality blob image start img). Qed.
Print Assumptions C85_hsl_codec.
Lemma surjective3 {X Y Z : Type} (t : X * Y * Z) : t = (fst (fst t), snd (fst t), snd t).
Proof. destruct t as ((x & y) & z). reflexivity. Qed.
(** the RGB codec hands over the same picture (C62); the HSL codec does not *)
Theorem C85_same_picture_refuted : exists blob image img, jload plain_jpeg blob = Some img /\ cimg_wf img /\ cspectrum img = 3%nat /\
  Forall (fun z => 0 <= z <= 255)%Z (cpixels img) /\
  hsl_decode plain_jpeg of_pixel rgb_to_hsl32 blob [] 0 = Ok (true, image) /\
  exists blob', hsl_encode plain_jpeg to_pixel 100 hsl_to_rgb32 image 0 = Ok (Some blob') /\ jload plain_jpeg blob' <> Some img.
Proof.
  set (blob := [1; 1; 3; 10; 20; 30]%Z). set (img := CImg 1 1 3 [10; 20; 30]%Z).
  assert (W : cimg_wf img) by reflexivity.
  assert (R : Forall (fun z => 0 <= z <= 255)%Z (cpixels img)) by (repeat constructor; lia).
  destruct (hsl_picture plain_jpeg to_pixel of_pixel 100 rgb_to_hsl32 hsl_to_rgb32 blob [] 0 img) as (image' & img' & size & E1 & E2 & Ew & Eh & Es & W' & P);
    try reflexivity; try discriminate; [constructor|].
  exists blob, image', img. repeat (split; [first [reflexivity|assumption]|]).
  eexists. split; [exact E2|]. intros E.
  destruct (plain_lossless 100%Z img' 0%Z W') as (by' & B1 & _ & B2). cbn in B1. injection B1 as <-. rewrite B2 in E. injection E as ->.
  destruct (P 0%nat 0%nat) as (u & v & w & Pu & Pv & Pw & K); [cbn; lia|cbn; lia|].
  cbn in Pu, Pv, Pw. injection Pu as <-. injection Pv as <-. injection Pw as <-.
  assert (D : exists r g b, via rgb_to_hsl32 hsl_to_rgb32 (of_pixel 10) (of_pixel 20) (of_pixel 30) = (r, g, b) /\ to_pixel r = 9%Z).
  { do 3 eexists. split; [apply surjective3|]. vm_compute. reflexivity. }
  destruct D as (r & g & b & D1 & D2). rewrite D1 in K. destruct K as (K & _). rewrite D2 in K. discriminate K.
Qed.
Print Assumptions C85_same_picture_refuted.
(** grey pictures do come back the same *)
Theorem C85_grey a : (0 <= a <= 255)%Z ->
  let '(h, s, l) := rgb_to_hsl32 (of_pixel a) (of_pixel a) (of_pixel a) in
  let '(r', g', b') := hsl_to_rgb32 h s l in to_pixel r' = a /\ to_pixel g' = a /\ to_pixel b' = a.
Proof.
  intros H. destruct (level a H) as (F & B & _). pose proof (C84_grey (of_pixel a) F B) as K.
  destruct (rgb_to_hsl32 _ _ _) as ((h & s) & l). rewrite K. rewrite pixel_back by auto. auto.
Qed.
Print Assumptions C85_grey.
(** n passes lower a level by at most n and never raise it ... *)
Theorem C85_passes n a b c : (0 <= a <= 255)%Z -> (0 <= b <= 255)%Z -> (0 <= c <= 255)%Z ->
  let '(a', b', c') := passes n (a, b, c) in
  (Z.max 0 (a - Z.of_nat n) <= a' <= a /\ Z.max 0 (b - Z.of_nat n) <= b' <= b /\ Z.max 0 (c - Z.of_nat n) <= c' <= c)%Z.
Proof. exact (passes_levels n a b c). Qed.
Print Assumptions C85_passes.
(** ... and the loss adds up: thirty passes take (201, 117, 33) to (197, 112, 7),
    so "one pass settles the picture" is false *)
Theorem C85_settles_refuted : passes 30 (201, 117, 33)%Z = (197, 112, 7)%Z.
Proof. vm_compute. reflexivity. Qed.
Print Assumptions C85_settles_refuted.

(** the float literals of the conversions are correctly rounded, and so is the
    double literal of a comparison *)
Theorem C84_literals q : bpow radix2 (-46) <= Rabs (Q2R q) <= bpow radix2 100 ->
  (is_finite (f32_of_literal q) = true /\
   B2R (f32_of_literal q) = round radix2 (FLT_exp (-149) 24) ZnearestE (Q2R q)) /\
  (is_finite (M_Binary32.f64_of_literal q) = true /\
   B2R (M_Binary32.f64_of_literal q) = round radix2 (FLT_exp (-1074) 53) ZnearestE (Q2R q)).
Proof. exact (fun H => conj (literal_float q H) (literal_double q H)). Qed.
Print Assumptions C84_literals.
Example C84_literal_case : bpow radix2 (-46) <= Rabs (Q2R (1 # 10000)) <= bpow radix2 100.
Proof.
  unfold Q2R. cbn [Qnum Qden]. rewrite Rabs_pos_eq by lra. split.
  - apply Rle_trans with (bpow radix2 (-20)); [apply bpow_le; lia|]. change (bpow radix2 (-20)) with (/ 1048576). lra.
  - apply Rle_trans with (bpow radix2 0); [change (bpow radix2 0) with 1; lra|apply bpow_le; lia].
Qed.
