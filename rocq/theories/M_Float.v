(** * M_Float: the float and double of the program are IEEE 754 binary32 and
    binary64 with rounding to nearest (Flocq's formalisation; NaN payloads are
    not distinguished), and the pixel conversions of
    sources/img/jpeg_codecs.cc in this arithmetic. *)
Require Import ZArith Bool.
Require Import Flocq.Core.Core Flocq.IEEE754.BinarySingleNaN.
Open Scope Z_scope.

Definition f32 := binary_float 24 128.
Definition f64 := binary_float 53 1024.
#[global] Instance prec32 : Prec_gt_0 24 := eq_refl.
#[global] Instance emax32 : Prec_lt_emax 24 128 := eq_refl.
#[global] Instance prec64 : Prec_gt_0 53 := eq_refl.
#[global] Instance emax64 : Prec_lt_emax 53 1024 := eq_refl.

(** conversions from integers *)
Definition f32_of_int (z : Z) : f32 := binary_normalize 24 128 _ _ mode_NE z 0 false.
Definition f64_of_int (z : Z) : f64 := binary_normalize 53 1024 _ _ mode_NE z 0 false.

(** double to float *)
Definition f32_of_f64 (x : f64) : f32 :=
  match x with
  | B754_zero s => B754_zero s
  | B754_infinity s => B754_infinity s
  | B754_nan => B754_nan
  | B754_finite s m e _ => binary_normalize 24 128 _ _ mode_NE (cond_Zopp s (Zpos m)) e s
  end.

Definition f32_mul (x y : f32) : f32 := Bmult mode_NE x y.
Definition f32_lt (x y : f32) : bool := Bltb x y.

(** jpeg_codecs.cc:67, 220 [img(j, i, c) / 255.] stored in a DataType: a
    division of doubles, then a conversion *)
Definition of_pixel (z : Z) : f32 := f32_of_f64 (Bdiv mode_NE (f64_of_int z) (f64_of_int 255)).

(** jpeg_codecs.cc:26-30 ToPixel<float>.  std::min(a, b) is [b < a ? b : a],
    std::max(a, b) is [a < b ? b : a].  The conversion to uint8_t truncates;
    it is undefined outside 0..255, see [C44_clamped]. *)
Definition clamp01 (x : f32) : f32 :=
  let y := if f32_lt x (f32_of_int 1) then x else f32_of_int 1 in
  if f32_lt (f32_of_int 0) y then y else f32_of_int 0.
Definition to_pixel (x : f32) : Z := Btrunc (f32_mul (clamp01 x) (f32_of_int 255)).

(** jpeg_codecs.cc:20-24 CheckRangeQuality: true when it throws *)
Definition quality_refused (q : f32) : bool := f32_lt q (f32_of_int 0) || f32_lt (f32_of_int 1) q.
(** jpeg_codecs.cc:95, 246 [static_cast<int>(quality_ * 100)]; undefined for
    NaN and values that do not fit *)
Definition quality_percent (q : f32) : option Z :=
  let v := f32_mul q (f32_of_int 100) in
  if is_finite v && (Z.abs (Btrunc v) <? 2 ^ 31) then Some (Btrunc v) else None.
