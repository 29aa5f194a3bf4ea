(** * M_ColorF: RGBToHSL and HSLToRGB of sources/img/color_space.cc in binary32,
    operation by operation (DataType is float, primitives.h:13). *)
Require Import ZArith QArith Bool.
Require Import Flocq.Core.Core Flocq.IEEE754.BinarySingleNaN.
Require Import Verif.M_Float Verif.M_Binary32.
Open Scope Z_scope.

Definition f32_add (x y : f32) : f32 := Bplus mode_NE x y.
Definition f32_sub (x y : f32) : f32 := Bminus mode_NE x y.
Definition f32_div (x y : f32) : f32 := Bdiv mode_NE x y.
Definition f32_abs (x : f32) : f32 := Babs x.

(** a decimal literal with suffix f: as [f64_of_literal] of M_Binary32,
    rounded to 24 bits *)
Definition f32_of_literal (q : Q) : f32 :=
  let n := Qnum q * 2 ^ 100 in
  let d := Zpos (Qden q) in
  binary_normalize 24 128 _ _ mode_NE (2 * (n / d) + (if n mod d =? 0 then 0 else 1)) (-101) false.

(** std::min({a, b, c}), std::max({a, b, c}): std::min_element and
    std::max_element of the list *)
Definition min3f (a b c : f32) : f32 :=
  let x := if f32_lt b a then b else a in if f32_lt c x then c else x.
Definition max3f (a b c : f32) : f32 :=
  let x := if f32_lt a b then b else a in if f32_lt x c then c else x.

(** [x < 0.5] and [x < 0.0001]: comparisons of doubles *)
Definition lt_half (x : f32) : bool := Bltb (f64_of_f32 x) (Bdiv mode_NE (f64_of_int 1) (f64_of_int 2)).
Definition lt_0001 (x : f32) : bool := Bltb (f64_of_f32 x) (f64_of_literal (1 # 10000)).

(** color_space.cc:9-52 RGBToHSL: hue, saturation, luminance *)
Definition rgb_to_hsl32 (red green blue : f32) : f32 * f32 * f32 :=
  let min_color := min3f red green blue in
  let max_color := max3f red green blue in
  let diff := f32_sub max_color min_color in
  let sum := f32_add max_color min_color in
  if f32_lt (f32_abs diff) (f32_of_literal (1 # 1000)) then (f32_of_int 0, f32_of_int 0, red)
  else
    let luminance := f32_div sum (f32_of_int 2) in
    let saturation := if lt_half luminance then f32_div diff sum else f32_div diff (f32_sub (f32_of_int 2) sum) in
    let hue :=
      if f32_lt (f32_abs (f32_sub max_color red)) (f32_of_literal (1 # 10000)) then
        f32_div (f32_sub green blue) diff
      else if f32_lt (f32_abs (f32_sub max_color green)) (f32_of_literal (1 # 10000)) then
        f32_add (f32_of_int 2) (f32_div (f32_sub blue red) diff)
      else
        f32_add (f32_of_int 4) (f32_div (f32_sub red green) diff) in
    let hue := f32_div hue (f32_of_int 6) in
    let hue := if f32_lt hue (f32_of_int 0) then f32_add hue (f32_of_int 1) else hue in
    (hue, saturation, luminance).

(** color_space.cc:82-114: the same chain of conditions for each component *)
Definition component32 (temp1 temp2 t : f32) : f32 :=
  if f32_lt t (f32_div (f32_of_int 1) (f32_of_int 6)) then
    f32_add temp2 (f32_mul (f32_mul (f32_sub temp1 temp2) (f32_of_int 6)) t)
  else if f32_lt t (f32_of_literal (1 # 2)) then temp1
  else if f32_lt t (f32_div (f32_of_int 2) (f32_of_int 3)) then
    f32_add temp2 (f32_mul (f32_mul (f32_sub temp1 temp2)
      (f32_sub (f32_div (f32_of_int 2) (f32_of_int 3)) t)) (f32_of_int 6))
  else temp2.

(** color_space.cc:54-115 HSLToRGB: red, green, blue *)
Definition hsl_to_rgb32 (hue saturation luminance : f32) : f32 * f32 * f32 :=
  if lt_0001 (f32_abs saturation) then (luminance, luminance, luminance)
  else
    let temp1 :=
      if lt_half luminance then f32_mul luminance (f32_add (f32_of_int 1) saturation)
      else f32_sub (f32_add luminance saturation) (f32_mul luminance saturation) in
    let temp2 := f32_sub (f32_mul (f32_of_int 2) luminance) temp1 in
    let third := f32_div (f32_of_int 1) (f32_of_int 3) in
    let temp_red := f32_add hue third in
    let temp_green := hue in
    let temp_blue := f32_sub hue third in
    let temp_red := if f32_lt (f32_of_int 1) temp_red then f32_sub temp_red (f32_of_int 1) else temp_red in
    let temp_blue := if f32_lt temp_blue (f32_of_int 0) then f32_add temp_blue (f32_of_int 1) else temp_blue in
    (component32 temp1 temp2 temp_red, component32 temp1 temp2 temp_green, component32 temp1 temp2 temp_blue).
