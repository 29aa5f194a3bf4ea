(** * M_Color: RGBToHSL and HSLToRGB of sources/img/color_space.cc in exact
    arithmetic.

    Simplification: samples are reals and the literals 0.001f, 0.0001f,
    0.0001, 1.f/3.f, 2.f/3.f, 1.f/6.f are these rationals; the program
    computes in binary32. *)
Require Import Reals.
Open Scope R_scope.

(** std::min({red, green, blue}) and std::max({red, green, blue}) *)
Definition min3 (r g b : R) : R := Rmin (Rmin r g) b.
Definition max3 (r g b : R) : R := Rmax (Rmax r g) b.

(** color_space.cc:40-42, [if (hue < 0) hue += 1] after [hue /= 6] *)
Definition fold_hue (x : R) : R := if Rlt_dec (x / 6) 0 then x / 6 + 1 else x / 6.

(** color_space.cc:9-52 RGBToHSL: hue, saturation, luminance *)
Definition rgb_to_hsl (red green blue : R) : R * R * R :=
  let min_color := min3 red green blue in
  let max_color := max3 red green blue in
  let diff := max_color - min_color in
  let sum := max_color + min_color in
  if Rlt_dec (Rabs diff) (1 / 1000) then (0, 0, red)
  else
    let luminance := sum / 2 in
    let saturation := if Rlt_dec luminance (1 / 2) then diff / sum else diff / (2 - sum) in
    let hue :=
      if Rlt_dec (Rabs (max_color - red)) (1 / 10000) then fold_hue ((green - blue) / diff)
      else if Rlt_dec (Rabs (max_color - green)) (1 / 10000) then fold_hue (2 + (blue - red) / diff)
      else fold_hue (4 + (red - green) / diff) in
    (hue, saturation, luminance).

(** color_space.cc:82-114: the same chain of conditions for each component *)
Definition component (temp1 temp2 t : R) : R :=
  if Rlt_dec t (1 / 6) then temp2 + (temp1 - temp2) * 6 * t
  else if Rlt_dec t (1 / 2) then temp1
  else if Rlt_dec t (2 / 3) then temp2 + (temp1 - temp2) * (2 / 3 - t) * 6
  else temp2.

(** color_space.cc:54-115 HSLToRGB: red, green, blue *)
Definition hsl_to_rgb (hue saturation luminance : R) : R * R * R :=
  if Rlt_dec (Rabs saturation) (1 / 10000) then (luminance, luminance, luminance)
  else
    let temp1 := if Rlt_dec luminance (1 / 2) then luminance * (1 + saturation)
                 else (luminance + saturation) - luminance * saturation in
    let temp2 := 2 * luminance - temp1 in
    let temp_red := hue + 1 / 3 in
    let temp_green := hue in
    let temp_blue := hue - 1 / 3 in
    let temp_red := if Rlt_dec 1 temp_red then temp_red - 1 else temp_red in
    let temp_blue := if Rlt_dec temp_blue 0 then temp_blue + 1 else temp_blue in
    (component temp1 temp2 temp_red, component temp1 temp2 temp_green, component temp1 temp2 temp_blue).
