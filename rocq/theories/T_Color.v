(** * T_Color: properties C43 and C63 (exact arithmetic) *)
Require Import Reals Lra.
Require Import Verif.M_Color Verif.P_Color.
Open Scope R_scope.

(** ** C43: every colour of the unit cube comes back within 0.001, with hue,
    saturation and luminance in [0,1] *)
Theorem C43_round_trip r g b : 0 <= r <= 1 -> 0 <= g <= 1 -> 0 <= b <= 1 ->
  let '(h, s, l) := rgb_to_hsl r g b in
  let '(r', g', b') := hsl_to_rgb h s l in
  0 <= h <= 1 /\ 0 <= s <= 1 /\ 0 <= l <= 1 /\
  Rabs (r' - r) < 1 / 1000 /\ Rabs (g' - g) < 1 / 1000 /\ Rabs (b' - b) < 1 / 1000.
Proof. exact (rgb_hsl_rgb r g b). Qed.
Print Assumptions C43_round_trip.

(** C43: exactly, unless the colour is almost grey or two components are almost
    the largest *)
Theorem C43_exact r g b : 0 <= r <= 1 -> 0 <= g <= 1 -> 0 <= b <= 1 ->
  let M := Rmax (Rmax r g) b in
  1 / 1000 <= M - Rmin (Rmin r g) b ->
  r = M \/ 1 / 10000 <= M - r -> g = M \/ 1 / 10000 <= M - g ->
  let '(h, s, l) := rgb_to_hsl r g b in hsl_to_rgb h s l = (r, g, b).
Proof. exact (rgb_hsl_exact r g b). Qed.
Print Assumptions C43_exact.
Example C43_case : let M := Rmax (Rmax (1/4) (1/2)) (3/4) in
  1 / 1000 <= M - Rmin (Rmin (1/4) (1/2)) (3/4) /\ (1/4 = M \/ 1 / 10000 <= M - 1/4) /\ (1/2 = M \/ 1 / 10000 <= M - 1/2).
Proof. cbv zeta. unfold Rmax, Rmin. repeat destruct (Rle_dec _ _); lra. Qed.

(** ** C63: the other way round saturation and luminance are exact and the hue
    moves by less than 1/60 (6 degrees), for colours that are not grey:
    2 l s (dark) or 2 (1-l) s (light) at least 0.001 *)
Theorem C63_hsl_round_trip h s l : 0 <= h < 1 -> 0 <= s <= 1 -> 0 <= l <= 1 ->
  1 / 1000 <= (if Rlt_dec l (1 / 2) then 2 * l * s else 2 * (1 - l) * s) ->
  let '(r, g, b) := hsl_to_rgb h s l in
  (0 <= r <= 1) /\ (0 <= g <= 1) /\ (0 <= b <= 1) /\
  let '(h', s', l') := rgb_to_hsl r g b in
  Rabs (h' - h) < 1 / 60 /\ s' = s /\ l' = l.
Proof. exact (hsl_rgb_hsl h s l). Qed.
Print Assumptions C63_hsl_round_trip.
Example C63_case : 0 <= 2/5 < 1 /\ 1 / 1000 <= (if Rlt_dec (1/3) (1 / 2) then 2 * (1/3) * (1/2) else 2 * (1 - 1/3) * (1/2)).
Proof. destruct (Rlt_dec _ _); lra. Qed.
(** the hue is not always exact: the two components may be taken for equal *)
Theorem C63_hue_exact_refuted : exists h s l, 0 <= h < 1 /\ 0 <= s <= 1 /\ 0 <= l <= 1 /\
  1 / 1000 <= (if Rlt_dec l (1 / 2) then 2 * l * s else 2 * (1 - l) * s) /\
  let '(r, g, b) := hsl_to_rgb h s l in fst (fst (rgb_to_hsl r g b)) <> h.
Proof. exact hue_not_exact. Qed.
Print Assumptions C63_hue_exact_refuted.
