(** * S_ColorF: an 8-bit colour sent to HSL and back, once and several times *)
Require Import ZArith.
Require Import Verif.M_Float Verif.M_ColorF.
Open Scope Z_scope.
Definition same_or_below (z z' : Z) : Prop := z' = z \/ z' = z - 1.
Definition through_hsl (f g : f32 -> f32 -> f32 -> f32 * f32 * f32) (a b c : f32) : f32 * f32 * f32 :=
  let '(h, s, l) := f a b c in g h s l.
Definition pass (t : Z * Z * Z) : Z * Z * Z :=
  let '(a, b, c) := t in
  let '(r, g, b') := through_hsl rgb_to_hsl32 hsl_to_rgb32 (of_pixel a) (of_pixel b) (of_pixel c) in
  (to_pixel r, to_pixel g, to_pixel b').
Fixpoint passes (n : nat) (t : Z * Z * Z) : Z * Z * Z :=
  match n with O => t | S n => pass (passes n t) end.
