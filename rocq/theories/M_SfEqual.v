(** * M_SfEqual: comparison of two OriginalData
    (sources/internal/sf_compressor.cc:971-1001) *)
Require Import List ZArith Bool.
Require Import Flocq.Core.Core Flocq.IEEE754.BinarySingleNaN.
Import ListNotations.
From Verif Require Import M_Base M_Float M_Archive M_SfCodec.
Open Scope Z_scope.

(** the number a bit pattern stands for *)
Definition f32_of_word (w : word) : f32 :=
  let s := 2 ^ 31 <=? wbits w in
  let m := wbits w mod 2 ^ 31 in
  let e := m / 2 ^ 23 in
  let f := m mod 2 ^ 23 in
  if e =? 255 then (if f =? 0 then B754_infinity s else B754_nan)
  else if e =? 0 then binary_normalize 24 128 _ _ mode_NE (cond_Zopp s f) (-149) s
  else binary_normalize 24 128 _ _ mode_NE (cond_Zopp s (2 ^ 23 + f)) (e - 150) s.

(** float to double, in the comparison of a float with a double *)
Definition f64_of_f32 (x : f32) : f64 :=
  match x with
  | B754_zero s => B754_zero s
  | B754_infinity s => B754_infinity s
  | B754_nan => B754_nan
  | B754_finite s m e _ => binary_normalize 53 1024 _ _ mode_NE (cond_Zopp s (Zpos m)) e s
  end.

(** 978: frag_length + 1 is an int *)
Definition tolerance (fl : Z) : f64 := f64_div (f64_of_int 1) (f64_sub (pow2d (fl + 1)) (f64_of_int 2)).
(** 980: float operations, compared as doubles; every comparison with a NaN is
    false *)
Definition too_far (fl : Z) (x y : f32) : bool :=
  Bltb (tolerance fl) (f64_of_f32 (Babs (Bdiv mode_NE (Bminus mode_NE x y) x))).

Fixpoint zlist_eqb (a b : list Z) : bool :=
  match a, b with
  | [], [] => true
  | x :: a, y :: b => (x =? y) && zlist_eqb a b
  | _, _ => false
  end.

(** 971-988 operator==, [a] on the left *)
Definition origin_eqb (a b : origin) : bool :=
  if (o_frag a =? o_frag b) && Bool.eqb (o_row_based a) (o_row_based b) && (o_rows a =? o_rows b)
     && (o_cols a =? o_cols b) && zlist_eqb (o_indexes a) (o_indexes b)
     && (length (o_values a) =? length (o_values b))%nat
  then forallb (fun xy => negb (too_far (o_frag a) (f32_of_word (fst xy)) (f32_of_word (snd xy))))
         (combine (o_values a) (o_values b))
  else false.
(** 998-1001 operator!= *)
Definition origin_neqb (a b : origin) : bool := negb (origin_eqb b a).
