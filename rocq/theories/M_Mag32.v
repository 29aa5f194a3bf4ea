(** * M_Mag32: the operations of denoise_algorithms.h on T = DataType = float
    (wavelet_buffer/primitives.h:13), in IEEE binary32. *)
Require Import List Bool Arith ZArith.
Require Import Flocq.Core.Core Flocq.IEEE754.BinarySingleNaN.
Require Import Verif.M_Base Verif.M_Float Verif.M_Denoise.
Open Scope Z_scope.

(** denoise_algorithms.h:148-150 and 182-184 [values.size() * compression_level_]
    as a size_t: the size becomes a float, the product is rounded, and the
    conversion drops the fraction; it is undefined if what is left does not
    fit in 64 bits. *)
Definition f32_trunc (n : nat) (level : f32) : res nat :=
  let y := Bmult mode_NE (f32_of_int (Z.of_nat n)) level in
  if is_finite y && (0 <=? Btrunc y) && (Btrunc y <? 2 ^ 64) then Ok (Z.to_nat (Btrunc y)) else UB.

(** std::abs and std::fabs (83, 104, 142, 177), ">" (83, 104, 155, 189), and a
    size_t as a factor of a float (112) *)
#[global] Instance floatMag : Mag f32 := {|
  mabs := Babs;
  mgt := fun x y => Bltb y x;
  mnat := fun n => f32_of_int (Z.of_nat n);
  mtrunc := f32_trunc
|}.
