(** * M_Binary32: DataType = float (wavelet_buffer/primitives.h:13) as IEEE 754
    binary32 with rounding to nearest, for the transform of M_Buffer.  The
    order of the operations is that of the source; the compiler is assumed
    not to contract or reorder them (C57_any_rounding of T_Round covers
    contraction to fused operations as well). *)
Require Import List Bool Arith ZArith QArith.
Require Import Flocq.Core.Core Flocq.IEEE754.BinarySingleNaN.
Require Import Verif.M_Base Verif.M_Float.
Open Scope Z_scope.

(** float to double; exact *)
Definition f64_of_f32 (x : f32) : f64 :=
  match x with
  | B754_zero s => B754_zero s
  | B754_infinity s => B754_infinity s
  | B754_nan => B754_nan
  | B754_finite s m e _ => binary_normalize 53 1024 _ _ mode_NE (cond_Zopp s (Zpos m)) e s
  end.

(** A decimal literal of the source, a double: the quotient to 100 binary
    places with a sticky bit, rounded.  (The rounding is that of the exact
    rational for magnitudes above 2^-46; the literals of wavelet.cc:163-213
    are above 2^-17.) *)
Definition f64_of_literal (q : Q) : f64 :=
  let n := Qnum q * 2 ^ 100 in
  let d := Zpos (Qden q) in
  binary_normalize 53 1024 _ _ mode_NE (2 * (n / d) + (if n mod d =? 0 then 0 else 1)) (-101) false.

(** wavelet.cc:163-213: the double literals initialise floats *)
Definition f32_literal (q : Q) : f32 := f32_of_f64 (f64_of_literal q).

(** wavelet.cc:249 [out[i] = std::sqrt(2) * (x[i])]: a product of doubles *)
Definition f32_sqrt2 (x : f32) : f32 :=
  f32_of_f64 (Bmult mode_NE (Bsqrt mode_NE (f64_of_int 2)) (f64_of_f32 x)).

(** wavelet_utils.cc:428-434 [*aprox /= factor], a double.  std::pow is
    computed by repeated multiplication here; only [C99_division] is about
    this, [C99_binary32] holds for every accurate division. *)
Definition f32_scale (dim k : nat) (x : f32) : f32 :=
  let base := if Nat.eqb dim 2 then f64_of_int 2 else Bsqrt mode_NE (f64_of_int 2) in
  let factor := Nat.iter k (fun y => Bmult mode_NE y base) (f64_of_int 1) in
  f32_of_f64 (Bdiv mode_NE (f64_of_f32 x) factor).

#[global] Instance binary32 : Arith f32 := {|
  a0 := B754_zero false;
  aadd := Bplus mode_NE;
  amul := Bmult mode_NE;
  aopp := Bopp;
  alit := f32_literal;
  asqrt2 := f32_sqrt2;
  ascale := f32_scale
|}.
