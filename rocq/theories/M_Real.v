(** * M_Real: the exact arithmetic instance. *)
Require Import Reals QArith Qreals.
Require Import Verif.M_Base.
Open Scope R_scope.

(** Samples are real numbers, every operation is exact: DataType (float,
    primitives.h:13) without rounding.  [ascale]: wavelet_utils.cc:428-434,
    *aprox /= pow(dimension == 2 ? 2 : sqrt(2), steps). *)
#[global] Instance exactR : Arith R := {|
  a0 := 0;
  aadd := Rplus;
  amul := Rmult;
  aopp := Ropp;
  alit := Q2R;
  asqrt2 := fun x => sqrt 2 * x;
  ascale := fun dim k x => x / (if Nat.eqb dim 2 then 2 else sqrt 2) ^ k
|}.
