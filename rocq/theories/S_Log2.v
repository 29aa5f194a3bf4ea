(** * S_Log2: what is expected of the C library's log2 *)
Require Import ZArith Reals.
Require Import Flocq.Core.Core Flocq.IEEE754.BinarySingleNaN.
From Verif Require Import M_Float.
Open Scope R_scope.

Definition real_log2 (x : R) : R := ln x / ln 2.

(** exact on powers of two; elsewhere above 1 within 2^-52 of the exact value
    (relatively: about one unit in the last place) *)
Definition good_log2 (log2 : f64 -> f64) : Prop :=
  (forall x (k : Z), is_finite x = true -> (0 <= k)%Z -> B2R x = bpow radix2 k ->
     is_finite (log2 x) = true /\ B2R (log2 x) = IZR k) /\
  (forall x, is_finite x = true -> 1 < B2R x ->
     is_finite (log2 x) = true /\
     Rabs (B2R (log2 x) - real_log2 (B2R x)) <= bpow radix2 (-52) * real_log2 (B2R x)).

(** the best one: the double nearest to the exact value *)
Definition rounded_log2 (log2 : f64 -> f64) : Prop :=
  forall x, is_finite x = true -> 1 <= B2R x ->
    is_finite (log2 x) = true /\
    B2R (log2 x) = round radix2 (SpecFloat.fexp 53 1024) (round_mode mode_NE) (real_log2 (B2R x)).
