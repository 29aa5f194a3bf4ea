(** * S_Lossy: buffers of floats, stored with lossy compression. *)
Require Import List Bool Arith ZArith QArith Qreals Reals.
Require Import Flocq.Core.Core Flocq.IEEE754.BinarySingleNaN.
Require Import Verif.M_Base Verif.M_Params Verif.M_Buffer Verif.M_Float Verif.M_Archive Verif.M_SfCodec Verif.M_SfEqual
  Verif.S_Buffer Verif.S_Exact Verif.S_Round Verif.S_Serializer.
Import ListNotations.
Open Scope R_scope.

(** the bit pattern of a float, and the number a bit pattern stands for *)
Definition pattern (x : f32) : word := mkword (f32_bits x).
Definition number (w : word) : R := B2R (f32_of_word w).
Definition finite_word (w : word) : Prop := is_finite (f32_of_word w) = true.

(** the bytes a buffer of floats consists of, and back *)
Definition patterns (b : buffer f32) : buffer word := map_buffer pattern b.
Definition floats (b : buffer word) : buffer f32 := map_buffer f32_of_word b.

(** a float codec that moves finite numbers by at most the fraction d of
    their magnitude, and e *)
Definition loses (d e : R) (q : word -> word) : Prop :=
  forall x, finite_word x -> finite_word (q x) /\ Rabs (number (q x) - number x) <= d * Rabs (number x) + e.

(** number of coefficients of a channel *)
Definition coefficient_count {T} (ch : list (mat T)) : nat := list_sum (map (fun m => length (elts m)) ch).

(** the bound: rounding (as without storing), and what the codec lost *)
Definition lossy_error (p : params) (u eta d e n : R) : R :=
  float_rel u p * n + underflow u eta p
  + step_gain u p ^ nsteps p *
    (d * (step_gain u p ^ nsteps p * n + underflow u eta p / 2) + e * sqrt (INR (level_rows p 0 * level_cols p 0))).

(** one pass of a filter multiplies magnitudes by at most [peak_gain] (the sum
    of the magnitudes of the coefficients, and rounding) and underflow adds at
    most [peak_under]; what samples up to B can grow to in n passes *)
Definition peak_gain (u : R) (t : Z) : R := sqrt 2 * Q2R (coefficient_sum t) * (1 + u) ^ (2 * Z.to_nat t + 4).
Definition peak_under (u eta : R) (t : Z) : R := 4 * INR (Z.to_nat t) * (1 + u) ^ (2 * Z.to_nat t) * eta.
Definition peak (u eta : R) (p : params) (n : nat) (B : R) : R :=
  peak_gain u (wtype p) ^ n * (B + INR n * peak_under u eta (wtype p)).
(** how many steps subband k of a channel went through: the approximation,
    after the subbands of every step, went through all of them *)
Definition depth (p : params) (k : nat) : nat := Nat.min (k / bands p + 1) (nsteps p).
(** what a codec that moves numbers by the fraction d of their magnitude, and
    e, does to a coefficient *)
Definition lost (p : params) (u eta d e B : R) : R := d * peak u eta p (passes p * nsteps p) B + e.
