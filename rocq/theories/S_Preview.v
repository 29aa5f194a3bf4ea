(** * S_Preview: a reduced picture, against a decomposition in fewer steps. *)
Require Import List Bool Arith ZArith QArith Qreals Reals.
Require Import Flocq.Core.Core Flocq.IEEE754.BinarySingleNaN.
Require Import Verif.M_Base Verif.M_Params Verif.M_Float Verif.M_Binary32 Verif.S_Buffer Verif.S_Exact Verif.S_Round.
Import ListNotations.
Open Scope R_scope.

(** parameters of a buffer for the signal after padding, decomposed in k steps *)
Definition coarse (p : params) (k : nat) : params :=
  Params (if is_1d p then [Z.of_nat (level_rows p 0)] else [Z.of_nat (level_cols p 0); Z.of_nat (level_rows p 0)])
         (signum p) (Z.of_nat k) (wtype p).
(** the signal after padding *)
Definition padded_signal (p : params) (m : mat R) : mat R :=
  let r := level_rows p 0 in
  let c := level_cols p 0 in
  Mat r c (map (fun q => padded_at p m (q / c) (q mod c)) (seq 0 (r * c))).

(** size of the picture reduced by 2^k *)
Definition small_rows (p : params) (k : nat) : nat := (drows p / 2 ^ k)%nat.
Definition small_cols (p : params) (k : nat) : nat := if is_1d p then 1%nat else (dcols p / 2 ^ k)%nat.
(** where it starts in the approximation of the padded signal: the middle *)
Definition small_row (p : params) (k i : nat) : nat := ((level_rows p k - small_rows p k) / 2 + i)%nat.
Definition small_col (p : params) (k j : nat) : nat := ((level_cols p k - small_cols p k) / 2 + j)%nat.

(** an approximation after k steps is this much larger than the signal *)
Definition factor (p : params) (k : nat) : R := (if is_1d p then sqrt 2 else 2) ^ k.

(** root of the summed squared differences of the picture [o] and the middle
    of the approximation [a], brought to the range of the signal *)
Definition preview_error (p : params) (k : nat) (o a : mat R) : R :=
  sqrt (total (small_rows p k) (fun i => total (small_cols p k) (fun j =>
    (at_ o i j - at_ a (small_row p k i) (small_col p k j) / factor p k) *
    (at_ o i j - at_ a (small_row p k i) (small_col p k j) / factor p k)))).

(** division by the factor, with relative error d and absolute error e *)
Definition divides (d e : R) (A : Arith R) (p : params) (k : nat) : Prop :=
  forall x, Rabs (@ascale R A (length (shape p)) k x - x / factor p k) <= d * Rabs (x / factor p k) + e.

(** the bound, for a padded signal of norm n: 0 for DB1 without rounding *)
Definition preview_bound (u eta d e : R) (p : params) (k : nat) (n : R) : R :=
  ((1 + d) * (step_gain u p ^ (2 * nsteps p - k) * n + underflow u eta p)
    - (1 + Q2R (filter_defect (wtype p))) ^ (passes p * k) * n) / factor p k
  + e * sqrt (INR (small_rows p k * small_cols p k)).

(** binary32 with the division [sc] by the factor *)
Definition with_division (sc : nat -> nat -> f32 -> f32) : Arith f32 := {|
  a0 := @a0 f32 binary32; aadd := @aadd f32 binary32; amul := @amul f32 binary32; aopp := @aopp f32 binary32;
  alit := @alit f32 binary32; asqrt2 := @asqrt2 f32 binary32; ascale := sc |}.
(** any such division of this accuracy on values far from overflow *)
Definition divides32 (sc : nat -> nat -> f32 -> f32) (p : params) (k : nat) : Prop :=
  forall x, is_finite x = true -> Rabs (B2R x) <= 2 ^ 120 ->
    is_finite (sc (length (shape p)) k x) = true /\
    Rabs (B2R (sc (length (shape p)) k x) - B2R x / factor p k) <= / 2 ^ 23 * Rabs (B2R x / factor p k) + / 2 ^ 149.
