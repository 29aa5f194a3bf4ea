(** * S_Pyflow: arrays of floats that are stored and read from Python *)
Require Import List Bool Arith ZArith Reals.
Require Import Flocq.Core.Core Flocq.IEEE754.BinarySingleNaN.
Require Import Verif.M_Base Verif.M_Params Verif.M_Buffer Verif.M_Float Verif.M_SfEqual Verif.M_Archive Verif.M_Serializer Verif.M_Python.
Require Import Verif.S_Params Verif.S_Buffer Verif.S_Exact Verif.S_Round Verif.S_Local Verif.S_Stable Verif.S_Lossy.
Import ListNotations.
Open Scope R_scope.

(** the float with these four bytes *)
Definition float_of_bytes (bs : list Z) : f32 := f32_of_word (mkword (of_le bs)).

(** every item of the array is a finite number of magnitude B at most *)
Definition items_within (B : R) (a : ndarray) (c h w : nat) : Prop :=
  forall ch i j bs, (ch < c)%nat -> (i < h)%nat -> (j < w)%nat -> item a [ch; i; j] = Ok bs ->
    is_finite (float_of_bytes bs) = true /\ Rabs (B2R (float_of_bytes bs)) <= B.

(** what a sample may lose: rounding (C57), the coefficients of magnitude T at
    most that the denoiser clears, and the codec's loss of the fraction d of a
    coefficient and e (C105) *)
Definition sample_loss (p : params) (T d e B : R) : R :=
  float_rel (/ 2 ^ 24) p * (sqrt (INR (window_area p)) * B) + underflow (/ 2 ^ 24) (/ 2 ^ 150) p
  + step_gain (/ 2 ^ 24) p ^ nsteps p *
    spread p (Rmax (T + e) (lost p (/ 2 ^ 24) (/ 2 ^ 150) d e B)) (lost p (/ 2 ^ 24) (/ 2 ^ 150) d e B).
