(** * S_LocPrev: how far one sample of a reduced picture may be off. *)
Require Import List Bool Arith ZArith QArith Qreals Reals.
Require Import Verif.M_Base Verif.M_Params Verif.S_Buffer Verif.S_Exact Verif.S_Round Verif.S_Stable Verif.S_Local Verif.S_Preview Verif.M_Image Verif.S_Image.
Open Scope R_scope.

(** what details moved by at most T and approximation coefficients moved by at
    most T0 can do to one approximation coefficient of level k *)
Definition spread_at (p : params) (k : nat) (T T0 : R) : R :=
  sqrt (INR (cone p) * (INR ((nsteps p - k) * bands p) * (T * T) + T0 * T0)).

(** the bound for one sample of the reduced picture, if the samples below it
    have norm n and the moved coefficients do X to it: 0 for DB1 without
    rounding and moves *)
Definition preview_sample (u eta d e : R) (p : params) (k : nat) (n X : R) : R :=
  ((1 + d) * (step_gain u p ^ (2 * nsteps p - k) * n + underflow u eta p + step_gain u p ^ (nsteps p - k) * X)
    - (1 + Q2R (filter_defect (wtype p))) ^ (passes p * k) * n) / factor p k + e.

(** the 8-bit levels of plane c of a picture *)
Definition plane (img : cimg) (c : nat) : mat R :=
  Mat (cheight img) (cwidth img) (map (fun q =>
    match pixel img (q mod cwidth img) (q / cwidth img) c with Some z => IZR z | None => 0 end)
    (seq 0 (cheight img * cwidth img))).
