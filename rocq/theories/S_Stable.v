(** * S_Stable: how far two decompositions are apart. *)
Require Import List Bool Arith ZArith QArith Qreals Reals.
Require Import Flocq.IEEE754.BinarySingleNaN.
Require Import Verif.M_Base Verif.M_Params Verif.M_Buffer Verif.M_Float Verif.S_Buffer Verif.S_Exact Verif.S_Round.
Import ListNotations.
Open Scope R_scope.

(** sum of the squared differences, coefficient by coefficient *)
Fixpoint gap (l l' : list R) : R :=
  match l, l' with
  | x :: r, y :: r' => (y - x) * (y - x) + gap r r'
  | _, _ => 0
  end.
(** of two channels, subband by subband *)
Fixpoint distance2 (ch ch' : list (mat R)) : R :=
  match ch, ch' with
  | m :: r, m' :: r' => gap (elts m) (elts m') + distance2 r r'
  | _, _ => 0
  end.

(** number of coefficients that differ *)
Fixpoint changes1 (l l' : list R) : nat :=
  match l, l' with
  | x :: r, y :: r' => (if Req_EM_T x y then 0 else 1) + changes1 r r'
  | _, _ => 0
  end.
Fixpoint changes (ch ch' : list (mat R)) : nat :=
  match ch, ch' with
  | m :: r, m' :: r' => changes1 (elts m) (elts m') + changes r r'
  | _, _ => 0
  end.

(** no coefficient moved further than T *)
Definition within (T : R) (ch ch' : list (mat R)) : Prop :=
  forall k m m', nth_error ch k = Some m -> nth_error ch' k = Some m' ->
    forall i x y, nth_error (elts m) i = Some x -> nth_error (elts m') i = Some y -> Rabs (y - x) <= T.

(** root of the summed squared differences of two signals *)
Definition error (p : params) (o m : mat R) : R :=
  sqrt (total (drows p) (fun i => total (dcols p) (fun j => (at_ o i j - at_ m i j) * (at_ o i j - at_ m i j)))).

(** what composition multiplies a change of the coefficients by: 1 for DB1 *)
Definition gain_exact (p : params) : R := (1 + Q2R (filter_defect (wtype p))) ^ (passes p * nsteps p).

(** the same between padded signals *)
Definition padded_error (p : params) (o m : mat R) : R :=
  sqrt (total (level_rows p 0) (fun i => total (level_cols p 0) (fun j =>
    (padded_at p o i j - padded_at p m i j) * (padded_at p o i j - padded_at p m i j)))).

(** how far rounding takes decomposition or composition from the exact result,
    for an input of norm n *)
Definition accuracy (u eta : R) (p : params) (n : R) : R :=
  (step_gain u p ^ nsteps p - gain_exact p) * n + underflow u eta p / 2.

(** every value is kept or replaced by zero *)
Definition kept (l l' : list f32) : Prop := Forall2 (fun x y => y = x \/ y = B754_zero false) l l'.
(** a denoiser that does only that, to finite values *)
Definition keeps_or_zeroes (den : denoiser f32) : Prop :=
  (forall l s, Forall (fun x : f32 => is_finite x = true) l -> kept l (den1 den l s)) /\
  (forall m s, mwf m -> all_finite m -> kept (elts m) (elts (den2 den m s))).
