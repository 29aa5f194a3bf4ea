(** * S_Round: what rounded arithmetic is, and the constants of the error
    bound.  Uses the parameter type and the shapes of S_Buffer only. *)
Require Import List Bool Arith ZArith QArith Qreals Reals.
Require Import Flocq.Core.Core Flocq.IEEE754.BinarySingleNaN.
Require Import Verif.M_Base Verif.M_Params Verif.M_Float Verif.S_Buffer Verif.S_Exact.
Open Scope R_scope.

(** Sums and products are correct up to the relative error u and the absolute
    error eta (underflow), negation is exact, and sqrt(2) times a decimal
    literal is within 3 u (a literal is rounded to double and to float, and so
    is the product). *)
Record rounding (u eta : R) (A : Arith R) : Prop := {
  rounding_zero : a0 = 0;
  rounding_add : forall x y, Rabs (aadd x y - (x + y)) <= u * Rabs (x + y) + eta;
  rounding_mul : forall x y, Rabs (amul x y - x * y) <= u * Rabs (x * y) + eta;
  rounding_opp : forall x, aopp x = - x;
  rounding_literal : forall q, 1 / 10 ^ 6 <= Rabs (Q2R q) <= 1 ->
    Rabs (asqrt2 (alit q) - sqrt 2 * Q2R q) <= 3 * u * (sqrt 2 * Rabs (Q2R q))
}.

(** sum of the magnitudes of the printed coefficients, rounded up *)
Definition coefficient_sum (t : Z) : Q :=
  match t with
  | 1%Z => 1 | 2%Z => 11831 # 10000 | 3%Z => 13118 # 10000 | 4%Z => 13191 # 10000
  | 5%Z => 14149 # 10000 | 6%Z => 15497 # 10000 | 7%Z => 16002 # 10000 | 8%Z => 15186 # 10000
  | 9%Z => 16605 # 10000 | 10%Z => 17895 # 10000
  | _ => 0
  end%Q.

(** One step multiplies the norm by at most this: the printed coefficients,
    and 2 t products and sums rounded (twice in 2D, for rows and columns). *)
Definition pass_gain (u : R) (t : Z) : R :=
  1 + Q2R (filter_defect t) + sqrt 2 * Q2R (coefficient_sum t) * ((1 + u) ^ (2 * Z.to_nat t + 4) - 1).
Definition passes (p : params) : nat := if is_1d p then 1 else 2.
Definition step_gain (u : R) (p : params) : R := pass_gain u (wtype p) ^ passes p.

(** relative error of a decomposition followed by a composition *)
Definition float_rel (u : R) (p : params) : R := step_gain u p ^ (2 * nsteps p) - 1.
(** what underflow can add *)
Definition underflow (u eta : R) (p : params) : R :=
  let t := Z.to_nat (wtype p) in
  2 * INR (nsteps p) * step_gain u p ^ (2 * nsteps p) *
  (INR (passes p) * step_gain u p *
   (sqrt (INR (level_rows p 0 * level_cols p 0)) * (4 * INR t * (1 + u) ^ (2 * t) * eta))).

(** the real numbers a matrix of floats stands for *)
Definition values (m : mat f32) : mat R := Mat (rows m) (cols m) (map (@B2R 24 128) (elts m)).
Definition all_finite (m : mat f32) : Prop := List.Forall (fun x : f32 => is_finite x = true) (elts m).
