(** * S_Daub: Daubechies' filters, and polynomials *)
Require Import List Bool Arith ZArith Reals.
Require Import QArith Qreals.
Require Import Verif.M_Base Verif.M_Params Verif.S_Buffer Verif.S_Exact Verif.S_Round.
Import ListNotations.
Open Scope R_scope.

(** the polynomial with coefficients c, lowest first: degree less than length c *)
Fixpoint peval (c : list R) (z : R) : R := match c with [] => 0 | a :: c' => a + z * peval c' z end.

(** h 0 ... h (2N-1) is an orthonormal low-pass filter with N vanishing
    moments: orthogonal to its even shifts, of norm 1, its alternating sums
    with the polynomials of degree less than N are 0, and its sum is sqrt 2
    (Daubechies 1988) *)
Definition daubechies (N : nat) (h : nat -> R) : Prop :=
  (forall m, (m < N)%nat -> total (2 * N - 2 * m) (fun k => h k * h (k + 2 * m)%nat) = if Nat.eqb m 0 then 1 else 0) /\
  (forall c, (length c <= N)%nat -> total (2 * N) (fun k => (-1) ^ k * h k * peval c (INR k)) = 0) /\
  total (2 * N) h = sqrt 2.

(** how exactly the library prints them, per coefficient, in units of 10^-18 *)
Definition printed_accuracy (t : Z) : R :=
  IZR match t with
      | 2 => 348000 | 3 => 3700000 | 4 => 440000 | 5 => 817000 | 6 => 168
      | 7 => 558000 | 8 => 905000 | 9 => 25800000 | 10 => 1050000 | _ => 0
      end%Z / 10 ^ 18.

(** ** what a coefficient is computed from *)
(** first and last place a coefficient of level s at place i uses, 2N taps *)
Definition first_used (s i : nat) : nat := (2 ^ s * i)%nat.
Definition last_used (N s i : nat) : nat := (2 ^ s * i + (2 ^ s - 1) * (2 * N - 1))%nat.
Definition taps (p : params) : nat := Z.to_nat (wtype p).
Definition row_used (p : params) (s i r : nat) : Prop := (first_used s i <= r <= last_used (taps p) s i)%nat.
Definition col_used (p : params) (s j q : nat) : Prop :=
  if is_1d p then q = 0%nat else (first_used s j <= q <= last_used (taps p) s j)%nat.
(** they are inside the padded signal: the filter does not run over its end *)
Definition not_wrapped (p : params) (s i j : nat) : Prop :=
  (last_used (taps p) s i < level_rows p 0)%nat /\ (is_1d p = true \/ (last_used (taps p) s j < level_cols p 0)%nat).
(** there, every column (row) of the padded signal is a polynomial of degree less than taps p *)
Definition polynomial_columns (p : params) (m : mat R) (s i j : nat) : Prop :=
  forall q, col_used p s j q -> exists c, (length c <= taps p)%nat /\
    forall r, row_used p s i r -> padded_at p m r q = peval c (INR r).
Definition polynomial_rows (p : params) (m : mat R) (s i j : nat) : Prop :=
  forall r, row_used p s i r -> exists c, (length c <= taps p)%nat /\
    forall q, col_used p s j q -> padded_at p m r q = peval c (INR q).
Definition bounded_there (p : params) (m : mat R) (s i j : nat) (B : R) : Prop :=
  forall r q, row_used p s i r -> col_used p s j q -> Rabs (padded_at p m r q) <= B.

(** what is left in the details of level s, relative to the values *)
Definition leftover (p : params) (s : nat) : R :=
  INR (2 * taps p) * printed_accuracy (wtype p) * (sqrt 2 * Q2R (coefficient_sum (wtype p))) ^ (passes p * s - 1).
