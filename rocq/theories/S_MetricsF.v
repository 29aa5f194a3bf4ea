(** * S_MetricsF: what is assumed of the libraries' sums and squares, and the
    exact values the results are compared with. *)
Require Import List Bool Arith ZArith Reals Permutation.
Require Import Flocq.Core.Core Flocq.IEEE754.BinarySingleNaN.
Require Import Verif.M_Base Verif.M_Params Verif.M_Buffer Verif.M_Float Verif.M_Binary32.
Import ListNotations.
Open Scope R_scope.

(** [adds l s]: s is obtained from the numbers of l by rounded additions, in
    some order and with some bracketing (zeros may be added too, as the
    starting values of accumulators are). *)
Inductive adds {prec emax} (Hp : Prec_gt_0 prec) (He : Prec_lt_emax prec emax) :
  list (binary_float prec emax) -> binary_float prec emax -> Prop :=
| adds_none : adds Hp He [] (B754_zero false)
| adds_one x : adds Hp He [x] x
| adds_two l r a b : adds Hp He l a -> adds Hp He r b -> adds Hp He (l ++ r) (Bplus mode_NE a b)
| adds_order l l' a : Permutation l l' -> adds Hp He l a -> adds Hp He l' a.

Definition summation32 (sum : list f32 -> f32) : Prop := forall l, adds prec32 emax32 l (sum l).
Definition summation64 (sum : list f64 -> f64) : Prop := forall l, adds prec64 emax64 l (sum l).

(** std::pow(x, 2) for a double that holds a finite float: to 2^-52 *)
Definition good_square (square : f64 -> f64) : Prop :=
  forall x : f32, is_finite x = true ->
    is_finite (square (f64_of_f32 x)) = true /\
    Rabs (B2R (square (f64_of_f32 x)) - B2R x * B2R x) <= bpow radix2 (-52) * (B2R x * B2R x).

Definition finite_mat (m : mat f32) : Prop := Forall (fun x : f32 => is_finite x = true) (elts m).
Definition finite_buffer (b : buffer f32) : Prop := Forall (Forall finite_mat) (bdec b).

(** the real numbers held by a buffer *)
Definition real_mat (m : mat f32) : mat R := Mat (rows m) (cols m) (map (fun x : f32 => B2R x) (elts m)).
Definition real_buffer (b : buffer f32) : buffer R := Buffer (bpar b) (map (map real_mat) (bdec b)).

(** same number of channels, of subbands, and sizes of subbands *)
Definition same_sizes32 (b b' : buffer f32) : Prop :=
  Forall2 (Forall2 (fun m m' => mwf m /\ mwf m' /\ rows m = rows m' /\ cols m = cols m')) (bdec b) (bdec b').
(** all values of a buffer, as real numbers, in order *)
Definition values32 (b : buffer f32) : list R :=
  concat (map (fun ch => concat (map (fun m => map (fun x : f32 => B2R x) (elts m)) ch)) (bdec b)).
(** all subbands of a buffer *)
Definition subbands (b : buffer f32) : list (mat f32) := concat (bdec b).

(** the energy of a subband, and the float [e] computed for it: to about
    2^-23 relative unless it is beyond the range of floats *)
Definition energy_close (e : f32) (m : mat f32) : Prop :=
  let exact := fold_right (fun (x : f32) s => B2R x * B2R x + s) 0 (elts m) in
  ((is_finite e = true /\ 0 <= B2R e) \/ e = B754_infinity false) /\
  (exact <= bpow radix2 125 -> is_finite e = true /\
     Rabs (B2R e - exact) <= bpow radix2 (-23) * exact + bpow radix2 (-150)) /\
  (bpow radix2 129 <= exact -> e = B754_infinity false).
