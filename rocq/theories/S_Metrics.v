(** * S_Metrics: what Distance, EnergyDistribution and GetValueRange mean. *)
Require Import List Bool Arith ZArith Reals.
Require Import Verif.M_Base Verif.M_Params Verif.M_Buffer Verif.M_Metrics Verif.S_Buffer Verif.S_Exact.
Import ListNotations.
Open Scope R_scope.

(** every subband value of the buffer, in order *)
Definition all_values (b : buffer R) : list R := concat (map (fun ch => concat (map (@elts R) ch)) (bdec b)).

(** sum of squared differences of two lists *)
Definition sum_sq_diff (l l' : list R) : R :=
  fold_right (fun u s => (fst u - snd u) * (fst u - snd u) + s) 0 (combine l l').

(** same number of channels, of subbands, and sizes of subbands *)
Definition same_sizes (b b' : buffer R) : Prop :=
  Forall2 (Forall2 (fun m m' => mwf m /\ mwf m' /\ rows m = rows m' /\ cols m = cols m')) (bdec b) (bdec b').

(** samples per channel, and in total *)
Definition channel_samples (p : params) : Z := fold_right Z.mul 1%Z (shape p).
Definition samples (p : params) : Z := (signum p * channel_samples p)%Z.

(** parameters Distance can handle: positive sides, fewer than 2^31 samples
    per channel, fewer than 2^64 in total *)
Definition small_shape (p : params) : Prop :=
  Forall (fun n => 1 <= n)%Z (shape p) /\ (channel_samples p < 2 ^ 31)%Z /\
  (1 <= signum p)%Z /\ (samples p < 2 ^ 64)%Z.

(** equal up to the wavelet type *)
Definition comparable (p q : params) : Prop :=
  signum p = signum q /\ shape p = shape q /\ steps p = steps q.

(** x <= n, n <= x in the extended sense *)
Definition at_most (x : R) (n : num) : Prop := match n with Num y => x <= y | PosInf => True | _ => False end.
Definition at_least (x : R) (n : num) : Prop := match n with Num y => y <= x | NegInf => True | _ => False end.
Definition scaled (M : R) (n : num) : num := match n with Num y => Num (M * y) | y => y end.
