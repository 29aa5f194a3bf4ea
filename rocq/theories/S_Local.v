(** * S_Local: how far one sample of a decomposed and composed signal looks. *)
Require Import List Bool Arith ZArith Reals.
Require Import Verif.M_Base Verif.M_Params Verif.M_Padding Verif.S_Padding Verif.S_Buffer Verif.S_Round.
Import ListNotations.
Open Scope R_scope.

(** samples along one side that a composed sample depends on: 2^steps for DB1 *)
Definition window (p : params) : nat :=
  if (nsteps p =? 0)%nat then 1
  else (2 ^ nsteps p * (4 * Z.to_nat (wtype p) - 3) - (2 * Z.to_nat (wtype p) - 2))%nat.
(** and in all *)
Definition window_area (p : params) : nat := (window p ^ passes p)%nat.
(** coefficients of one subband it depends on: 1 for DB1 *)
Definition cone (p : params) : nat :=
  if (nsteps p =? 0)%nat then 1%nat else ((2 * Z.to_nat (wtype p) - 1) ^ passes p)%nat.

(** less than W steps from i around a circle of n *)
Definition near (n W i r : nat) : Prop :=
  exists d, (Z.abs d < Z.of_nat W)%Z /\ Z.of_nat r = ((Z.of_nat i + d) mod Z.of_nat n)%Z.
(** element (i, j) *)
Definition elem {T} (m : mat T) (i j : nat) : option T := nth_error (elts m) (i * cols m + j).
(** the padded signal at (r, q): the nearest sample *)
Definition padded_elem {T} (p : params) (m : mat T) (r q : nat) : option T :=
  elem m (nearest (drows p) (Z.of_nat r - Z.of_nat (offset kBoth (level_rows p 0) (drows p))))
         (nearest (dcols p) (Z.of_nat q - Z.of_nat (offset kBoth (level_cols p 0) (dcols p)))).
(** the padded signals agree around sample (i, j) *)
Definition agree_around {T} (p : params) (i j : nat) (m m' : mat T) : Prop :=
  forall r q, (r < level_rows p 0)%nat -> (q < level_cols p 0)%nat ->
    near (level_rows p 0) (window p) (i + offset kBoth (level_rows p 0) (drows p)) r ->
    near (level_cols p 0) (window p) (j + offset kBoth (level_cols p 0) (dcols p)) q ->
    padded_elem p m r q = padded_elem p m' r q.

(** no detail coefficient moved further than T, no approximation coefficient
    further than T0 *)
Definition within_each (T T0 : R) (p : params) (ch ch' : list (mat R)) : Prop :=
  forall k m m', nth_error ch k = Some m -> nth_error ch' k = Some m' ->
    forall i x y, nth_error (elts m) i = Some x -> nth_error (elts m') i = Some y ->
    Rabs (y - x) <= if (k <? nsteps p * bands p)%nat then T else T0.
(** what that can do to one sample: T sqrt(3 steps) for DB1, images and T0 = 0 *)
Definition spread (p : params) (T T0 : R) : R :=
  sqrt (INR (cone p) * (INR (nsteps p * bands p) * (T * T) + T0 * T0)).

(** few enough steps for an error below an 8-bit level: up to 7 for DB1, 3 for
    DB2 and DB3, 2 for DB4 and DB5 *)
Definition levels_kept (p : params) : Prop :=
  (passes p * nsteps p * window p <= if (wtype p =? 1)%Z then 3600 else 500)%nat.
