(** * S_Ring: signals turned round in a ring and mirrored signals.  Uses the
    matrix and parameter types and [S_Buffer], [S_Exact] only. *)
Require Import List Bool Arith ZArith Reals.
Require Import Verif.M_Base Verif.M_Params Verif.M_Buffer Verif.S_Buffer Verif.S_Exact.
Import ListNotations.
Open Scope nat_scope.

(** both sides are multiples of 2^steps: nothing is padded *)
Definition unpadded (p : params) : Prop :=
  level_rows p 0 = drows p /\ level_cols p 0 = dcols p.

Definition same_size (m m' : mat R) : Prop :=
  mwf m /\ mwf m' /\ rows m' = rows m /\ cols m' = cols m.

(** m' is m moved down by u and right by v, what leaves at one edge entering
    at the opposite one *)
Definition rotated (u v : nat) (m m' : mat R) : Prop :=
  same_size m m' /\
  forall i j, i < rows m -> j < cols m -> at_ m' ((i + u) mod rows m) ((j + v) mod cols m) = at_ m i j.

(** subbands of a signal and of the signal moved by 2^steps times (u, v) *)
Definition rotated_channel (p : params) (u v : nat) (ch ch' : list (mat R)) : Prop :=
  (forall s i m m', s < nsteps p -> i < bands p ->
     nth_error ch (s * bands p + i) = Some m -> nth_error ch' (s * bands p + i) = Some m' ->
     rotated (2 ^ (nsteps p - 1 - s) * u) (2 ^ (nsteps p - 1 - s) * v) m m') /\
  (forall m m', nth_error ch (nsteps p * bands p) = Some m -> nth_error ch' (nsteps p * bands p) = Some m' ->
     rotated u v m m').

(** m' is e times m with the order of the rows (up_down) or of the columns
    reversed *)
Definition mirrored (up_down : bool) (e : R) (m m' : mat R) : Prop :=
  same_size m m' /\
  forall i j, i < rows m -> j < cols m ->
    (if up_down then at_ m' (rows m - 1 - i) j else at_ m' i (cols m - 1 - j)) = (e * at_ m i j)%R.

(** sign of detail subband i: those that hold differences taken across the
    mirror change sign.  2D: 0 vertical, 1 horizontal, 2 both *)
Definition mirror_sign (up_down : bool) (i : nat) : R :=
  if up_down then (if i =? 1 then 1 else -1)%R else (if i =? 0 then 1 else -1)%R.

Definition mirrored_channel (p : params) (up_down : bool) (ch ch' : list (mat R)) : Prop :=
  (forall s i m m', s < nsteps p -> i < bands p ->
     nth_error ch (s * bands p + i) = Some m -> nth_error ch' (s * bands p + i) = Some m' ->
     mirrored up_down (mirror_sign up_down i) m m') /\
  (forall m m', nth_error ch (nsteps p * bands p) = Some m -> nth_error ch' (nsteps p * bands p) = Some m' ->
     mirrored up_down 1 m m').

(** ** one-dimensional signals, any arithmetic *)
Section Any.
Context {T : Type}.
(** the samples of m moved round by u, not one of them changed *)
Definition rolled (u : nat) (m m' : mat T) : Prop :=
  mwf m /\ mwf m' /\ cols m = 1 /\ cols m' = 1 /\ rows m' = rows m /\
  forall i, i < rows m -> nth_error (elts m') ((i + u) mod rows m) = nth_error (elts m) i.
Definition rolled_channel (p : params) (u : nat) (ch ch' : list (mat T)) : Prop :=
  (forall s m m', s < nsteps p -> nth_error ch s = Some m -> nth_error ch' s = Some m' ->
     rolled (2 ^ (nsteps p - 1 - s) * u) m m') /\
  (forall m m', nth_error ch (nsteps p) = Some m -> nth_error ch' (nsteps p) = Some m' -> rolled u m m').
End Any.
