(** * S_Equal: what comparing buffers should mean, acceptance of data, and
    out-of-contract scale factors *)
Require Import List Bool Arith ZArith.
Require Import Verif.M_Base Verif.M_Params Verif.M_Buffer Verif.S_Params Verif.S_Buffer.
Import ListNotations.
Open Scope nat_scope.

(** x is stored somewhere in the buffer *)
Definition holds {T} (b : buffer T) (x : T) : Prop :=
  exists ch m, In ch (bdec b) /\ In m ch /\ In x (elts m).

(** Same parameters, same numbers of channels and subbands, subbands of the
    same shape whose corresponding elements are related by [R]. *)
Definition same_shape_related {T} (R : T -> T -> Prop) (m n : mat T) : Prop :=
  rows m = rows n /\ cols m = cols n /\ Forall2 R (elts m) (elts n).
Definition related {T} (R : T -> T -> Prop) (a b : buffer T) : Prop :=
  bpar a = bpar b /\ Forall2 (Forall2 (same_shape_related R)) (bdec a) (bdec b).

(** Number of elements of a buffer for which [f] holds *)
Definition count_in {T} (f : T -> bool) (b : buffer T) : nat :=
  length (filter f (concat (map (@elts T) (concat (bdec b))))).

(** The first channel has the declared number of rows (1D), or of rows and
    columns (2D). *)
Definition first_fits {T} (p : params) (data : list (mat T)) : Prop :=
  exists d rest, data = d :: rest /\ rows d = drows p /\ (is_1d p = false -> cols d = dcols p).

(** [out] is the r x c matrix in the middle of [m], every element changed
    by [f]. *)
Definition middle_of {T} (f : T -> T) (r c : nat) (m out : mat T) : Prop :=
  sized r c out /\ r <= rows m /\ c <= cols m /\
  forall i j, i < r -> j < c ->
    exists x, mget m ((rows m - r) / 2 + i) ((cols m - c) / 2 + j) = Ok x /\ mget out i j = Ok (f x).

(** What Compose delivers for a channel with approximation [a] when the scale
    factor k exceeds the steps: if the sides divided by 2^k are not zero, the
    middle of [a]; else all of [a]; divided by the factor for k. *)
Definition beyond {T} {A : Arith T} (p : params) (k : nat) (a m : mat T) : Prop :=
  let r := drows p / 2 ^ k in
  let c := if is_1d p then 1 else dcols p / 2 ^ k in
  if (r =? 0) || (c =? 0)
  then m = Mat (rows a) (cols a) (map (ascale (length (shape p)) k) (elts a))
  else middle_of (ascale (length (shape p)) k) r c a m.
