(** * S_Padding: what padding and cropping must produce.
    Uses only the matrix type and the location enum from the model. *)
Require Import List Bool Arith ZArith.
Require Import Verif.M_Base Verif.M_Padding.
Import ListNotations.

(** The sample in row i, column j of a row-major matrix; None outside. *)
Definition sample {T} (m : mat T) (i j : nat) : option T :=
  if (i <? rows m) && (j <? cols m) then nth_error (elts m) (i * cols m + j) else None.

(** Distance from the first row (column) of the large matrix to the first row
    (column) of the small one. *)
Definition offset (loc : location) (large small : nat) : nat :=
  match loc with kRight => 0 | kBoth => (large - small) / 2 end.

(** The index in [0, n) nearest to the integer x. *)
Definition nearest (n : nat) (x : Z) : nat :=
  Z.to_nat (Z.max 0 (Z.min x (Z.of_nat n - 1))).

(** [dst] (r x c) shows [src] at the given location and repeats the nearest
    sample outside. *)
Definition replicates {T} (r c : nat) (loc : location) (src dst : mat T) : Prop :=
  mwf dst /\ rows dst = r /\ cols dst = c /\
  forall i j, i < r -> j < c ->
    sample dst i j =
    sample src (nearest (rows src) (Z.of_nat i - Z.of_nat (offset loc r (rows src))))
               (nearest (cols src) (Z.of_nat j - Z.of_nat (offset loc c (cols src)))).

(** [dst] (r x c) shows [src] at the given location and [zero] outside. *)
Definition zero_padded {T} (zero : T) (r c : nat) (loc : location) (src dst : mat T) : Prop :=
  mwf dst /\ rows dst = r /\ cols dst = c /\
  forall i j, i < r -> j < c ->
    let i' := (Z.of_nat i - Z.of_nat (offset loc r (rows src)))%Z in
    let j' := (Z.of_nat j - Z.of_nat (offset loc c (cols src)))%Z in
    sample dst i j =
    (if (0 <=? i')%Z && (i' <? Z.of_nat (rows src))%Z &&
        (0 <=? j')%Z && (j' <? Z.of_nat (cols src))%Z
     then sample src (Z.to_nat i') (Z.to_nat j') else Some zero).
