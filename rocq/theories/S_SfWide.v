(** * S_SfWide: gaps between the values of a sparse matrix, and how far apart
    the exponents of consecutive values are *)
Require Import List ZArith.
Import ListNotations.
From Verif Require Import M_Base M_Archive.
Open Scope Z_scope.

(** the eight exponent bits of a float *)
Definition exponent (w : word) : Z := wbits w mod 2 ^ 31 / 2 ^ 23.

(** at most R zeros between position [lo] and the first value, and between
    every value and the next *)
Fixpoint runs_up_to (R lo : Z) (idx : list Z) : Prop :=
  match idx with [] => True | i :: t => i - lo - 1 <= R /\ runs_up_to R i t end.

(** every exponent differs from the one before it by at most J; [e0]: the one
    before the first *)
Fixpoint jumps_up_to (J e0 : Z) (l : list Z) : Prop :=
  match l with [] => True | e :: t => Z.abs (e0 - e) <= J /\ jumps_up_to J e t end.
