(** * S_Params: specification of parameter legality and padded sizes.
    Uses only [params] (the data type) from the model. *)
Require Import List ZArith.
Require Import Verif.M_Params.
Import ListNotations.
Open Scope Z_scope.

(** Parameters a user may construct a buffer with: one or two sides, each
    side at least 2*type long, no steps for type 0 (kNone), otherwise
    2^steps * (2*type-1) fits in every side. *)
Definition legal (p : params) : Prop :=
  (length (shape p) = 1%nat \/ length (shape p) = 2%nat) /\
  Forall (fun n => 2 * wtype p <= n) (shape p) /\
  (if wtype p =? 0 then steps p = 0
   else Forall (fun n => 2 ^ steps p * (2 * wtype p - 1) <= n) (shape p)).

(** Subbands per channel: one detail band per step in 1D, three in 2D, and the
    approximation. *)
Definition subband_count (p : params) : nat :=
  match shape p with
  | [_] => 1 * Z.to_nat (steps p) + 1
  | _ => 3 * Z.to_nat (steps p) + 1
  end.

(** m is the least multiple of q that is at least n. *)
Definition least_multiple (q n m : Z) : Prop :=
  (q | m) /\ n <= m /\ forall m', (q | m') -> n <= m' -> m <= m'.
