(** * S_ZeroDer: filtering of a signal that continues with its first and last
    sample *)
Require Import List Arith ZArith Reals.
Open Scope R_scope.

(** sample [z] of the signal continued at both ends *)
Definition continued (x : list R) (z : Z) : R :=
  nth (Z.to_nat (Z.max 0 (Z.min (Z.of_nat (length x) - 1) z))) x 0.

(** output [i] of the filter [f] of [2 t] taps, every second sample, the taps
    before and after the sample *)
Definition edge_filter (f : list R) (x : list R) (i : nat) : R :=
  fold_right Rplus 0 (map (fun k =>
    nth k f 0 * continued x (2 * Z.of_nat i - (Z.of_nat (length f) / 2 - 1) + Z.of_nat k)%Z)
    (seq 0 (length f))).
