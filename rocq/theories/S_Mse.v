(** * S_Mse: squared difference of two signals, channel by channel. *)
Require Import List Reals.
Require Import Verif.M_Base Verif.M_Params Verif.S_Exact Verif.S_Stable.
Import ListNotations.
Open Scope R_scope.

(** sum over the channels of the squared differences of the samples, each
    channel padded (by repeating its edge) to the size the transform works on *)
Fixpoint signal_gap (p : params) (d1 d2 : list (mat R)) : R :=
  match d1, d2 with
  | x :: r1, y :: r2 => padded_error p x y * padded_error p x y + signal_gap p r1 r2
  | _, _ => 0
  end.

(** root of the sum over the channels of the squares of [accuracy] (of S_Stable:
    how far rounding takes the coefficients of a channel of that norm) *)
Fixpoint rounding_gap (u eta : R) (p : params) (d : list (mat R)) : R :=
  match d with
  | m :: r => accuracy u eta p (sqrt (padded_energy p m)) * accuracy u eta p (sqrt (padded_energy p m)) + rounding_gap u eta p r
  | [] => 0
  end.
