(** * S_Trans: pictures turned about their diagonal (width and height
    exchanged).  Uses the matrix and parameter types and [S_Buffer] only. *)
Require Import List Bool Arith ZArith Reals.
Require Import Verif.M_Base Verif.M_Params Verif.M_Buffer Verif.S_Buffer Verif.S_Exact.
Import ListNotations.
Open Scope nat_scope.

(** m' has the rows of m as its columns *)
Definition transposed (m m' : mat R) : Prop :=
  mwf m /\ mwf m' /\ rows m' = cols m /\ cols m' = rows m /\
  forall i j, i < rows m -> j < cols m -> at_ m' j i = at_ m i j.

(** p' describes w x h pictures where p describes h x w pictures *)
Definition turned_params (p p' : params) : Prop :=
  exists w h, shape p = [w; h] /\
    p' = Params [h; w] (signum p) (steps p) (wtype p).

(** A channel of 2D subbands and the channel of the turned picture: at each
    step the first and the second detail subband trade places, the third and
    the approximation stay, and each of them is transposed. *)
Definition turned_channel (steps : nat) (ch ch' : list (mat R)) : Prop :=
  length ch = steps * 3 + 1 /\ length ch' = steps * 3 + 1 /\
  (forall s m m', s < steps -> nth_error ch (s * 3) = Some m -> nth_error ch' (s * 3 + 1) = Some m' -> transposed m m') /\
  (forall s m m', s < steps -> nth_error ch (s * 3 + 1) = Some m -> nth_error ch' (s * 3) = Some m' -> transposed m m') /\
  (forall s m m', s < steps -> nth_error ch (s * 3 + 2) = Some m -> nth_error ch' (s * 3 + 2) = Some m' -> transposed m m') /\
  (forall m m', nth_error ch (steps * 3) = Some m -> nth_error ch' (steps * 3) = Some m' -> transposed m m').

(** two denoisers that treat a 2D subband and the transposed one alike *)
Definition turn_denoisers (den den' : denoiser R) : Prop :=
  forall m m' s, transposed m m' -> transposed (den2 den m s) (den2 den' m' s).
