(** * S_Buffer: what a user knows about shapes of signals and subbands, and
    which buffers a program can reach.  Uses the data types of the model and,
    for [reachable], its API functions; none of its internal helpers. *)
Require Import List Bool Arith ZArith.
Require Import Verif.M_Base Verif.M_Params Verif.M_Buffer Verif.M_View Verif.S_Params.
Import ListNotations.
Open Scope nat_scope.

(** Parameters a user may use with a known wavelet: legal, type 0..10 (the
    enum has 0..5, the coefficient tables go up to 10), sides below 2^63. *)
Definition accepted (p : params) : Prop :=
  params_rep p /\ legal p /\ (0 <= wtype p <= 10)%Z /\ Forall (fun n => (n < 2 ^ 63)%Z) (shape p).

(** Rows and columns of a signal of the declared shape: a 1D signal is one
    column, a 2D shape is (width, height). *)
Definition drows (p : params) : nat :=
  match shape p with [n] => Z.to_nat n | [_; h] => Z.to_nat h | _ => 0 end.
Definition dcols (p : params) : nat :=
  match shape p with [w; _] => Z.to_nat w | _ => 1 end.
Definition shaped {T} (p : params) (m : mat T) : Prop :=
  mwf m /\ rows m = drows p /\ cols m = dcols p.

(** n rounded up to a multiple of 2^k *)
Definition round_up (k n : nat) : nat := 2 ^ k * ((n + 2 ^ k - 1) / 2 ^ k).

Definition nsteps (p : params) : nat := Z.to_nat (steps p).
Definition is_1d (p : params) : bool := length (shape p) =? 1.
(** detail subbands per step *)
Definition bands (p : params) : nat := if is_1d p then 1 else 3.
(** size of the padded signal after s halvings *)
Definition level_rows (p : params) (s : nat) : nat := round_up (nsteps p) (drows p) / 2 ^ s.
Definition level_cols (p : params) (s : nat) : nat :=
  if is_1d p then 1 else round_up (nsteps p) (dcols p) / 2 ^ s.

Definition sized {T} (r c : nat) (m : mat T) : Prop := mwf m /\ rows m = r /\ cols m = c.

(** The layout of a decomposed channel: for each step the detail subbands of
    half the size of the previous level, at the end the approximation. *)
Definition has_layout {T} (p : params) (ch : list (mat T)) : Prop :=
  length ch = nsteps p * bands p + 1 /\
  (forall s i m, s < nsteps p -> i < bands p -> nth_error ch (s * bands p + i) = Some m ->
     sized (level_rows p (s + 1)) (level_cols p (s + 1)) m) /\
  (forall m, nth_error ch (nsteps p * bands p) = Some m ->
     sized (level_rows p (nsteps p)) (level_cols p (nsteps p)) m).

(** A channel nothing was decomposed into. *)
Definition untouched {T} (p : params) (ch : list (mat T)) : Prop :=
  length ch = nsteps p * bands p + 1 /\
  forall m, In m ch -> rows m = 0 /\ cols m = 0 /\ elts m = [].

(** A denoiser that keeps the shape of what it is given. *)
Definition keeps_shape {T} (den : denoiser T) : Prop :=
  (forall l s, length (den1 den l s) = length l) /\
  (forall m s, mwf m -> sized (rows m) (cols m) (den2 den m s)).

(** Buffers reachable by API calls from a constructed one, with well-formed
    data and shape-keeping denoisers. *)
Inductive reachable {T} {A : Arith T} (p : params) : buffer T -> Prop :=
| reach_new b : new_buffer p = Ok b -> reachable p b
| reach_decompose b data den r b' :
    reachable p b -> Forall mwf data -> keeps_shape den ->
    decompose b data den = Ok (r, b') -> reachable p b'
| reach_decompose1 b data den r b' :
    reachable p b -> keeps_shape den ->
    decompose1 b data den = Ok (r, b') -> reachable p b'
| reach_view b v data den r b' :
    reachable p b -> Forall mwf data -> keeps_shape den ->
    view_decompose v b data den = Ok (r, b') -> reachable p b'.

(** What a denoiser makes of a detail subband of step s: 1D subbands are one
    column and are denoised as a vector. *)
Definition denoised {T} (p : params) (den : denoiser T) (s : nat) (d : mat T) : mat T :=
  if is_1d p then let v := den1 den (elts d) s in Mat (length v) 1 v else den2 den d s.

(** No element in any subband *)
Definition no_elements {T} (b : buffer T) : Prop :=
  forall ch m, In ch (bdec b) -> In m ch -> rows m = 0 \/ cols m = 0.

(** The same parameters for another number of channels *)
Definition with_signum (p : params) (n : Z) : params := Params (shape p) n (steps p) (wtype p).

(** A view inside the buffer's channels (and the range of int) *)
Definition in_range (v : view) (p : params) : Prop :=
  (0 <= vstart v /\ 0 <= vcount v /\ vstart v + vcount v <= signum p /\ vstart v + vcount v < 2 ^ 31)%Z.
