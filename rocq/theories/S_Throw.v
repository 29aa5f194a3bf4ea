(** Vocabulary for denoisers that may throw. *)
Require Import List Bool Arith ZArith.
Require Import Verif.M_Base Verif.M_Params Verif.M_Wavelet Verif.M_Buffer Verif.M_View Verif.S_Buffer Verif.M_Throw.
Import ListNotations.
Open Scope nat_scope.

Section T.
Context {T : Type} {A : Arith T}.

(** subband i of channel c *)
Definition sub_at (b : buffer T) (c i : nat) : option (mat T) :=
  match nth_error (bdec b) c with Some ch => nth_error ch i | None => None end.

(** The number of Denoise calls per channel *)
Definition per_channel (p : params) : nat := nsteps p * bands p.

(** What Denoise call number n makes of detail subband d of step s; [None]
    when it ends with an exception: its own, or the one for a 1D answer of
    another length. *)
Definition answer (p : params) (den : fallible T) (n s : nat) (d : mat T) : option (mat T) :=
  if is_1d p then
    match f1 den n (elts d) s with
    | None => None
    | Some v => if length v =? length (elts d) then Some (Mat (length v) 1 v) else None
    end
  else f2 den n d s.

(** The subbands of a channel, details and approximation: Decompose writes
    them in this order, channel by channel.  Write number w of a Decompose of
    the channels from [start] on, whose raw subbands are those of b0: what is
    written, or [None] when the exception comes instead. *)
Definition per_write (p : params) : nat := per_channel p + 1.
Definition written_from (p : params) (den : fallible T) (mem : nat -> bool) (b0 : buffer T) (start w : nat) : option (mat T) :=
  let c := w / per_write p in
  let i := w mod per_write p in
  match sub_at b0 (start + c) i with
  | None => None
  | Some d => if i <? per_channel p then answer p den (c * per_channel p + i) (i / bands p) d
              else if mem c then Some d else None
  end.
Definition written (p : params) (den : fallible T) (mem : nat -> bool) (b0 : buffer T) (w : nat) : option (mat T) :=
  written_from p den mem b0 0 w.
(** memory does not run out *)
Definition enough : nat -> bool := fun _ => true.

(** A denoiser that never throws *)
Definition never_throws (den : denoiser T) : fallible T :=
  Fallible (fun _ l s => Some (den1 den l s)) (fun _ m s => Some (den2 den m s)).

(** Answers keep the shape of the subband *)
Definition keeps_shape_e (den : fallible T) : Prop :=
  (forall n l s v, f1 den n l s = Some v -> length v = length l) /\
  (forall n m s v, mwf m -> f2 den n m s = Some v -> sized (rows m) (cols m) v).

(** A buffer after any calls, among them any number of Decompose calls, on the
    buffer or through views, that ended with an exception or did not *)
Inductive history_e (p : params) : buffer T -> Prop :=
| hist_calls b : reachable p b -> history_e p b
| hist_decompose b data den mem o b' : history_e p b ->
    (1 <= Z.of_nat (length data))%Z -> Z.of_nat (length data) = signum p -> Forall (shaped p) data ->
    decompose_e b data den mem = Ok (o, b') -> history_e p b'
| hist_view v b data den mem o b' : history_e p b ->
    in_range v p -> vmutable v = true -> (1 <= vcount v)%Z -> Z.of_nat (length data) = vcount v -> Forall (shaped p) data ->
    view_decompose_e v b data den mem = Ok (o, b') -> history_e p b'.

End T.
