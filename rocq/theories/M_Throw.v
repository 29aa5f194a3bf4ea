(** Decompose that an exception leaves: one of the denoiser, or bad_alloc.
    Models DecomposeImpl (wavelet_utils.cc:233-297) once more, this time
    keeping the buffer as it is when the exception leaves the call: the code
    writes each subband into the buffer as soon as it is computed and has no
    clean-up, so everything written before stays written.

    Memory may run out in any allocation.  Between two writes to the buffer
    it does not matter where: the writes done so far stay, the others are not
    done.  So the model lets it run out at the writes: inside or after a
    Denoise call, which then has no answer, and when the approximation is
    copied into the buffer (292).  (A Blaze assignment that needs memory
    allocates before it changes its target.) *)
Require Import List Bool Arith ZArith.
Require Import Verif.M_Base Verif.M_Params Verif.M_Padding Verif.M_Wavelet Verif.M_Buffer Verif.M_View.
Import ListNotations.
Open Scope nat_scope.

Section T.
Context {T : Type} {A : Arith T}.

(** denoise_algorithms.h:28-31 DenoiseAlgorithm: both overloads of Denoise.
    The first argument is the number of Denoise calls this Decompose has made
    before: an algorithm may keep (mutable or global) state and behave
    differently in each call.  [None]: the call throws, or memory runs out
    before its answer is stored. *)
Record fallible : Type := Fallible {
  f1 : nat -> list T -> nat -> option (list T);
  f2 : nat -> mat T -> nat -> option (mat T)
}.

(** wavelet_utils.cc:200-201: [blaze::column(data, 0) = Denoise(high, step)];
    Blaze throws std::invalid_argument when the sizes differ. *)
Definition call_1d (den : fallible) (step : nat) (n : nat) (m : mat T) : option (mat T) :=
  match f1 den n (elts m) step with
  | Some v => if length v =? length (elts m) then Some (mcolvec v) else None
  | None => None
  end.

(** wavelet_utils.cc:178-180: [Denoise(cH, step)] *)
Definition call_2d (den : fallible) (step : nat) (n : nat) (m : mat T) : option (mat T) :=
  f2 den n m step.

(** wavelet_utils.cc:178-180 and 200-202: [*(dest + k) = ...] for consecutive
    k.  Each subband is assigned before the next Denoise call.  Result: the
    subbands of the channel, the number of calls made so far, and whether an
    exception is flying. *)
Fixpoint put_all (call : nat -> mat T -> option (mat T)) (l : list (mat T))
  (dec : decomposition T) (off n : nat) : res (decomposition T * nat * bool) :=
  match l with
  | [] => Ok (dec, n, false)
  | m :: t =>
      match call n m with
      | None => Ok (dec, S n, true)
      | Some m' => let* dec' := wr dec off m' in put_all call t dec' (S off) (S n)
      end
  end.

(** wavelet_utils.cc:170-226 CalculateOneSideStep: the subbands handed to
    Denoise and the new approximation, 1D (198-199, 204-205) and 2D
    (175-176, 182). *)
Definition raw_step (dim : nat) (wm : list (smat T)) (signal : mat T) : res (list (mat T) * mat T) :=
  if dim =? 1 then
    let* sig := mcol signal 0 in
    let* w0 := rd wm 0 in
    let* lh := dwt sig w0 in
    Ok ([mcolvec (snd lh)], mcolvec (fst lh))
  else
    let* w0 := rd wm 0 in
    let* w1 := rd wm 1 in
    let* q := dwt2 signal w0 w1 in
    let '(cA, cH, cV, cD) := q in
    Ok ([cH; cV; cD], cA).

(** wavelet_utils.cc:277-293: one channel.  The approximation (292) is
    assigned after the last step; an exception leaves before that.  [mem]:
    memory suffices for the copy of the approximation. *)
Definition channel_e (p : params) (den : fallible) (mem : bool) (padded : list Z)
  (mats : nat -> res (list (smat T))) (dec : decomposition T) (n : nat) (data : mat T)
  : res (decomposition T * nat * bool) :=
  let* channel := add_padding data padded in
  let k := Z.to_nat (steps p) in
  let* st := loop k 0 (fun step (st : decomposition T * nat * bool * mat T) =>
      let '(dec, n, raised, signal) := st in
      if raised then Ok st
      else
        let* wm := mats step in
        let* r := raw_step (dimension p) wm signal in
        let* w := put_all (if dimension p =? 1 then call_1d den step else call_2d den step)
                    (fst r) dec (step * spw p) n in
        Ok (w, snd r)) (dec, n, false, channel) in
  let '(dec', n', raised, signal) := st in
  if raised then Ok (dec', n', true)
  else if negb mem then Ok (dec', n', true)
  else let* dec2 := wr dec' (k * spw p) signal in Ok (dec2, n', false).

(** What a call to Decompose ends with. *)
Inductive outcome := Answer (b : bool) | Exception.

(** wavelet_utils.cc:233-297 DecomposeImpl, with the exception visible.
    [mem c]: memory suffices for the approximation of channel start + c. *)
Definition decompose_impl_e (p : params) (dec : ndecomposition T) (data : list (mat T)) (den : fallible) (mem : nat -> bool)
  (start count : nat) : res (outcome * ndecomposition T) :=
  let* ok := shape_ok p data (Z.of_nat count) in
  if negb ok then Ok (Answer false, dec)
  else
    let* padded := calc_padded (wtype p) (shape p) (steps p) in
    let* stack := if dimension p =? 2 then gen_matrices padded p else Ok [] in
    let* dmat := analysis_mat (wtype p) in
    let mats step := if dimension p =? 1 then Ok [dmat] else rd stack step in
    let* st := loop count start (fun ch (st : ndecomposition T * nat * bool) =>
        let '(dec, n, raised) := st in
        if raised then Ok st
        else
          let* d := rd data (ch - start) in
          let* sub := rd dec ch in
          let* w := channel_e p den (mem (ch - start)) padded mats sub n d in
          let '(sub', n', raised') := w in
          let* dec' := wr dec ch sub' in
          Ok (dec', n', raised')) (dec, 0, false) in
    let '(dec', _, raised) := st in
    Ok (if raised then Exception else Answer true, dec').

(** wavelet_buffer.cc:96-100 Decompose(SignalN2D) *)
Definition decompose_e (b : buffer T) (data : list (mat T)) (den : fallible) (mem : nat -> bool) : res (outcome * buffer T) :=
  let* r := decompose_impl_e (bpar b) (bdec b) data den mem 0 (Z.to_nat (signum (bpar b))) in
  Ok (fst r, Buffer (bpar b) (snd r)).

(** wavelet_buffer.cc:107-114 Decompose(Signal1D): channel 0 only *)
Definition decompose1_e (b : buffer T) (data : list T) (den : fallible) (mem : nat -> bool) : res (outcome * buffer T) :=
  let* r := decompose_impl_e (bpar b) (bdec b) [mcolvec data] den mem 0 1 in
  Ok (fst r, Buffer (bpar b) (snd r)).

(** wavelet_buffer_view.cc:25-31 Decompose (see [view_decompose]) *)
Definition view_decompose_e (v : view) (b : buffer T) (data : list (mat T)) (den : fallible) (mem : nat -> bool)
  : res (outcome * buffer T) :=
  let* ok := check_range v b in
  if negb ok then Ok (Answer false, b)
  else
    let* _ := guard (vmutable v) in
    if odd_range v then
      let* ok := shape_ok (bpar b) data (wrap64 (vcount v)) in
      Ok (Answer ok, b)
    else
      let* r := decompose_impl_e (bpar b) (bdec b) data den mem (Z.to_nat (vstart v)) (Z.to_nat (vcount v)) in
      Ok (fst r, Buffer (bpar b) (snd r)).

End T.
Arguments fallible : clear implicits.
