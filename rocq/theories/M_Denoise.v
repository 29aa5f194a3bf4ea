(** * M_Denoise: wavelet_buffer/denoise_algorithms.h *)
Require Import List Bool Arith ZArith.
Require Import Verif.M_Base Verif.M_Buffer.
Import ListNotations.
Open Scope nat_scope.

(** The operations on T the denoisers need besides [Arith]. *)
Class Mag (T : Type) := {
  mabs : T -> T;              (* std::abs, std::fabs *)
  mgt : T -> T -> bool;       (* > *)
  mnat : nat -> T;            (* conversion of a size_t to T *)
  mtrunc : nat -> T -> res nat (* static_cast<size_t>(n * level): n is converted to
                                  T; a negative, too large or NaN product is UB *)
}.

(** m(i,j) = x *)
Definition mset {T} (m : mat T) (i j : nat) (x : T) : res (mat T) :=
  let* _ := guard ((i <? rows m) && (j <? cols m)) in
  let* l := wr (elts m) (i * cols m + j) x in
  Ok (Mat (rows m) (cols m) l).
(** blaze::zero<T>(r, c), Signal2D(r, c, 0) *)
Definition mzero {T} `{Arith T} (r c : nat) : mat T := Mat r c (repeat a0 (r * c)).

Section Denoise.
Context {T : Type} {A : Arith T} {M : Mag T}.

(** denoise_algorithms.h:112 ThresholdAbsDenoiseAlgorithm::GetThreshold *)
Definition get_threshold (a b : T) (step : nat) : T := aadd (amul a (mnat step)) b.

(** denoise_algorithms.h:76-90 Denoise(Signal2D) *)
Definition threshold2 (a b : T) (data : mat T) (step : nat) : res (mat T) :=
  let threshold := get_threshold a b step in
  loop (rows data) 0 (fun i result =>
    loop (cols data) 0 (fun j result =>
      let* x := mget data i j in
      if mgt (mabs x) threshold then mset result i j x else Ok result) result)
    (mzero (rows data) (cols data)).

(** denoise_algorithms.h:98-109 Denoise(Signal1D) *)
Definition threshold1 (a b : T) (data : list T) (step : nat) : res (list T) :=
  let threshold := get_threshold a b step in
  loop (length data) 0 (fun i result =>
    let* x := rd data i in
    if mgt (mabs x) threshold then wr result i x else Ok result)
    (repeat a0 (length data)).

(** A library denoiser as the [denoiser] handed to Decompose.  The fallback is
    never taken (see the theorems on [threshold1] ... [simple2]). *)
Definition total_of {X} (x : X) (r : res X) : X := match r with Ok y => y | _ => x end.
Definition threshold_denoiser (a b : T) : denoiser T :=
  Denoiser (fun l s => total_of l (threshold1 a b l s)) (fun m s => total_of m (threshold2 a b m s)).

(** std::nth_element(begin, begin + k, end, comp) on (abs value, key) tuples:
    some rearrangement; which one is up to the implementation, so it is a
    parameter.  k = size means nth == last: no effect required. *)
Definition nth_element_fn (K : Type) := list (T * K) -> nat -> list (T * K).

(** denoise_algorithms.h:148-150 and 182-184: slice_index, with size_t
    wrap-around in [values.size() - 1] for an empty vector. *)
Definition slice_index (level : T) (n : nat) : res nat :=
  let* drop := mtrunc n level in
  Ok (n - (if n =? 0 then drop else Nat.min drop (n - 1))).

(** denoise_algorithms.h:136-167 SimpleDenoiseAlgorithm::Denoise(Signal2D) *)
Definition simple2 (ne : nth_element_fn (nat * nat)) (level : T) (data : mat T)
  : res (mat T) :=
  let n := rows data * cols data in
  let* values :=                                                     (* 138-145 *)
    loop (rows data) 0 (fun i values =>
      loop (cols data) 0 (fun j values =>
        let* x := mget data i j in
        wr values (i + j * rows data) (Some (mabs x, (i, j)))) values) (repeat None n) in
  let* values := mapM (fun o => match o with Some v => Ok v | None => UB end) values in
  let* k := slice_index level n in
  let* _ := guard (k <=? n) in
  let sorted := ne values k in                                       (* 153-155 *)
  loop k 0 (fun c result =>                                          (* 161-164 *)
    let* e := rd sorted c in
    let '(_, (i, j)) := e in
    let* x := mget data i j in
    mset result i j x) (mzero (rows data) (cols data)).

(** denoise_algorithms.h:173-202 Denoise(Signal1D) *)
Definition simple1 (ne : nth_element_fn nat) (level : T) (data : list T) : res (list T) :=
  let n := length data in
  let* values := tabulateM n (fun i => let* x := rd data i in Ok (mabs x, i)) in
  let* k := slice_index level n in
  let* _ := guard (k <=? n) in
  let sorted := ne values k in
  loop k 0 (fun c result =>
    let* e := rd sorted c in
    let* x := rd data (snd e) in
    wr result (snd e) x) (repeat a0 n).

Definition simple_denoiser (ne1 : nth_element_fn nat) (ne2 : nth_element_fn (nat * nat))
  (level : T) : denoiser T :=
  Denoiser (fun l _ => total_of l (simple1 ne1 level l)) (fun m _ => total_of m (simple2 ne2 level m)).
End Denoise.
