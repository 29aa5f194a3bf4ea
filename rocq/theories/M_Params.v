(** * M_Params: WaveletParameters and the size computations. *)
Require Import List ZArith Lia.
Require Import Verif.M_Base.
Import ListNotations.
Open Scope Z_scope.

(** wavelet_buffer/wavelet_parameters.h:34-38 (struct WaveletParameters).
    signal_shape, signal_number and decomposition_steps are size_t (0 <= . <
    2^64); wavelet_type is the enum of lines 17-24 held as its int value,
    because Parse can store any int in it (line 154). *)
Record params := Params {
  shape : list Z;
  signum : Z;
  steps : Z;
  wtype : Z
}.

(** The values the C++ struct can hold. *)
Definition u64 (z : Z) : Prop := 0 <= z < 2 ^ 64.
Definition i32 (z : Z) : Prop := - 2 ^ 31 <= z < 2 ^ 31.
Definition params_rep (p : params) : Prop :=
  Forall u64 (shape p) /\ u64 (Z.of_nat (length (shape p))) /\
  u64 (signum p) /\ u64 (steps p) /\ i32 (wtype p).

(** std::vector<size_t>::operator== *)
Fixpoint list_eqb (a b : list Z) : bool :=
  match a, b with
  | [], [] => true
  | x :: a', y :: b' => (x =? y) && list_eqb a' b'
  | _, _ => false
  end.

(** std::vector<size_t>::operator< : std::lexicographical_compare *)
Fixpoint list_ltb (a b : list Z) : bool :=
  match a, b with
  | [], [] => false
  | [], _ :: _ => true
  | _ :: _, [] => false
  | x :: a', y :: b' => if x <? y then true else if y <? x then false else list_ltb a' b'
  end.

(** wavelet_parameters.h:40-45 operator== *)
Definition params_eqb (a b : params) : bool :=
  list_eqb (shape a) (shape b) && (signum a =? signum b) &&
  (steps a =? steps b) && (wtype a =? wtype b).

(** wavelet_parameters.h:51-56 operator< : std::tie comparison, i.e.
    lexicographic with each component compared by < in both directions. *)
Definition params_ltb (a b : params) : bool :=
  if list_ltb (shape a) (shape b) then true
  else if list_ltb (shape b) (shape a) then false
  else if signum a <? signum b then true
  else if signum b <? signum a then false
  else if steps a <? steps b then true
  else if steps b <? steps a then false
  else wtype a <? wtype b.

(** wavelet_parameters.h:47-49, 58-60 *)
Definition params_neqb (a b : params) : bool := negb (params_eqb b a).
Definition params_gtb (a b : params) : bool := params_ltb b a.
Definition params_leb (a b : params) : bool := negb (params_ltb b a).
Definition params_geb (a b : params) : bool := negb (params_ltb a b).

(** wavelet_parameters.h:62 *)
Definition dimension (p : params) : nat := length (shape p).

(** wavelet_parameters.h:64-66; *std::min_element of an empty range is UB. *)
Fixpoint min_elem (l : list Z) : res Z :=
  match l with
  | [] => UB
  | [x] => Ok x
  | x :: t => let* m := min_elem t in Ok (Z.min x m)
  end.

(** sources/wavelet_utils.cc:119-133 CalculateMaxDecompositionSteps.
    [std::floor(std::log2(min_side / (2.0*type - 1)))] is modelled by the
    exact integer floor-log2 of the integer quotient (C02 relates it to the
    floating point computation).  Outside 1 <= type, 2*type-1 <= min_side the
    code computes log2 of a number below 1, of 0 or of a negative number; the
    constructor has excluded this before every call, and the model calls it
    UB. *)
Definition max_steps (t : Z) (sh : list Z) : res Z :=
  if t =? 0 then Ok 0
  else
    let* m := min_elem sh in
    let* _ := guard ((1 <=? t) && (2 * t - 1 <=? m)) in
    Ok (Z.log2 (m / (2 * t - 1))).

(** sources/wavelet_utils.cc:139-160 CalcPaddedSize, size_t arithmetic is
    modulo 2^64 ([signal_shape[i]-1] wraps for 0, the product may wrap).
    decomposition_steps is passed as int and is never negative here; the
    assert of line 146 is a guard. *)
Definition wrap64 (z : Z) : Z := z mod 2 ^ 64.
Definition padded_side (divider n : Z) : Z :=
  wrap64 (divider * (wrap64 (n - 1) / divider + 1)).
Definition calc_padded (t : Z) (sh : list Z) (k : Z) : res (list Z) :=
  if t =? 0 then Ok sh
  else
    let* mx := max_steps t sh in
    let* _ := guard (k <=? mx) in
    Ok (map (padded_side (2 ^ k)) sh).

(** sources/wavelet_utils.cc:442-444 SubbandsPerWaveletTransform *)
Definition spw (p : params) : nat := if Nat.eqb (dimension p) 1 then 1%nat else 3%nat.

(** sources/wavelet_utils.cc:491-494 DecompositionSize (size_t product; the
    number of steps of a constructed buffer is below 64, so no wrap). *)
Definition decomposition_size (p : params) : nat :=
  (Z.to_nat (steps p) * spw p + 1)%nat.

(** sources/wavelet_buffer.cc:236-239 CalculateMinSignalSize: an int product
    (overflow is UB), compared with a size_t at line 40, hence converted modulo
    2^64. *)
Definition min_signal_size (t : Z) : res Z :=
  let* _ := guard ((- 2 ^ 31 <=? t * 2) && (t * 2 <? 2 ^ 31)) in
  Ok (wrap64 (t * 2)).
