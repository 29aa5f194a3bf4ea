(** * S_Damage: uncompressed blobs, their layout and damage to them *)
Require Import List Arith ZArith.
Require Import Verif.M_Base Verif.M_Params Verif.M_Buffer Verif.S_Params Verif.M_Archive Verif.S_Serializer.
Import ListNotations.
Open Scope Z_scope.

(** The number written least significant byte first *)
Definition number (bytes : list Z) : Z := fold_right (fun b n => b + 256 * n) 0 bytes.

(** Bytes a subband takes: a tag of 4 bytes, rows, columns and number of
    elements in 8 bytes each, 4 bytes for each element *)
Definition matrix_bytes {T} (m : mat T) : nat := 28 + 4 * (rows m * cols m).
(** Where the subband after the subbands [before] begins *)
Definition offset {T} (p : params) (before : list (mat T)) : nat :=
  header_length p + list_sum (map matrix_bytes before).

(** The subbands of the buffer, channel after channel, are [before], [m] and
    [after] *)
Definition splits {T} (b : buffer T) (before : list (mat T)) (m : mat T) (after : list (mat T)) : Prop :=
  concat (bdec b) = before ++ m :: after.

(** [b'] is [b] with subband [m] replaced by [m'] *)
Definition replaced {T} (b b' : buffer T) (before : list (mat T)) (m' : mat T) (after : list (mat T)) : Prop :=
  bpar b' = bpar b /\ map (@length _) (bdec b') = map (@length _) (bdec b) /\ splits b' before m' after.
(** [m'] is [m] with element [i] replaced by [x] *)
Definition changed {T} (m m' : mat T) (i : nat) (x : T) : Prop :=
  rows m' = rows m /\ cols m' = cols m /\ length (elts m') = length (elts m) /\
  nth_error (elts m') i = Some x /\ forall j, j <> i -> nth_error (elts m') j = nth_error (elts m) j.

(** Somewhere there is the tag of a matrix of floats followed by a number of
    rows and a number of columns that are too many to count in 64 bits. *)
Definition oversized (bytes : list Z) : Prop :=
  exists pre r c post, bytes = pre ++ [1; 1; 3; 4] ++ r ++ c ++ post /\
    length r = 8%nat /\ length c = 8%nat /\ 2 ^ 64 <= number r * number c.

(** The parameters as they stand in a blob: the number of sides, the sides,
    the number of channels, of steps and the wavelet type *)
Definition parameter_bytes (p : params) (bytes : list Z) : Prop :=
  exists n sides ch st ty, bytes = n ++ concat sides ++ ch ++ st ++ ty /\
    length n = 8%nat /\ number n = Z.of_nat (length (shape p)) /\
    Forall2 (fun l x => length l = 8%nat /\ number l = x) sides (shape p) /\
    length ch = 8%nat /\ number ch = signum p /\ length st = 8%nat /\ number st = steps p /\
    length ty = 4%nat /\ number ty = wtype p mod 2 ^ 32.
