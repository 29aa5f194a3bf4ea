(** * S_Size: how many bytes a compressed blob takes *)
Require Import List Bool Arith ZArith.
Require Import Verif.M_Base Verif.M_Params Verif.M_Buffer Verif.M_Archive Verif.M_Serializer Verif.S_Serializer.
Import ListNotations.
Open Scope Z_scope.

(** The values that are not zero, and where they stand (counted row by row) *)
Definition nonzero_values (m : mat word) : list word := filter (fun x => negb (is_zero x)) (elts m).
Fixpoint places_from (k : Z) (l : list word) : list Z :=
  match l with
  | [] => []
  | x :: t => if is_zero x then places_from (k + 1) t else k :: places_from (k + 1) t
  end.
Definition places (m : mat word) : list Z := places_from 0 (elts m).

(** The distance of each place from the one before (from 0 for the first) *)
Fixpoint gaps (prev : Z) (l : list Z) : list Z :=
  match l with [] => [] | x :: t => (x - prev) :: gaps x t end.
Definition gap_bytes (d : Z) : nat :=
  if d <? 256 then 1 else if d <? 65536 then 2 else if d <? 16777216 then 3 else 4.

(** Bytes of the places of a subband: a quarter of a byte for each, rounded
    up, and the bytes of the distances *)
Definition place_bytes (m : mat word) : nat :=
  ((length (places m) + 3) / 4 + list_sum (map gap_bytes (gaps 0 (places m))))%nat.

(** Bytes of a compressed subband whose values were written as [v]: three
    numbers of 8 bytes, two tags of 20 bytes, 16 bytes of padding *)
Definition subband_size (m : mat word) (v : list Z) : nat := (80 + place_bytes m + length v)%nat.

(** STREAMVBYTE_PADDING is 16 *)
Definition padding_16 (cd : codec) : Prop := forall e, length (svb_tail cd e) = 16%nat.
(** fpzip writes into a buffer of 4 bytes for each value and 1024 more *)
Definition in_its_buffer (cd : codec) (prec : Z) : Prop :=
  forall l bytes, fpz_write cd prec l = Ok bytes -> (length bytes <= 4 * length l + 1024)%nat.

(** At most this many bytes for a subband of N values, n of them not zero:
    for one in 20 that is not zero about an eighth of the 4 N bytes *)
Definition most_bytes (m : mat word) : nat :=
  let n := length (nonzero_values m) in
  let N := Z.of_nat (rows m) * Z.of_nat (cols m) in
  (1104 + (n + 3) / 4 + 5 * n + Z.to_nat (N / 256 + N / 65536 + N / 16777216))%nat.

(** [l'] is [l] without some of its elements *)
Inductive part {X} : list X -> list X -> Prop :=
| part_nil : part [] []
| part_keep x l' l : part l' l -> part (x :: l') (x :: l)
| part_drop x l' l : part l' l -> part l' (x :: l).
(** fpzip does not take more bytes for fewer values *)
Definition no_more_for_less (cd : codec) (prec : Z) : Prop :=
  forall l l' v v', part l' l -> fpz_write cd prec l = Ok v -> fpz_write cd prec l' = Ok v' ->
    (length v' <= length v)%nat.

(** [b'] is [b] with some values replaced by zeros *)
Definition zeroed (m' m : mat word) : Prop :=
  rows m' = rows m /\ cols m' = cols m /\
  Forall2 (fun x' x => x' = x \/ is_zero x' = true) (elts m') (elts m).
Definition sparser (b' b : buffer word) : Prop :=
  bpar b' = bpar b /\ Forall2 (Forall2 zeroed) (bdec b') (bdec b).
