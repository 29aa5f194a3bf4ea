(** * M_Legacy: compressed version 2 blobs
    (sources/wavelet_buffer_serializer.cc:156-200) *)
Require Import List ZArith Bool.
Require Import Flocq.Core.Core Flocq.IEEE754.BinarySingleNaN.
Import ListNotations.
From Verif Require Import M_Base M_Params M_Buffer M_Float M_Sf M_SfCodec M_Archive M_Serializer.
Open Scope Z_scope.

(** serializer.cc:156-165 GetMemorySizeForSfCompressor.  size_t arithmetic
    wraps, the rest is in double; [std::pow] of a power of two is exact.  The
    conversion to size_t is undefined from 2^64 on. *)
Definition one_and_half : f64 := binary_normalize 53 1024 _ _ mode_NE 3 (-1) false.
Definition memory_size (sh : list Z) (s : nat) : res Z :=
  let one_dim := (length sh =? 1)%nat in
  let* n0 := rd sh 0 in
  let* n := if one_dim then Ok n0 else let* n1 := rd sh 1 in Ok (wrap64 (n0 * n1)) in
  let max_size := wrap64 (n * 4) in
  let divisor := pow2d (if one_dim then Z.of_nat s else 2 * Z.of_nat (s / 3)) in
  let v := f64_mul (f64_div (f64_of_int max_size) divisor) one_and_half in
  let* _ := guard (is_finite v && (Btrunc v <? 2 ^ 64)) in
  Ok (Btrunc v).

(** serializer.cc:190-194: the loop is that of ConvertFromCSR
    (matrix_compressor.cc:41-56) *)
Definition fill_subband (o : origin) : res (mat word) :=
  convert_from_csr (o_indexes o) (o_values o) (o_rows o) (o_cols o).

(** a computation between two reads *)
Definition lift {X} (r : res X) : reader X := fun s => let* x := r in Ok (x, s).

(** serializer.cc:173-196: subbands [s], ..., [s + n - 1] of one channel; [None]:
    Decompress returned false (186).  The object is new for every subband. *)
Fixpoint legacy_channel (sh : list Z) (s n : nat) : reader (option (list (mat word))) :=
  match n with
  | O => rret (Some [])
  | S n' =>
      read* bytes := get_bytes in
      read* size := lift (memory_size sh s) in
      read* r := lift (M_SfCodec.decompress (new_impl (Z.to_nat size)) bytes) in
      match fst r with
      | None => rret None
      | Some o =>
          read* m := lift (fill_subband o) in
          read* t := legacy_channel sh (S s) n' in
          rret (match t with Some t => Some (m :: t) | None => None end)
      end
  end.

(** serializer.cc:167-200 ParseCompressedSubbands *)
Fixpoint legacy_channels {X} (sh : list Z) (shape_of : list (list X)) : reader (option (list (list (mat word)))) :=
  match shape_of with
  | [] => rret (Some [])
  | ch :: t =>
      read* c := legacy_channel sh 0 (length ch) in
      match c with
      | None => rret None
      | Some c =>
          read* l := legacy_channels sh t in
          rret (match l with Some l => Some (c :: l) | None => None end)
      end
  end.
Definition parse_legacy (b : buffer word) (rest : list Z) : res (option (buffer word)) :=
  let* r := legacy_channels (shape (bpar b)) (bdec b) rest in
  Ok (match fst r with Some dec => Some (Buffer (bpar b) dec) | None => None end).
