(** * S_Serializer: what a user knows about blobs *)
Require Import List Bool Arith ZArith.
Require Import Verif.M_Base Verif.M_Params Verif.M_Buffer Verif.S_Params Verif.S_Buffer
  Verif.M_Archive Verif.M_Serializer.
Import ListNotations.
Open Scope Z_scope.

(** A matrix whose dimensions and number of elements fit in 64 bits *)
Definition fits64 {T} (m : mat T) : Prop :=
  mwf m /\ Z.of_nat (rows m) < 2 ^ 64 /\ Z.of_nat (cols m) < 2 ^ 64 /\
  Z.of_nat (rows m) * Z.of_nat (cols m) < 2 ^ 64.

(** A buffer with accepted parameters and the number of channels and subbands
    these ask for; the subbands may have any size *)
Definition storable (b : buffer word) : Prop :=
  accepted (bpar b) /\ Z.of_nat (length (bdec b)) = signum (bpar b) /\
  forall ch, In ch (bdec b) ->
    length ch = (nsteps (bpar b) * bands (bpar b) + 1)%nat /\ Forall fits64 ch.

(** Every subband has elements *)
Definition no_empty_subband {T} (b : buffer T) : Prop :=
  forall ch m, In ch (bdec b) -> In m ch -> (rows m <> 0 /\ cols m <> 0)%nat.

(** Every subband has fewer than 2^32 elements; [indexable_int]: and its
    sides fit in an int *)
Definition indexable {T} (b : buffer T) : Prop :=
  forall ch m, In ch (bdec b) -> In m ch -> Z.of_nat (rows m) * Z.of_nat (cols m) < 2 ^ 32.
Definition int_sides {T} (b : buffer T) : Prop :=
  forall ch m, In ch (bdec b) -> In m ch -> Z.of_nat (rows m) < 2 ^ 31 /\ Z.of_nat (cols m) < 2 ^ 31.

(** The float codec (fpzip): whatever it writes for fewer than 2^32 values at
    precision [prec] is a string of bytes from which it reads back the values
    changed by [q]; padding bytes are bytes. *)
Definition codec_faithful (cd : codec) (prec : Z) (q : word -> word) : Prop :=
  (forall l bytes, Z.of_nat (length l) < 2 ^ 32 -> fpz_write cd prec l = Ok bytes ->
     Forall is_byte bytes /\ Z.of_nat (length bytes) < 2 ^ 64 /\ fpz_read cd bytes = Ok (map q l)) /\
  (forall e, Forall is_byte (svb_tail cd e) /\ Z.of_nat (length (svb_tail cd e)) < 2 ^ 32).
(** The float codec never fails *)
Definition codec_total (cd : codec) (prec : Z) : Prop :=
  forall l, exists bytes, fpz_write cd prec l = Ok bytes.

(** The buffer with every element x replaced by +0 if x is a zero, by [q x]
    otherwise *)
Definition clean (q : word -> word) (x : word) : word := if is_zero x then word_zero else q x.
Definition map_mat {T U} (f : T -> U) (m : mat T) : mat U := Mat (rows m) (cols m) (map f (elts m)).
Definition map_buffer {T U} (f : T -> U) (b : buffer T) : buffer U :=
  Buffer (bpar b) (map (map (map_mat f)) (bdec b)).

(** Length of version, parameters and sf byte *)
Definition header_length (p : params) : nat := 30 + 8 * length (shape p).

(** A version 2 blob as older releases wrote it (uncompressed): all channels
    as one Blaze vector of vectors of matrices. *)
Definition vec_v2 {X} (size_of : Z) (enc : X -> list Z) (l : list X) : list Z :=
  [1; 0; 0; size_of] ++ put_u64 (Z.of_nat (length l)) ++ put_u64 (Z.of_nat (length l))
  ++ concat (map enc l).
Definition blob_v2 (b : buffer word) : list Z :=
  [2] ++ put_params (bpar b) ++ [0] ++ vec_v2 24 (vec_v2 40 put_mat) (bdec b).

(** What operator>> skips *)
Definition blank (c : Z) : Prop := 9 <= c <= 13 \/ c = 32.

(** A concrete codec: precision 32 stores the patterns, other precisions
    clear the low bits. *)
Definition clear_low (prec : Z) (x : word) : word :=
  mkword (wbits x / 2 ^ (32 - prec) * 2 ^ (32 - prec)).
Definition plain_codec : codec := Codec
  (fun prec l => Ok (concat (map (fun x => le 4 (wbits (clear_low prec x))) l)))
  (fun bytes => match readN (length bytes / 4) (get_chk 4) bytes with
                | Ok (l, _) => Ok (map mkword l) | _ => Throw end)
  (fun _ => repeat 0 16).
