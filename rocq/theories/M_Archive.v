(** * M_Archive: bytes, words and the Blaze archive format
    (wavelet_buffer/wavelet_parameters.h:90-155 and the Blaze serializers) *)
Require Import List Bool Arith ZArith Lia.
Require Import Verif.M_Base Verif.M_Params Verif.M_Buffer.
Import ListNotations.
Open Scope Z_scope.

(** A byte is a Z in [0, 256). *)
Definition is_byte (b : Z) : Prop := 0 <= b < 256.

(** A float as its 32-bit pattern (IEEE binary32). *)
Record word := Word { wbits : Z; wok : (0 <=? wbits) && (wbits <? 2 ^ 32) = true }.
Lemma word_range (z : Z) : (0 <=? z mod 2 ^ 32) && (z mod 2 ^ 32 <? 2 ^ 32) = true.
Proof.
  pose proof (Z.mod_pos_bound z (2 ^ 32) eq_refl) as (H1 & H2).
  apply andb_true_iff; split; [apply Z.leb_le | apply Z.ltb_lt]; assumption.
Qed.
Definition mkword (z : Z) : word := Word (z mod 2 ^ 32) (word_range z).

(** x == 0.0f : the patterns of +0 and -0 *)
Definition word_zero : word := mkword 0.
Definition is_zero (w : word) : bool := (wbits w =? 0) || (wbits w =? 2 ^ 31).

(** [n] bytes of z, least significant first (the machine is little endian) *)
Fixpoint le (n : nat) (z : Z) : list Z :=
  match n with
  | O => []
  | S n' => z mod 256 :: le n' (z / 256)
  end.
Fixpoint of_le (l : list Z) : Z :=
  match l with
  | [] => 0
  | b :: t => b + 256 * of_le t
  end.

(** ** Writing: blaze::Archive operator<< appends sizeof(T) bytes *)
Definition put_u64 (z : Z) : list Z := le 8 z.
Definition put_i32 (z : Z) : list Z := le 4 (z mod 2 ^ 32).
Definition put_word (w : word) : list Z := le 4 (wbits w).

(** wavelet_parameters.h:90-99 serialize(SignalShape) *)
Definition put_shape (sh : list Z) : list Z :=
  put_u64 (Z.of_nat (length sh)) ++ concat (map put_u64 sh).

(** wavelet_parameters.h:129-135 serialize(WaveletParameters) *)
Definition put_params (p : params) : list Z :=
  put_shape (shape p) ++ put_u64 (signum p) ++ put_u64 (steps p) ++ put_i32 (wtype p).

(** Blaze MatrixSerializer for DynamicMatrix<float> (dense, row-major):
    version 1, matrix type 1, element type 3 (floating point), element size 4,
    rows, columns, number of elements, the elements row by row. *)
Definition put_mat (m : mat word) : list Z :=
  [1; 1; 3; 4] ++ put_u64 (Z.of_nat (rows m)) ++ put_u64 (Z.of_nat (cols m))
  ++ put_u64 (wrap64 (Z.of_nat (rows m) * Z.of_nat (cols m)))
  ++ concat (map put_word (elts m)).

(** Blaze VectorSerializer for DynamicVector<uint8_t>: version 1, vector type
    0, element type 2 (unsigned integral), element size 1, size, number. *)
Definition put_bytes (l : list Z) : list Z :=
  [1; 0; 2; 1] ++ put_u64 (Z.of_nat (length l)) ++ put_u64 (Z.of_nat (length l)) ++ l.

(** ** Reading: a reader takes the bytes left in the stream *)
Definition reader (X : Type) := list Z -> res (X * list Z).

Definition rbind {X Y} (r : reader X) (f : X -> reader Y) : reader Y :=
  fun s => let* xs := r s in f (fst xs) (snd xs).
Definition rret {X} (x : X) : reader X := fun s => Ok (x, s).
Notation "'read*' x ':=' r 'in' f" := (rbind r (fun x => f))
  (at level 200, x pattern, r at level 100, f at level 200, right associativity).

Definition take (n : nat) (s : list Z) : option (list Z * list Z) :=
  if (n <=? length s)%nat then Some (firstn n s, skipn n s) else None.

(** [n] bytes as a number; [short] is what happens at the end of the stream *)
Definition get_le (short : res (Z * list Z)) (n : nat) : reader Z :=
  fun s => match take n s with
           | Some (a, r) => Ok (of_le a, r)
           | None => short
           end.

(** archive >> x for a built-in x: nothing is checked, a variable that is not
    initialised stays so: its later use is UB *)
Definition get_raw : nat -> reader Z := get_le UB.
(** the same inside a Blaze (de)serializer, which throws on a bad stream *)
Definition get_chk : nat -> reader Z := get_le Throw.
Definition rcheck (b : bool) : reader unit := fun s => let* _ := check b in Ok (tt, s).
Definition rguard (b : bool) : reader unit := fun s => let* _ := guard b in Ok (tt, s).

Fixpoint readN {X} (n : nat) (r : reader X) : reader (list X) :=
  match n with
  | O => rret []
  | S n' => read* x := r in read* t := readN n' r in rret (x :: t)
  end.

(** wavelet_parameters.h:108-121 deserialize(SignalShape); resize beyond
    max_size() throws std::length_error, smaller impossible allocations are
    not modelled. *)
Definition get_shape : reader (list Z) :=
  read* size := get_raw 8 in
  read* _ := rcheck (size <? 2 ^ 60) in
  readN (Z.to_nat size) (get_raw 8).

(** int32_t from its bytes *)
Definition signed32 (z : Z) : Z := if z <? 2 ^ 31 then z else z - 2 ^ 32.

(** wavelet_parameters.h:143-155 deserialize(WaveletParameters) *)
Definition get_params : reader params :=
  read* sh := get_shape in
  read* num := get_raw 8 in
  read* st := get_raw 8 in
  read* t := get_raw 4 in
  rret (Params sh num st (signed32 t)).

(** Blaze MatrixSerializer::deserialize into a DynamicMatrix<float>.  Matrix
    types 3, 5 and 7 (sparse or column-major source), which Serialize never
    writes, are refused in the model.  If rows*columns overflows size_t the
    allocation is too small for what is read: UB. *)
Definition get_mat : reader (mat word) :=
  read* v := get_chk 1 in
  read* t := get_chk 1 in
  read* et := get_chk 1 in
  read* es := get_chk 1 in
  read* r := get_chk 8 in
  read* c := get_chk 8 in
  read* num := get_chk 8 in
  read* _ := rcheck ((v =? 1) && (t =? 1) && (et =? 3) && (es =? 4) && (num <=? wrap64 (r * c))) in
  read* _ := rguard (r * c <? 2 ^ 64) in
  read* l := readN (Z.to_nat r * Z.to_nat c) (get_chk 4) in
  rret (Mat (Z.to_nat r) (Z.to_nat c) (map mkword l)).

(** Blaze VectorSerializer::deserialize into a DynamicVector<uint8_t>; a
    sparse source (type 2) is refused in the model. *)
Definition get_bytes : reader (list Z) :=
  read* v := get_chk 1 in
  read* t := get_chk 1 in
  read* et := get_chk 1 in
  read* es := get_chk 1 in
  read* n := get_chk 8 in
  read* num := get_chk 8 in
  read* _ := rcheck ((v =? 1) && (t =? 0) && (et =? 2) && (es =? 1) && (num <=? n)) in
  readN (Z.to_nat n) (get_chk 1).

(** Blaze VectorSerializer::deserialize into a DynamicVector of a class type
    of size [size_of] (element type 0), each element read by [r]. *)
Definition get_vec {X} (size_of : Z) (r : reader X) : reader (list X) :=
  read* v := get_chk 1 in
  read* t := get_chk 1 in
  read* et := get_chk 1 in
  read* es := get_chk 1 in
  read* n := get_chk 8 in
  read* num := get_chk 8 in
  read* _ := rcheck ((v =? 1) && (t =? 0) && (et =? 0) && (es =? size_of) && (num <=? n)) in
  readN (Z.to_nat n) r.
