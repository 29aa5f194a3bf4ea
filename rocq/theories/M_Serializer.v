(** * M_Serializer: sources/internal/matrix_compressor.cc,
    sources/wavelet_buffer_serializer.cc and Parse/Serialize of
    sources/wavelet_buffer.cc *)
Require Import List Bool Arith ZArith Lia.
Require Import Verif.M_Base Verif.M_Params Verif.M_Buffer Verif.M_Denoise Verif.M_Archive.
Import ListNotations.
Open Scope Z_scope.

(** The external libraries: fpzip (an arbitrary pair of functions; the reader
    gives as many values as the stream's own header says), and what the
    STREAMVBYTE_PADDING bytes after an encoded stream contain. *)
Record codec := Codec {
  fpz_write : Z -> list word -> res (list Z);  (* precision, values *)
  fpz_read : list Z -> res (list word);
  svb_tail : list Z -> list Z
}.

(** ** streamvbyte (delta variant) as specified by the format: two control
    bits per integer (number of bytes - 1), four integers per control byte,
    lowest bits first, all control bytes before the data bytes. *)
Fixpoint deltas (prev : Z) (l : list Z) : list Z :=
  match l with
  | [] => []
  | x :: t => (x - prev) mod 2 ^ 32 :: deltas x t
  end.
Definition svb_code (v : Z) : Z :=
  if v <? 2 ^ 8 then 0 else if v <? 2 ^ 16 then 1 else if v <? 2 ^ 24 then 2 else 3.
Fixpoint control_bytes (codes : list Z) : list Z :=
  match codes with
  | a :: b :: c :: d :: t => (a + 4 * b + 16 * c + 64 * d) :: control_bytes t
  | a :: b :: c :: nil => [a + 4 * b + 16 * c]
  | a :: b :: nil => [a + 4 * b]
  | a :: nil => [a]
  | nil => []
  end.
Definition svb_delta_encode (l : list Z) : list Z :=
  let ds := deltas 0 l in
  control_bytes (map svb_code ds)
  ++ concat (map (fun v => le (Z.to_nat (svb_code v + 1)) v) ds).

(** decode [n] integers; reading beyond the buffer is UB *)
Fixpoint svb_data (codes : list Z) (prev : Z) (data : list Z) : res (list Z) :=
  match codes with
  | [] => Ok []
  | c :: t =>
      match take (Z.to_nat (c + 1)) data with
      | None => UB
      | Some (a, rest) =>
          let x := (prev + of_le a) mod 2 ^ 32 in
          let* r := svb_data t x rest in Ok (x :: r)
      end
  end.
Definition svb_delta_decode (bytes : list Z) (n : nat) : res (list Z) :=
  let klen := ((n + 3) / 4)%nat in
  let* _ := guard (klen <=? length bytes)%nat in
  let* codes := tabulateM n (fun i =>
      let* k := rd bytes (i / 4) in Ok (k / 4 ^ Z.of_nat (i mod 4) mod 4)) in
  svb_data codes 0 (skipn klen bytes).

(** ** matrix_compressor.cc *)

(** matrix_compressor.cc:13-39 ConvertToCSR.  i and j are ints (29-30): rows
    or columns beyond the range of int are UB.  The index is cut to 32 bits
    (32). *)
Definition convert_to_csr (m : mat word) : res (list (Z * word)) :=
  let* _ := check (negb ((rows m =? 0)%nat || (cols m =? 0)%nat)) in
  let* _ := guard ((Z.of_nat (rows m) <? 2 ^ 31) && (Z.of_nat (cols m) <? 2 ^ 31)) in
  loop (rows m) 0 (fun i acc =>
    loop (cols m) 0 (fun j acc =>
      let* x := mget m i j in
      Ok (if is_zero x then acc
          else acc ++ [((Z.of_nat i * Z.of_nat (cols m) + Z.of_nat j) mod 2 ^ 32, x)])) acc) [].

(** matrix_compressor.cc:41-56 ConvertFromCSR; [values] has at least as many
    elements as [indexes] (72, 77).  Division by zero columns is UB, and so is
    a matrix whose number of elements overflows size_t. *)
Definition convert_from_csr (indexes : list Z) (values : list word) (r c : Z) : res (mat word) :=
  let* _ := guard (r * c <? 2 ^ 64) in
  loop (length indexes) 0 (fun i m =>
    let* idx := rd indexes i in
    let* _ := guard (negb (c =? 0)) in
    let* v := rd values i in
    mset m (Z.to_nat (idx / c)) (Z.to_nat (idx mod c)) v)
    (Mat (Z.to_nat r) (Z.to_nat c) (repeat word_zero (Z.to_nat r * Z.to_nat c))).

(** matrix_compressor.h:13-20 ArchivedMatrix (is_valid is always true here) *)
Record archived := Archived {
  ar_nonzero : Z; ar_rows : Z; ar_cols : Z; ar_indexes : list Z; ar_values : list Z }.

Section Codec.
Variable cd : codec.

(** matrix_compressor.cc:97-114 CompressIndexes: the count is passed as
    uint32_t; then the padding bytes *)
Definition compress_indexes (l : list Z) : list Z :=
  let e := svb_delta_encode (firstn (Z.to_nat (Z.of_nat (length l) mod 2 ^ 32)) l) in
  e ++ svb_tail cd e.

(** matrix_compressor.cc:58-73 Compress *)
Definition compress (m : mat word) (precision : Z) : res archived :=
  let* csr := convert_to_csr m in
  let* values := fpz_write cd precision (map snd csr) in
  Ok (Archived (Z.of_nat (length csr)) (Z.of_nat (rows m)) (Z.of_nat (cols m))
        (compress_indexes (map fst csr)) values).

(** matrix_compressor.cc:75-95, 116-121, 163-180 Decompress: [indexes] and
    [values] get [nonzero] elements (vectors of zeros) that the libraries then
    fill; more values than that overrun the buffer. *)
Definition decompress (a : archived) : res (mat word) :=
  let n := Z.to_nat (ar_nonzero a) in
  let* _ := check (ar_nonzero a <? 2 ^ 61) in                             (* 83: resize *)
  let count := Z.to_nat (ar_nonzero a mod 2 ^ 32) in
  let* idx := svb_delta_decode (ar_indexes a) count in
  let indexes := idx ++ repeat 0 (n - count) in
  let* vals := fpz_read cd (ar_values a) in
  let* _ := guard (length vals <=? n)%nat in
  let values := vals ++ repeat word_zero (n - length vals) in
  convert_from_csr indexes values (ar_rows a) (ar_cols a).

(** ** wavelet_buffer_serializer.cc *)

Definition serialization_version : Z := 3.  (* wavelet_buffer.h:22 *)

(** serializer.cc:126-145: one subband *)
Definition put_subband (sf : Z) (m : mat word) : res (list Z) :=
  if sf =? 0 then Ok (put_mat m)
  else
    let* a := compress m (33 - sf) in
    Ok (put_u64 (ar_nonzero a) ++ put_u64 (ar_rows a) ++ put_u64 (ar_cols a)
        ++ put_bytes (ar_indexes a) ++ put_bytes (ar_values a)).

(** serializer.cc:108-154 Serialize.  [Some blob] = true; [None] = false, the
    caller's string is not touched; exceptions are caught (150). *)
Definition catch {X} (r : res X) : res (option X) :=
  match r with Ok x => Ok (Some x) | Throw => Ok None | UB => UB end.

Definition serializer_serialize (b : buffer word) (sf0 : Z) : res (option (list Z)) :=
  let sf := Z.min 31 sf0 in
  let sf := if is_empty b then 0 else sf in
  catch (
    let* subs := mapM (mapM (put_subband sf)) (bdec b) in
    Ok ([serialization_version] ++ put_params (bpar b) ++ [sf] ++ concat (concat subs))).

(** wavelet_buffer.cc:180-184 Serialize: through a copy made by the checking
    constructor *)
Definition serialize (b : buffer word) (sf : Z) : res (option (list Z)) :=
  let* copy := new_buffer_with (bpar b) (bdec b) in
  serializer_serialize copy sf.

(** serializer.cc:80-97: one subband.  The three built-in reads of line 86 are
    not checked, but the variables are initialised and the next read throws
    if the stream has failed. *)
Definition get_subband (sf : Z) : reader (mat word) :=
  if sf =? 0 then get_mat
  else
    read* nonzero := get_chk 8 in
    read* r := get_chk 8 in
    read* c := get_chk 8 in
    read* indexes := get_bytes in
    read* values := get_bytes in
    fun s => let* m := decompress (Archived nonzero r c indexes values) in Ok (m, s).

(** [for (auto& signal : decompositions()) for (auto& subband : signal)] *)
Fixpoint get_channels {X} (shape_of : list (list X)) (r : reader (mat word))
  : reader (list (list (mat word))) :=
  match shape_of with
  | [] => rret []
  | ch :: t => read* x := readN (length ch) r in read* l := get_channels t r in rret (x :: l)
  end.

(** serializer.cc:65-106 Parse; [None] = nullptr *)
Definition parse_v3 (blob : list Z) : res (option (buffer word)) :=
  catch (
    let* h := (read* _ := get_raw 1 in read* p := get_params in read* sf := get_raw 1 in
               rret (p, sf)) blob in
    let '((p, sf), rest) := h in
    let* b := new_buffer (T := word) p in
    let* r := get_channels (bdec b) (get_subband sf) rest in
    Ok (Buffer (bpar b) (fst r))).

(** serializer.cc:30-58 WaveletBufferSerializerLegacy::Parse.  [legacy] stands
    for ParseCompressedSubbands (167-200), see M_Sf.  sizeof of the Blaze
    vector and matrix types are 24 and 40. *)
Definition parse_v2 (legacy : buffer word -> list Z -> res (option (buffer word))) (blob : list Z)
  : res (option (buffer word)) :=
  let* r := catch (
    let* h := (read* _ := get_raw 1 in read* p := get_params in read* sf := get_raw 1 in
               rret (p, sf)) blob in
    let '((p, sf), rest) := h in
    let* b := new_buffer (T := word) p in
    if negb (sf =? 0) then legacy b rest
    else
      let* r := get_vec 24 (get_vec 40 get_mat) rest in
      Ok (Some (Buffer (bpar b) (fst r)))) in
  Ok (match r with Some o => o | None => None end).

(** wavelet_buffer.cc:149-171 Parse: [ss >> version] skips blanks (std::ws of
    the C locale) and leaves [version] uninitialised at the end of the
    stream. *)
Definition is_blank (b : Z) : bool := ((9 <=? b) && (b <=? 13)) || (b =? 32).
Fixpoint first_char (s : list Z) : option Z :=
  match s with
  | [] => None
  | b :: t => if is_blank b then first_char t else Some b
  end.
Definition parse (legacy : buffer word -> list Z -> res (option (buffer word))) (blob : list Z)
  : res (option (buffer word)) :=
  match first_char blob with
  | None => UB
  | Some v =>
      if v =? serialization_version then parse_v3 blob
      else if v =? 2 then parse_v2 legacy blob
      else Ok None
  end.

End Codec.
