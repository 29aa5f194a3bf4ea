(** * M_Python2: the rest of the Python module that does more than forward a
    call: energy_distribution, BaseCodec.decode, WaveletImage and
    WaveletBuffer.serialize (python/src).  An exception raised by the binding
    is [None] or, where the object may have changed, [false]. *)
Require Import List Bool Arith ZArith Reals.
Require Import Verif.M_Base Verif.M_Params Verif.M_Buffer Verif.M_Real Verif.M_Metrics Verif.M_View Verif.M_Archive
  Verif.M_Equal Verif.M_Serializer Verif.M_Image Verif.M_Python.
Import ListNotations.
Open Scope nat_scope.

(** blaze_utils.cc:136-158 VecVecToPyArray: data[0] of an empty vector is UB;
    data[ch][i] is not checked *)
Definition vecs_to_array {T} (data : list (list T)) : res (array T) :=
  let* d0 := rd data 0 in
  let w := length d0 in
  let* l := tabulateM (length data * w) (fun k =>
      let* d := rd data (k / w) in rd d (k mod w)) in
  Ok (Arr [length data; w] l).

(** wavelet_buffer.cc:125-132 energy_distribution (exact arithmetic, as
    M_Metrics) *)
Definition py_energy (b : buffer R) : res (array R) :=
  let dist := energy_distribution b in
  if dimension (bpar b) =? 1 then
    let* d0 := rd dist 0 in
    Ok (Arr [length d0] d0)
  else vecs_to_array dist.

(** img/codecs.cc:23-30 decode: [dec] is the codec's Decode into an empty
    image from channel 0 *)
Definition py_decode {T} (dec : list Z -> res (bool * list (mat T))) (data : list Z) : res (option (array T)) :=
  let* r := dec data in
  if fst r then let* a := signals_to_array (snd r) in Ok (Some a) else Ok None.

(** status != kOk *)
Definition status_ok (s : status) : bool := match s with kOk => true | _ => false end.

Section Image.
Context {T : Type} {A : Arith T}.
(** img/wavelet_image.cc:65-79 import_from_string *)
Definition py_import_string (b : buffer T) (data : list Z) (den : denoiser T) (cd : image_codec T) (start : Z)
  : res (bool * buffer T) :=
  let* r := import_string b data den cd start in
  Ok (status_ok (fst r), snd r).
(** img/wavelet_image.cc:35-49 import_from_file *)
Definition py_import_file (e : env) (f : fs) (p : path) (b : buffer T) (den : denoiser T) (cd : image_codec T) (start : Z)
  : res (bool * buffer T) :=
  let* r := import_file e f p b den cd start in
  Ok (status_ok (fst r), snd r).
(** img/wavelet_image.cc:81-93 export_to_string: bytes(result), where result
    is what ExportToString left in it *)
Definition py_export_string (b : buffer T) (cd : image_codec T) (start : Z) : res (option (list Z)) :=
  let* r := export_string b cd start in
  Ok (if status_ok (fst r) then Some (match snd r with Some d => d | None => [] end) else None).
(** img/wavelet_image.cc:51-63 export_to_file, with the files afterwards *)
Definition py_export_file (e : env) (f : fs) (p : path) (b : buffer T) (cd : image_codec T) (start : Z)
  : res bool * fs :=
  let r := export_file e f p b cd start in
  (let* s := fst r in Ok (status_ok s), snd r).
End Image.

Section Serialize.
Variable cd : codec.
(** img/wavelet_image.cc:97-106 save *)
Definition py_save (e : env) (f : fs) (p : path) (b : buffer word) : res bool * fs :=
  let r := save_file cd e f p b in
  (let* s := fst r in Ok (status_ok s), snd r).
End Serialize.

(** sources/img/wavelet_image.cc:179-181 CompareTo and
    python/src/img/wavelet_image.cc:108-110 distance *)
Definition py_image_distance (a b : buffer R) : res num := distance a b.
