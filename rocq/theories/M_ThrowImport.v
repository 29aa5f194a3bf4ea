(** * M_ThrowImport: importing a picture (sources/img/wavelet_image.cc:22-37,
    58-75) when the codec or the denoiser throws, or memory runs out *)
Require Import List Bool Arith ZArith.
Require Import Verif.M_Base Verif.M_Params Verif.M_Buffer Verif.M_View Verif.M_Denoise Verif.M_Equal Verif.M_Image Verif.M_Throw.
Import ListNotations.

Section T.
Context {T : Type} {A : Arith T}.

(** How a call ends that returns a status or throws *)
Inductive ending := Returns (st : status) | Throws.

(** wavelet_image.cc:58-75 ImportFromString.  A codec that throws leaves before
    the buffer is touched.  Simplification: memory that runs out in Decode is a
    codec that throws. *)
Definition import_string_e (b : buffer T) (data : list Z) (den : fallible T) (mem : nat -> bool) (cd : image_codec T) (start : Z)
  : res (ending * buffer T) :=
  match icdecode cd data with
  | UB => UB
  | Throw => Ok (Throws, b)
  | Ok (false, _) => Ok (Returns kWrongData, b)
  | Ok (true, image) =>
      let v := View (to_int32 start) (to_int32 (Z.of_nat (length image))) true in
      let* d := view_decompose_e v b image den mem in
      Ok (match fst d with
          | Answer true => Returns kOk
          | Answer false => Returns kDecompositionError
          | Exception => Throws
          end, snd d)
  end.

(** wavelet_image.cc:22-37 ImportFromFile *)
Definition import_file_e (e : env) (f : fs) (p : path) (b : buffer T) (den : fallible T) (mem : nat -> bool)
  (cd : image_codec T) (start : Z) : res (ending * buffer T) :=
  match fread e f p with
  | Some data => import_string_e b data den mem cd start
  | None => Ok (Returns kIOError, b)
  end.

End T.
