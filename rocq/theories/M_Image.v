(** * M_Image: sources/img/jpeg_codecs.cc, the loops of sources/img/color_space.cc
    and sources/img/wavelet_image.cc.

    The JPEG library and CImg are external: [jpeg] below stands for them and
    is a parameter of every theorem.  The file system is a map from paths to
    contents, with the outcome of opening and writing chosen by the
    environment. *)
Require Import List Bool Arith ZArith.
Require Import Verif.M_Base Verif.M_Params Verif.M_Buffer Verif.M_View Verif.M_Denoise Verif.M_Equal
  Verif.M_Archive Verif.M_Serializer.
Import ListNotations.
Open Scope nat_scope.

(** CImg<unsigned char>: width, height, spectrum and the pixels, planar
    (depth is 1).  Not code of /repo. *)
Record cimg := CImg { cwidth : nat; cheight : nat; cspectrum : nat; cpixels : list Z }.
(** CImg::operator()(x, y, z): the unchecked element x + y*width +
    z*width*height.  The code passes the channel as z (jpeg_codecs.cc:67, 88,
    220, 239). *)
Definition cget (im : cimg) (x y z : nat) : res Z :=
  rd (cpixels im) (x + y * cwidth im + z * (cwidth im * cheight im)).

(** load_jpeg_buffer (None: it throws a std::exception) and save_jpeg_buffer:
    image, buffer size, quality in percent, result the bytes written. *)
Record jpeg := Jpeg {
  jload : list Z -> option cimg;
  jsave : cimg -> Z -> Z -> res (list Z) }.

Section Codec.
Context {T : Type}.
Variable lib : jpeg.
(** jpeg_codecs.cc:26-30 ToPixel and the division by 255. of lines 67, 220 *)
Variables (to_px : T -> Z) (of_px : Z -> T).
(** static_cast<int>(quality_ * 100) *)
Variable quality : Z.

(** [if (im.size() < n) im.resize(n)] *)
Definition grow (im : list (mat T)) (n : nat) : list (mat T) :=
  if length im <? n then resize_dec im n else im.

(** jpeg_codecs.cc:38-73 RgbJpegCodec::Decode (n = 3) and 189-225
    GrayJpegCodec::Decode (n = 1): the return value and the image
    afterwards. *)
Definition decode_channels (n : nat) (blob : list Z) (image : list (mat T)) (start : nat)
  : res (bool * list (mat T)) :=
  match blob with
  | [] => Ok (false, image)
  | _ =>
    match jload lib blob with
    | None => Ok (false, image)
    | Some img =>
      let* im := loop n start (fun ch im =>
          let* m := mbuildM (cheight img) (cwidth img) (fun i j =>
              let* v := cget img j i (ch - start) in Ok (of_px v)) in
          wr im ch m) (grow image (start + n)) in
      Ok (true, im)
    end
  end.
Definition rgb_decode := decode_channels 3.
Definition gray_decode := decode_channels 1.

(** jpeg_codecs.cc:101-125 and 157-181 checkChannelsShape of the RGB and HSL
    codecs *)
Definition check3 (image : list (mat T)) (start : nat) : res bool :=
  if length image <? 3 + start then Ok false
  else
    let* c0 := rd image start in
    let* c1 := rd image (start + 1) in
    if negb ((rows c1 =? rows c0) && (cols c1 =? cols c0)) then Ok false
    else
      let* c2 := rd image (start + 2) in
      if negb ((rows c2 =? rows c0) && (cols c2 =? cols c0)) then Ok false
      else Ok (negb ((rows c0 =? 0) || (cols c0 =? 0))).
(** jpeg_codecs.cc:251-265 GrayJpegCodec::checkChannelsShape.
    columns * rows is taken modulo 2^64 in C++; matrices that large do not
    exist. *)
Definition check1 (image : list (mat T)) (start : nat) : res bool :=
  if length image <? start + 1 then Ok false
  else
    let* c0 := rd image start in
    Ok (negb (cols c0 * rows c0 =? 0)).

(** jpeg_codecs.cc:75-99 RgbJpegCodec::Encode (n = 3), 227-249
    GrayJpegCodec::Encode (n = 1).  The pixels are written in the order of
    their offsets.  [None]: false, *blob untouched. *)
Definition encode_channels (n : nat) (check : list (mat T) -> nat -> res bool)
  (image : list (mat T)) (start : nat) : res (option (list Z)) :=
  let* ok := check image start in
  if negb ok then Ok None
  else
    let* c0 := rd image start in
    let* planes := tabulateM n (fun c =>
        let* m := rd image (start + c) in
        let* lines := tabulateM (rows c0) (fun i =>
            tabulateM (cols c0) (fun j => let* x := mget m i j in Ok (to_px x))) in
        Ok (concat lines)) in
    let img := CImg (cols c0) (rows c0) n (concat planes) in
    let size := ((Z.of_nat (length image * rows c0 * cols c0) + 1000) mod 2 ^ 32)%Z in
    let* bytes := jsave lib img size quality in
    Ok (Some bytes).
Definition rgb_encode := encode_channels 3 check3.
Definition gray_encode := encode_channels 1 check1.

(** color_space.cc:117-136 ConvertRgbToHsl and 138-157 ConvertHslToRgb: the
    same loop around a conversion of one pixel. *)
Definition convert (f : T -> T -> T -> T * T * T) (image : list (mat T)) (start : nat)
  : res (list (mat T)) :=
  let* _ := guard (3 + start <=? length image) in
  let* c0 := rd image start in
  loop (rows c0) 0 (fun y image =>
    loop (cols c0) 0 (fun x image =>
      let* m0 := rd image start in
      let* m1 := rd image (start + 1) in
      let* m2 := rd image (start + 2) in
      let* a := mget m0 y x in
      let* b := mget m1 y x in
      let* c := mget m2 y x in
      let '(h, s, l) := f a b c in
      let* m0' := mset m0 y x h in
      let* image := wr image start m0' in
      let* m1' := mset m1 y x s in
      let* image := wr image (start + 1) m1' in
      let* m2' := mset m2 y x l in
      wr image (start + 2) m2') image) image.

(** jpeg_codecs.cc:132-143 HslJpegCodec::Decode *)
Definition hsl_decode (rgb_to_hsl : T -> T -> T -> T * T * T)
  (blob : list Z) (image : list (mat T)) (start : nat) : res (bool * list (mat T)) :=
  let* r := rgb_decode blob image start in
  if fst r then
    let* im := convert rgb_to_hsl (snd r) start in
    Ok (true, im)
  else Ok (false, snd r).
(** jpeg_codecs.cc:145-155 HslJpegCodec::Encode *)
Definition hsl_encode (hsl_to_rgb : T -> T -> T -> T * T * T)
  (image : list (mat T)) (start : nat) : res (option (list Z)) :=
  let* ok := check3 image start in
  if negb ok then Ok None
  else
    let* copy := convert hsl_to_rgb image start in
    rgb_encode copy start.
End Codec.

(** ** wavelet_image.cc *)

(** wavelet_image.h Status *)
Inductive status := kOk | kWrongSize | kDecompositionError | kCompositionError | kIOError | kWrongData.

(** image_codec.h IImageCodec as WaveletImage uses it: Decode into an empty
    image, Encode from channel 0, channel_number. *)
Record image_codec (T : Type) := ImageCodec {
  icdecode : list Z -> res (bool * list (mat T));
  icencode : list (mat T) -> res (option (list Z));
  icchannels : Z }.
Arguments icdecode {T}.
Arguments icencode {T}.
Arguments icchannels {T}.

Section Image.
Context {T : Type} {A : Arith T}.

(** wavelet_image.cc:58-75 ImportFromString; start_channel and image.size()
    are converted from size_t to int. *)
Definition import_string (b : buffer T) (data : list Z) (den : denoiser T) (cd : image_codec T) (start : Z)
  : res (status * buffer T) :=
  let* r := icdecode cd data in
  if fst r then
    let v := View (to_int32 start) (to_int32 (Z.of_nat (length (snd r)))) true in
    let* d := view_decompose v b (snd r) den in
    Ok (if fst d then kOk else kDecompositionError, snd d)
  else Ok (kWrongData, b).

(** wavelet_image.cc:77-91 ExportToString: status and what *data is set to *)
Definition export_string (b : buffer T) (cd : image_codec T) (start : Z)
  : res (status * option (list Z)) :=
  let v := View (to_int32 start) (to_int32 (icchannels cd)) false in
  let* r := view_compose v b 0 in
  match r with
  | (true, Some image) =>
      let* e := icencode cd image in
      match e with
      | Some bytes => Ok (kOk, Some bytes)
      | None => Ok (kWrongData, None)
      end
  | _ => Ok (kCompositionError, None)
  end.

(** ** Files *)
Definition path := list Z.
Definition fs := path -> option (list Z).
Definition path_dec : forall a b : path, {a = b} + {a <> b} := list_eq_dec Z.eq_dec.
Definition fset (f : fs) (p : path) (c : list Z) : fs := fun q => if path_dec q p then Some c else f q.

(** What the environment does with a file: can it be opened, and how many of
    the bytes written reach it. *)
Record env := Env { can_open : bool; reaches : nat }.

(** [std::ifstream file(path); ss << file.rdbuf(); ss.str()] *)
Definition fread (e : env) (f : fs) (p : path) : option (list Z) :=
  if can_open e then f p else None.

(** wavelet_image.cc:22-37 ImportFromFile *)
Definition import_file (e : env) (f : fs) (p : path) (b : buffer T) (den : denoiser T) (cd : image_codec T) (start : Z)
  : res (status * buffer T) :=
  match fread e f p with
  | Some data => import_string b data den cd start
  | None => Ok (kIOError, b)
  end.

(** [std::ofstream file(path)] truncates the file when it opens it; [file <<
    data] sets the stream's error bit when it fails, which nobody reads. *)
Definition write_file (e : env) (f : fs) (p : path) (r : res (status * option (list Z))) : res status * fs :=
  if can_open e then
    let f1 := fset f p [] in
    match r with
    | Ok (st, Some data) => (Ok st, fset f1 p (firstn (reaches e) data))
    | Ok (st, None) => (Ok st, f1)
    | Throw => (Throw, f1)
    | UB => (UB, f1)
    end
  else (Ok kIOError, f).

(** wavelet_image.cc:39-56 ExportToFile *)
Definition export_file (e : env) (f : fs) (p : path) (b : buffer T) (cd : image_codec T) (start : Z)
  : res status * fs :=
  write_file e f p (export_string b cd start).

(** wavelet_image.cc:109-116 WaveletImage(channel_number, w, h) *)
Definition new_image (channels w h : Z) : res (buffer T) := new_buffer (Params [w; h] channels 0 1).

End Image.

Section SaveLoad.
Variable cd : codec.
Variable legacy : buffer word -> list Z -> res (option (buffer word)).
(** wavelet_image.cc:93-106 Save *)
Definition save_file (e : env) (f : fs) (p : path) (b : buffer word) : res status * fs :=
  write_file e f p
    (let* r := serialize cd b 0 in
     Ok (match r with Some data => (kOk, Some data) | None => (kWrongData, None) end)).
(** wavelet_image.cc:153-167 Load; None = nullptr *)
Definition load_file (e : env) (f : fs) (p : path) : res (option (buffer word)) :=
  match fread e f p with
  | Some data => parse cd legacy data
  | None => Ok None
  end.
End SaveLoad.
