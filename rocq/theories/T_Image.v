(** * T_Image: properties C45-C48, C61, C62.
    [lib] is any JPEG library, [to_px] and [of_px] any conversions between
    samples and 8-bit values (T_Pixel has the program's). *)
Require Import List Bool Arith ZArith Lia.
Require Import Verif.M_Base Verif.M_Params Verif.M_Buffer Verif.M_View Verif.M_Denoise Verif.M_Equal Verif.M_Archive
  Verif.M_Serializer Verif.M_Image Verif.S_Params Verif.S_Buffer Verif.S_Serializer Verif.S_Image
  Verif.P_Api Verif.P_Api2 Verif.P_Serializer Verif.P_Blob Verif.P_Image.
Import ListNotations.
Open Scope nat_scope.

(** A JPEG library for the examples: width, height, spectrum, then the pixels *)
Definition plain_jpeg : jpeg := Jpeg
  (fun l => match l with
            | w :: h :: s :: pix =>
                if (0 <=? w)%Z && (0 <=? h)%Z && (0 <=? s)%Z && (length pix =? Z.to_nat s * (Z.to_nat w * Z.to_nat h))
                then Some (CImg (Z.to_nat w) (Z.to_nat h) (Z.to_nat s) pix) else None
            | _ => None
            end)
  (fun img _ _ => Ok (Z.of_nat (cwidth img) :: Z.of_nat (cheight img) :: Z.of_nat (cspectrum img) :: cpixels img)).
Example plain_lossless quality : lossless plain_jpeg quality.
Proof.
  intros [w h s pix] size W. unfold cimg_wf in W. cbn in W. eexists. split; [reflexivity|]. split; [discriminate|].
  cbn. rewrite !Nat2Z.id, W, Nat.eqb_refl, !(proj2 (Z.leb_le _ _)) by lia. reflexivity.
Qed.

(** ** C45: Encode refuses exactly the ill-shaped images, and what it hands to
    the library is the picture *)
Theorem C45_rgb_encode (T : Type) lib to_px quality (image : list (mat T)) start : Forall mwf image ->
  (~ encodable 3 image start -> rgb_encode lib to_px quality image start = Ok None) /\
  (encodable 3 image start -> exists img size, shows to_px 3 image start img /\
     rgb_encode lib to_px quality image start = let* bytes := jsave lib img size quality in Ok (Some bytes)).
Proof. exact (rgb_encode_when lib to_px quality image start). Qed.
Print Assumptions C45_rgb_encode.
Theorem C45_gray_encode (T : Type) lib to_px quality (image : list (mat T)) start : Forall mwf image ->
  (~ encodable 1 image start -> gray_encode lib to_px quality image start = Ok None) /\
  (encodable 1 image start -> exists img size, shows to_px 1 image start img /\
     gray_encode lib to_px quality image start = let* bytes := jsave lib img size quality in Ok (Some bytes)).
Proof. exact (gray_encode_when lib to_px quality image start). Qed.
Print Assumptions C45_gray_encode.
Theorem C45_hsl_encode (T : Type) lib to_px quality f (image : list (mat T)) start : Forall mwf image ->
  (~ encodable 3 image start -> hsl_encode lib to_px quality f image start = Ok None) /\
  (encodable 3 image start -> exists copy img size, pixelwise f image start copy /\ shows to_px 3 copy start img /\
     hsl_encode lib to_px quality f image start = let* bytes := jsave lib img size quality in Ok (Some bytes)).
Proof. exact (hsl_encode_when lib to_px quality f image start). Qed.
Print Assumptions C45_hsl_encode.
(** ConvertRgbToHsl and ConvertHslToRgb themselves check the number of channels
    by an assertion only *)
Theorem C45_conversion (T : Type) (f : T -> T -> T -> T * T * T) (image : list (mat T)) start :
  (length image < start + 3 -> convert f image start = UB) /\
  (forall a b c, nth_error image start = Some a -> nth_error image (start + 1) = Some b -> nth_error image (start + 2) = Some c ->
     Forall (fun m => length (elts m) = rows m * cols m /\ rows m = rows a /\ cols m = cols a) [a; b; c] ->
     exists image', convert f image start = Ok image' /\ pixelwise f image start image').
Proof.
  split.
  - intro H. unfold convert. destruct (Nat.leb_spec (3 + start) (length image)); [lia|]. reflexivity.
  - intros a b c Ha Hb Hc H. inversion_clear H as [|? ? (Wa & _) H1]. inversion_clear H1 as [|? ? (Wb & Rb & Cb) H2]. inversion_clear H2 as [|? ? (Wc & Rc & Cc) _].
    apply (convert_ok f image start a b c); auto.
Qed.
Print Assumptions C45_conversion.
(** two lines of three pixels, in channels 1 to 3 *)
Definition C45_image : list (mat Z) :=
  [mempty; Mat 2 3 [1; 2; 3; 4; 5; 6]%Z; Mat 2 3 [7; 8; 9; 10; 11; 12]%Z; Mat 2 3 [13; 14; 15; 16; 17; 18]%Z].
Example C45_case : Forall mwf C45_image /\ encodable 3 C45_image 1 /\ ~ encodable 3 C45_image 0 /\ ~ encodable 3 C45_image 2 /\
  rgb_encode plain_jpeg (fun z => z) 100 C45_image 1
  = Ok (Some (3 :: 2 :: 3 :: [1; 2; 3; 4; 5; 6; 7; 8; 9; 10; 11; 12; 13; 14; 15; 16; 17; 18])%Z).
Proof.
  split; [unfold mwf; repeat constructor|]. split.
  { exists 2, 3. split; [auto|]. split; [auto|]. intros [|[|[|k]]] Hk; [| | |lia]; eexists; repeat split. }
  split.
  { intros (r & c & Hr & _ & H). destruct (H 0) as (m & E & R & _); [lia|]. cbn in E. injection E as <-. cbn in R. congruence. }
  split; [|reflexivity].
  intros (r & c & Hr & _ & H). destruct (H 2) as (m & E & _); [lia|]. cbn in E. discriminate.
Qed.

(** C45: Decode of data the library does not load changes nothing ... *)
Theorem C45_decode_refused (T : Type) lib of_px n blob (image : list (mat T)) start :
  blob = [] \/ jload lib blob = None ->
  decode_channels lib of_px n blob image start = Ok (false, image).
Proof. exact (decode_refused lib of_px n blob image start). Qed.
Print Assumptions C45_decode_refused.
(** ... and of data it loads stores the planes, and only them *)
Theorem C45_decode (T : Type) lib of_px n blob (image : list (mat T)) start img :
  blob <> [] -> jload lib blob = Some img -> cimg_wf img -> n <= cspectrum img ->
  exists image', decode_channels lib of_px n blob image start = Ok (true, image') /\
    decoded of_px n img image start image'.
Proof. exact (decode_ok lib of_px n blob image start img). Qed.
Print Assumptions C45_decode.
Theorem C45_hsl_decode (T : Type) lib of_px f blob (image : list (mat T)) start img :
  blob <> [] -> jload lib blob = Some img -> cimg_wf img -> 3 <= cspectrum img ->
  exists mid image', decoded of_px 3 img image start mid /\ pixelwise f mid start image' /\
    hsl_decode lib of_px f blob image start = Ok (true, image').
Proof. exact (hsl_decode_ok lib of_px f blob image start img). Qed.
Print Assumptions C45_hsl_decode.
Theorem C45_hsl_decode_refused (T : Type) lib of_px f blob (image : list (mat T)) start :
  blob = [] \/ jload lib blob = None ->
  hsl_decode lib of_px f blob image start = Ok (false, image).
Proof.
  intros H. unfold hsl_decode, rgb_decode. rewrite (decode_refused lib of_px 3 blob image start H). reflexivity.
Qed.
Print Assumptions C45_hsl_decode_refused.
Example C45_decode_case : let blob := [2; 1; 3; 10; 20; 30; 40; 50; 60]%Z in
  jload plain_jpeg blob = Some (CImg 2 1 3 [10; 20; 30; 40; 50; 60]%Z) /\
  rgb_decode plain_jpeg (fun z => z) blob [Mat 1 1 [7]%Z] 2
  = Ok (true, [Mat 1 1 [7]%Z; mempty; Mat 1 2 [10; 20]%Z; Mat 1 2 [30; 40]%Z; Mat 1 2 [50; 60]%Z]).
Proof. split; reflexivity. Qed.

(** C45: the colour decoders read out of bounds on any valid picture with
    fewer than three planes, so "every picture is decoded or refused" is false *)
Theorem C45_gray_picture_as_colour (T : Type) lib of_px f blob (image : list (mat T)) start img :
  blob <> [] -> jload lib blob = Some img -> cimg_wf img -> cspectrum img < 3 ->
  cwidth img <> 0 -> cheight img <> 0 ->
  rgb_decode lib of_px blob image start = UB /\ hsl_decode lib of_px f blob image start = UB.
Proof.
  intros H1 H2 H3 H4 H5 H6.
  assert (E : rgb_decode lib of_px blob image start = UB) by (eapply decode_unsafe; eauto).
  split; [exact E|]. unfold hsl_decode. rewrite E. reflexivity.
Qed.
Print Assumptions C45_gray_picture_as_colour.
Theorem C45_decoded_or_refused_refuted : exists lib blob img, jload lib blob = Some img /\ cimg_wf img /\
  forall (T : Type) of_px (image : list (mat T)) start, rgb_decode lib of_px blob image start = UB.
Proof.
  exists plain_jpeg, [1; 1; 1; 5]%Z, (CImg 1 1 1 [5]%Z). split; [reflexivity|]. split; [reflexivity|].
  intros T of_px image start. apply (decode_unsafe plain_jpeg of_px 3 _ image start (CImg 1 1 1 [5]%Z)); cbn; try discriminate; try reflexivity; lia.
Qed.
Print Assumptions C45_decoded_or_refused_refuted.

(** ** C61: with a library that loses nothing, decoding what was encoded gives
    the channels back, up to the rounding to 8 bits *)
Theorem C61_rgb_round_trip (T : Type) lib to_px of_px quality (image old : list (mat T)) start start' :
  lossless lib quality -> Forall mwf image -> encodable 3 image start ->
  exists bytes image', rgb_encode lib to_px quality image start = Ok (Some bytes) /\
    rgb_decode lib of_px bytes old start' = Ok (true, image') /\
    forall k m, k < 3 -> nth_error image (start + k) = Some m ->
      nth_error image' (start' + k) = Some (map_mat (fun x => of_px (to_px x)) m).
Proof.
  intros HL W HE. destruct (proj2 (rgb_encode_when lib to_px quality image start W) HE) as (img & size & HS & E).
  destruct (round_trip lib to_px of_px quality 3 (rgb_encode lib to_px quality) image old start start' img size HL HS W E)
    as (bytes & E1 & im' & E2 & E3). exists bytes, im'. auto.
Qed.
Print Assumptions C61_rgb_round_trip.
Theorem C61_gray_round_trip (T : Type) lib to_px of_px quality (image old : list (mat T)) start start' :
  lossless lib quality -> Forall mwf image -> encodable 1 image start ->
  exists bytes image', gray_encode lib to_px quality image start = Ok (Some bytes) /\
    gray_decode lib of_px bytes old start' = Ok (true, image') /\
    forall m, nth_error image start = Some m ->
      nth_error image' start' = Some (map_mat (fun x => of_px (to_px x)) m).
Proof.
  intros HL W HE. destruct (proj2 (gray_encode_when lib to_px quality image start W) HE) as (img & size & HS & E).
  destruct (round_trip lib to_px of_px quality 1 (gray_encode lib to_px quality) image old start start' img size HL HS W E)
    as (bytes & E1 & im' & E2 & E3). exists bytes, im'. split; [auto|]. split; [auto|]. intros m Hm.
  specialize (E3 0 m). rewrite !Nat.add_0_r in E3. auto.
Qed.
Print Assumptions C61_gray_round_trip.
Example C61_case : lossless plain_jpeg 100 /\ Forall mwf C45_image /\ encodable 3 C45_image 1 /\ encodable 1 C45_image 2.
Proof.
  split; [apply plain_lossless|]. split; [apply C45_case|]. split; [apply C45_case|].
  exists 2, 3. split; [auto|]. split; [auto|]. intros [|k] Hk; [|lia]; eexists; repeat split.
Qed.

(** ** C46: statuses of Import, for every codec, buffer and denoiser *)
Theorem C46_import_status (T : Type) (A : Arith T) (b b' : buffer T) data den cd start st :
  import_string b data den cd start = Ok (st, b') ->
  (st = kWrongData /\ (exists im, icdecode cd data = Ok (false, im)) /\ b' = b) \/
  (exists im r, icdecode cd data = Ok (true, im) /\
     view_decompose (View (to_int32 start) (to_int32 (Z.of_nat (length im))) true) b im den = Ok (r, b') /\
     ((r = true /\ st = kOk) \/ (r = false /\ st = kDecompositionError /\ b' = b))).
Proof. exact (import_status b b' data den cd start st). Qed.
Print Assumptions C46_import_status.
(** a picture that fits goes where a stand-alone buffer would put it *)
Theorem C46_import_ok (T : Type) (A : Arith T) p (b : buffer T) data den cd start im :
  accepted p -> reachable p b -> keeps_shape den -> is_1d p = false ->
  icdecode cd data = Ok (true, im) -> im <> [] -> Forall (shaped p) im ->
  (0 <= start)%Z -> (start + Z.of_nat (length im) <= signum p)%Z -> (signum p < 2 ^ 31)%Z ->
  exists b' bs bs', import_string b data den cd start = Ok (kOk, b') /\
    @new_buffer T (with_signum p (Z.of_nat (length im))) = Ok bs /\
    decompose bs im den = Ok (true, bs') /\ length (bdec bs') = length im /\
    bpar b' = p /\ length (bdec b') = length (bdec b) /\
    (forall i, i < length im -> nth_error (bdec b') (Z.to_nat start + i) = nth_error (bdec bs') i) /\
    (forall i, (Z.of_nat i < start \/ start + Z.of_nat (length im) <= Z.of_nat i)%Z ->
       nth_error (bdec b') i = nth_error (bdec b) i).
Proof. exact (import_writes p b data den cd start im). Qed.
Print Assumptions C46_import_ok.
(** one that does not is refused *)
Theorem C46_import_refused (T : Type) (A : Arith T) p (b : buffer T) data den cd start im :
  accepted p -> bpar b = p -> is_1d p = false ->
  icdecode cd data = Ok (true, im) -> im <> [] -> (0 <= start)%Z -> (start + Z.of_nat (length im) < 2 ^ 31)%Z ->
  (signum p < start + Z.of_nat (length im))%Z \/ (forall m, nth_error im 0 = Some m -> rows m <> drows p \/ cols m <> dcols p) ->
  import_string b data den cd start = Ok (kDecompositionError, b).
Proof. exact (import_refused p b data den cd start im). Qed.
Print Assumptions C46_import_refused.
Theorem C46_import_file_status (T : Type) (A : Arith T) e f q (b : buffer T) den cd start :
  (can_open e = false \/ f q = None -> import_file e f q b den cd start = Ok (kIOError, b)) /\
  (forall data, can_open e = true -> f q = Some data -> import_file e f q b den cd start = import_string b data den cd start).
Proof.
  unfold import_file, fread. split.
  - intros [->|H]; [reflexivity|]. rewrite H. destruct (can_open e); reflexivity.
  - intros data -> ->. reflexivity.
Qed.
Print Assumptions C46_import_file_status.
Theorem C46_export_status (T : Type) (A : Arith T) (b : buffer T) cd start st d :
  export_string b cd start = Ok (st, d) ->
  (st = kCompositionError /\ d = None /\
     exists o, view_compose (View (to_int32 start) (to_int32 (icchannels cd)) false) b 0 = Ok (false, o)) \/
  (exists image, view_compose (View (to_int32 start) (to_int32 (icchannels cd)) false) b 0 = Ok (true, Some image) /\
     ((st = kWrongData /\ d = None /\ icencode cd image = Ok None) \/
      (st = kOk /\ exists bytes, d = Some bytes /\ icencode cd image = Ok (Some bytes)))).
Proof. exact (export_status b cd start st d). Qed.
Print Assumptions C46_export_status.
Theorem C46_export_out_of_range (T : Type) (A : Arith T) (b : buffer T) cd start :
  (0 <= start)%Z -> (0 <= icchannels cd)%Z -> (start + icchannels cd < 2 ^ 31)%Z ->
  (signum (bpar b) < start + icchannels cd)%Z ->
  export_string b cd start = Ok (kCompositionError, None).
Proof. exact (export_out_of_range b cd start). Qed.
Print Assumptions C46_export_out_of_range.

(** examples: the codec of the plain library on numbers, a 2 x 2 picture *)
Local Existing Instance Z_arith.
Definition plain_rgb : image_codec Z := ImageCodec Z
  (fun data => rgb_decode plain_jpeg (fun z => z) data [] 0)
  (fun image => rgb_encode plain_jpeg (fun z => z) 100 image 0) 3.
Definition C46_p : params := Params [2; 2]%Z 4 0 1.
Example C46_case : accepted C46_p /\ is_1d C46_p = false /\
  exists b im, @new_buffer Z C46_p = Ok b /\ reachable C46_p b /\
  icdecode plain_rgb [2; 2; 3; 10; 20; 30; 40; 50; 60; 70; 80; 90; 100; 110; 120]%Z = Ok (true, im) /\ im <> [] /\ Forall (shaped C46_p) im /\
  (1 + Z.of_nat (length im) <= signum C46_p)%Z.
Proof.
  split; [unfold C46_p, accepted, params_rep, legal, u64, i32; cbn [shape signum steps wtype length];
          repeat split; auto; try lia; repeat constructor; lia|].
  split; [reflexivity|].
  eexists. eexists. split; [vm_compute; reflexivity|]. split; [apply reach_new; vm_compute; reflexivity|].
  split; [vm_compute; reflexivity|]. split; [discriminate|]. split; [|cbn; lia].
  repeat constructor.
Qed.
(** with start channel 2^32 the picture goes to channel 0: "a start channel
    beyond the last one is refused" is false *)
Theorem C46_start_out_of_range_refuted : exists (b b' : buffer Z) data start,
  (Z.of_nat (length (bdec b)) <= start)%Z /\ import_string b data (null_denoiser) plain_rgb start = Ok (kOk, b') /\ b' <> b.
Proof.
  exists (Buffer C46_p (repeat [mempty] 4)). eexists. exists [2; 2; 3; 10; 20; 30; 40; 50; 60; 70; 80; 90; 100; 110; 120]%Z, (2 ^ 32)%Z.
  split; [cbn; lia|]. split; [vm_compute; reflexivity|]. discriminate.
Qed.
Print Assumptions C46_start_out_of_range_refuted.

(** ** C62: a WaveletImage without steps gives back what was imported *)
Theorem C62_import_export (T : Type) (A : Arith T) channels w h data den cd start im :
  accepted (Params [w; h] channels 0 1) -> (channels < 2 ^ 31)%Z -> keeps_shape den ->
  icdecode cd data = Ok (true, im) -> im <> [] -> Z.of_nat (length im) = icchannels cd ->
  Forall (fun m => length (elts m) = rows m * cols m /\ Z.of_nat (rows m) = h /\ Z.of_nat (cols m) = w) im ->
  (0 <= start)%Z -> (start + icchannels cd <= channels)%Z ->
  exists b b', @new_image T channels w h = Ok b /\ import_string b data den cd start = Ok (kOk, b') /\
    export_string b' cd start =
      let* e := icencode cd im in
      Ok (match e with Some bytes => (kOk, Some bytes) | None => (kWrongData, None) end).
Proof. exact (image_round_trip channels w h data den cd start im). Qed.
Print Assumptions C62_import_export.
(** in particular a colour JPEG imported and exported at once is the same
    picture again, if 8-bit values survive the two conversions *)
Theorem C62_same_picture (T : Type) (A : Arith T) lib to_px of_px quality channels data den start img :
  let cd := ImageCodec T (fun data => rgb_decode lib of_px data [] 0)
                         (fun image => rgb_encode lib to_px quality image 0) 3 in
  let w := Z.of_nat (cwidth img) in let h := Z.of_nat (cheight img) in
  accepted (Params [w; h] channels 0 1) -> (channels < 2 ^ 31)%Z -> keeps_shape den ->
  data <> [] -> jload lib data = Some img -> cimg_wf img -> cspectrum img = 3 ->
  cwidth img <> 0 -> cheight img <> 0 ->
  Forall (fun z => to_px (of_px z) = z) (cpixels img) ->
  (0 <= start)%Z -> (start + 3 <= channels)%Z ->
  exists b b' size, @new_image T channels w h = Ok b /\ import_string b data den cd start = Ok (kOk, b') /\
    export_string b' cd start = let* bytes := jsave lib img size quality in Ok (kOk, Some bytes).
Proof. exact (picture_round_trip lib to_px of_px quality channels data den start img). Qed.
Print Assumptions C62_same_picture.
Example C62_case : let img := CImg 2 2 3 [10; 20; 30; 40; 50; 60; 70; 80; 90; 100; 110; 120]%Z in
  jload plain_jpeg [2; 2; 3; 10; 20; 30; 40; 50; 60; 70; 80; 90; 100; 110; 120]%Z = Some img /\ cimg_wf img /\
  Forall (fun z : Z => (fun x => x) ((fun x => x) z) = z) (cpixels img) /\ accepted (Params [2; 2]%Z 4 0 1).
Proof. split; [reflexivity|]. split; [reflexivity|]. split; [repeat constructor|]. apply C46_case. Qed.

(** ** C47: Save, then Load *)
Section SaveLoad.
Implicit Types (cd : codec) (legacy : buffer word -> list Z -> res (option (buffer word))).
Theorem C47_save_load cd legacy b e e' f p data :
  storable b -> can_open e = true -> can_open e' = true ->
  serialize cd b 0 = Ok (Some data) -> length data <= reaches e ->
  fst (save_file cd e f p b) = Ok kOk /\ load_file cd legacy e' (snd (save_file cd e f p b)) p = Ok (Some b).
Proof. exact (save_load cd legacy b e e' f p data). Qed.
Print Assumptions C47_save_load.
(** Save never refuses such a buffer and touches no other file *)
Theorem C47_save cd b e f p : storable b -> can_open e = true ->
  exists data, serialize cd b 0 = Ok (Some data) /\
    fst (save_file cd e f p b) = Ok kOk /\
    snd (save_file cd e f p b) p = Some (firstn (reaches e) data) /\
    forall q, q <> p -> snd (save_file cd e f p b) q = f q.
Proof. exact (save_storable cd b e f p). Qed.
Print Assumptions C47_save.
Theorem C47_load_missing cd legacy e f p : can_open e = false \/ f p = None -> load_file cd legacy e f p = Ok None.
Proof. unfold load_file, fread. intros [->|H]; [reflexivity|]. rewrite H. destruct (can_open e); reflexivity. Qed.
Print Assumptions C47_load_missing.
Definition C47_buffer : buffer word := Buffer (Params [2; 2]%Z 3 0 1) [[Mat 2 2 (map mkword [5; 6; 7; 8]%Z)]; [mempty]; [mempty]].
Example C47_case : storable C47_buffer.
Proof.
  split; [|split].
  - unfold accepted, params_rep, legal, u64, i32; cbn [C47_buffer bpar shape signum steps wtype length].
    repeat split; auto; try lia; repeat constructor; lia.
  - reflexivity.
  - intros ch [<-|[<-|[<-|[]]]]; (split; [reflexivity|]); unfold fits64, mwf; repeat constructor.
Qed.

(** ** C48: kIOError means that the file could not be opened, and leaves it alone *)
Theorem C48_io_error cd e f p b :
  (can_open e = false -> save_file cd e f p b = (Ok kIOError, f)) /\
  (fst (save_file cd e f p b) = Ok kIOError -> can_open e = false).
Proof.
  split; [apply write_unopened|]. unfold save_file, write_file. destruct (can_open e); auto.
  destruct (serialize cd b 0) as [[data|]| |]; cbn; discriminate.
Qed.
Print Assumptions C48_io_error.
(** a write that stops early is still reported as kOk; what is left in the
    file is never loaded as a buffer *)
Theorem C48_torn_write cd legacy b e e' f p data :
  storable b -> can_open e = true -> can_open e' = true ->
  serialize cd b 0 = Ok (Some data) -> reaches e < length data ->
  fst (save_file cd e f p b) = Ok kOk /\
  ((header_length (bpar b) <= reaches e -> load_file cd legacy e' (snd (save_file cd e f p b)) p = Ok None) /\
   (reaches e < header_length (bpar b) -> load_file cd legacy e' (snd (save_file cd e f p b)) p = UB)).
Proof. exact (torn_write cd legacy b e e' f p data). Qed.
Print Assumptions C48_torn_write.
(** an export that is refused leaves an empty file where the old one was *)
Theorem C48_refused_export (T : Type) (A : Arith T) (b : buffer T) icd start e f p st :
  can_open e = true -> export_string b icd start = Ok (st, None) ->
  export_file e f p b icd start = (Ok st, fset f p []).
Proof. intros He E. unfold export_file. rewrite E. apply write_refused. exact He. Qed.
Print Assumptions C48_refused_export.
(** ExportToFile: kIOError exactly if the file could not be opened (and then
    nothing is written); an export that is not refused writes as much of the
    bytes as the file system takes and reports kOk in any case; no other file
    is touched *)
Theorem C48_export_file (T : Type) (A : Arith T) (b : buffer T) icd start e f p :
  (can_open e = false -> export_file e f p b icd start = (Ok kIOError, f)) /\
  (fst (export_file e f p b icd start) = Ok kIOError -> can_open e = false) /\
  (forall bytes, can_open e = true -> export_string b icd start = Ok (kOk, Some bytes) ->
     fst (export_file e f p b icd start) = Ok kOk /\
     snd (export_file e f p b icd start) p = Some (firstn (reaches e) bytes)) /\
  (forall q, q <> p -> snd (export_file e f p b icd start) q = f q).
Proof.
  unfold export_file, write_file. destruct (can_open e).
  - split; [discriminate|]. split; [|split].
    + destruct (export_string b icd start) as [(st & d)| |] eqn:E; [|discriminate|discriminate].
      destruct (export_status b icd start st d E) as [(-> & -> & _)|(im & _ & [(-> & -> & _)|(-> & bytes & -> & _)])]; cbn; discriminate.
    + intros bytes _ ->. cbn. split; [reflexivity|apply fset_same].
    + intros q Hq. destruct (export_string b icd start) as [(st & [d|])| |]; cbn [snd]; rewrite !fset_other by auto; reflexivity.
  - split; [reflexivity|]. split; [reflexivity|]. split; [discriminate|]. reflexivity.
Qed.
Print Assumptions C48_export_file.
Theorem C48_failed_write_reported_refuted : exists e f p b data,
  storable b /\ serialize plain_codec b 0 = Ok (Some data) /\
  fst (save_file plain_codec e f p b) = Ok kOk /\ snd (save_file plain_codec e f p b) p <> Some data.
Proof.
  exists (Env true 0), (fun _ => None), [], C47_buffer. 
  destruct (save_storable plain_codec C47_buffer (Env true 0) (fun _ => None) [] C47_case eq_refl) as (data & E1 & E2 & E3 & _).
  exists data. split; [apply C47_case|]. split; [exact E1|]. split; [exact E2|]. rewrite E3. cbn.
  intros H. injection H as <-. vm_compute in E1. discriminate.
Qed.
Print Assumptions C48_failed_write_reported_refuted.
Theorem C48_old_file_kept_refuted : exists (b : buffer Z) start e f p old,
  f p = Some old /\ old <> [] /\ fst (export_file e f p b plain_rgb start) = Ok kCompositionError /\
  snd (export_file e f p b plain_rgb start) p = Some [].
Proof.
  exists (Buffer C46_p (repeat [mempty] 4)), 2%Z, (Env true 1000), (fun _ => Some [1]%Z), [], [1]%Z.
  split; [reflexivity|]. split; [discriminate|]. split; vm_compute; reflexivity.
Qed.
Print Assumptions C48_old_file_kept_refuted.
End SaveLoad.
