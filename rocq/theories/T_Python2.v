(** * T_Python2: properties C80 .. C83, the Python module: energies, decode,
    images *)
Require Import List Bool Arith ZArith Reals Lra Lia.
Require Import Verif.M_Base Verif.M_Params Verif.M_Buffer Verif.M_Real Verif.M_Metrics Verif.M_View Verif.M_Denoise Verif.M_Archive
  Verif.M_Equal Verif.M_Serializer Verif.M_Image Verif.M_Python Verif.M_Python2
  Verif.S_Params Verif.S_Buffer Verif.S_Exact Verif.S_Metrics Verif.S_Serializer Verif.S_Image Verif.S_Python
  Verif.P_Base Verif.P_Archive Verif.P_Api2 Verif.P_Exact Verif.P_Metrics Verif.P_Image Verif.P_Python Verif.P_Python2 Verif.T_Image Verif.T_Python.
Import ListNotations.
Open Scope nat_scope.

(** ** C80: energy_distribution of a 2D buffer with elements: one line per
    channel, one column per subband *)
Theorem C80_energies (b : buffer R) k : length (shape (bpar b)) <> 1 -> ~ no_elements b ->
  Forall (fun ch => length ch = k) (bdec b) ->
  exists out, py_energy b = Ok out /\ ashape out = [length (bdec b); k] /\ length (aelts out) = length (bdec b) * k /\
    forall ch i d m, nth_error (bdec b) ch = Some d -> nth_error d i = Some m ->
      nth_error (aelts out) (ch * k + i) = Some (energy m).
Proof. exact (energy_array b k). Qed.
Print Assumptions C80_energies.
Theorem C80_energies_1d (b : buffer R) n d rest : shape (bpar b) = [n] -> ~ no_elements b -> bdec b = d :: rest ->
  py_energy b = Ok (Arr [length d] (map energy d)).
Proof. exact (energy_array_1d b n d rest). Qed.
Print Assumptions C80_energies_1d.
Example C80_case : let b := Buffer (Params [2; 1]%Z 2 0 0) [[Mat 1 2 [3; 4]%R]; [Mat 1 2 [0; 5]%R]] in
  ~ no_elements b /\ Forall (fun ch => length ch = 1) (bdec b).
Proof.
  split; [|repeat constructor]. intros H. destruct (H _ _ (or_introl eq_refl) (or_introl eq_refl)) as [E|E]; discriminate.
Qed.
(** "the energies of every channel are reported" is false in 1D: the array of
    a buffer with two channels depends on the first one only *)
Theorem C80_1d_channels_refuted : exists p (b1 b2 : buffer R) out,
  accepted p /\ length (shape p) = 1 /\ reachable (A := exactR) p b1 /\ reachable (A := exactR) p b2 /\
  map (map energy) (bdec b1) <> map (map energy) (bdec b2) /\
  py_energy b1 = Ok out /\ py_energy b2 = Ok out.
Proof.
  set (p := Params [2]%Z 2 0 0). set (d1 := [mcolvec [3; 4]%R; mcolvec [0; 0]%R]). set (d2 := [mcolvec [3; 4]%R; mcolvec [0; 5]%R]).
  exists p, (Buffer p [[mcolvec [3; 4]%R]; [mcolvec [0; 0]%R]]), (Buffer p [[mcolvec [3; 4]%R]; [mcolvec [0; 5]%R]]), (Arr [1] [25%R]).
  split. { unfold p, accepted, params_rep, legal, u64, i32; cbn [shape signum steps wtype length]. repeat split; auto; try lia; repeat constructor; lia. }
  split; [reflexivity|].
  assert (N : @new_buffer R p = Ok (Buffer p [[mempty]; [mempty]])) by (vm_compute; reflexivity).
  split. { apply (@reach_decompose R exactR p (Buffer p [[mempty]; [mempty]]) d1 null_denoiser true); [apply reach_new; exact N|repeat constructor|split; [reflexivity|repeat split; auto]|reflexivity]. }
  split. { apply (@reach_decompose R exactR p (Buffer p [[mempty]; [mempty]]) d2 null_denoiser true); [apply reach_new; exact N|repeat constructor|split; [reflexivity|repeat split; auto]|reflexivity]. }
  split. { intros E. cbn in E. injection E. lra. }
  assert (E25 : map energy [mcolvec [3; 4]%R] = [25%R]) by (unfold energy; cbn; f_equal; lra).
  split; (erewrite (energy_array_1d _ 2%Z [mcolvec [3; 4]%R]); [rewrite E25; reflexivity|reflexivity| |reflexivity]).
  all: intros H; destruct (H _ _ (or_introl eq_refl) (or_introl eq_refl)) as [E|E]; discriminate.
Qed.
Print Assumptions C80_1d_channels_refuted.
(** a buffer nothing was decomposed into, or without channels: undefined
    behaviour instead of an exception *)
Theorem C80_no_elements_refuted (b : buffer R) : no_elements b -> py_energy b = UB.
Proof. exact (energy_none b). Qed.
Print Assumptions C80_no_elements_refuted.
Theorem C80_empty_refuted p (b : buffer R) : new_buffer p = Ok b -> py_energy b = UB.
Proof.
  intros HN. unfold py_energy, energy_distribution. rewrite (fresh_empty p b HN). destruct (_ =? _); reflexivity.
Qed.
Print Assumptions C80_empty_refuted.
Example C80_empty_case : exists b : buffer R, new_buffer (Params [8; 8]%Z 3 1 1) = Ok b.
Proof. eexists. vm_compute. reflexivity. Qed.

(** ** C81: decode gives the planes of the picture as an array
    [channels, height, width]; what the library does not load raises *)
Theorem C81_decode (T : Type) lib (of_px : Z -> T) n blob img :
  1 <= n -> blob <> [] -> jload lib blob = Some img -> cimg_wf img -> n <= cspectrum img ->
  exists out, py_decode (fun data => decode_channels lib of_px n data [] 0) blob = Ok (Some out) /\
    ashape out = [n; cheight img; cwidth img] /\ length (aelts out) = n * cheight img * cwidth img /\
    forall k y x, k < n -> y < cheight img -> x < cwidth img ->
      exists v, pixel img x y k = Some v /\ nth_error (aelts out) ((k * cheight img + y) * cwidth img + x) = Some (of_px v).
Proof. exact (decode_array lib of_px n blob img). Qed.
Print Assumptions C81_decode.
Theorem C81_refused (T : Type) lib (of_px : Z -> T) f n blob :
  blob = [] \/ jload lib blob = None ->
  py_decode (fun data => decode_channels lib of_px n data [] 0) blob = Ok None /\
  py_decode (fun data => hsl_decode lib of_px f data [] 0) blob = Ok None.
Proof.
  intros H. unfold py_decode. rewrite (C45_decode_refused T lib of_px n blob [] 0 H), (C45_hsl_decode_refused T lib of_px f blob [] 0 H).
  split; reflexivity.
Qed.
Print Assumptions C81_refused.
(** decode(encode(a, s)) are the channels of a from s, up to the rounding to
    8 bits, with a library that loses nothing *)
Theorem C81_rgb_round_trip (T : Type) lib (to_px : T -> Z) (of_px : Z -> T) quality (load : list Z -> T) a c h w s :
  lossless lib quality -> c_contiguous a c h w -> nd_writable a = true -> 1 <= h -> 1 <= w -> s + 3 <= c ->
  exists bytes out, py_encode load (fun data => rgb_encode lib to_px quality data s) a = Ok (Some bytes) /\
    py_decode (fun data => rgb_decode lib of_px data [] 0) bytes = Ok (Some out) /\ ashape out = [3; h; w] /\
    forall k i j, k < 3 -> i < h -> j < w -> exists bs, item a [s + k; i; j] = Ok bs /\
      nth_error (aelts out) ((k * h + i) * w + j) = Some (of_px (to_px (load bs))).
Proof.
  intros HL HC Hw Hh Hww Hs. apply (encode_decode lib to_px of_px quality 3 (rgb_encode lib to_px quality) load a c h w s); auto.
  intros image start W. exact (proj2 (rgb_encode_when lib to_px quality image start W)).
Qed.
Print Assumptions C81_rgb_round_trip.
Theorem C81_gray_round_trip (T : Type) lib (to_px : T -> Z) (of_px : Z -> T) quality (load : list Z -> T) a c h w s :
  lossless lib quality -> c_contiguous a c h w -> nd_writable a = true -> 1 <= h -> 1 <= w -> s + 1 <= c ->
  exists bytes out, py_encode load (fun data => gray_encode lib to_px quality data s) a = Ok (Some bytes) /\
    py_decode (fun data => gray_decode lib of_px data [] 0) bytes = Ok (Some out) /\ ashape out = [1; h; w] /\
    forall k i j, k < 1 -> i < h -> j < w -> exists bs, item a [s + k; i; j] = Ok bs /\
      nth_error (aelts out) ((k * h + i) * w + j) = Some (of_px (to_px (load bs))).
Proof.
  intros HL HC Hw Hh Hww Hs. apply (encode_decode lib to_px of_px quality 1 (gray_encode lib to_px quality) load a c h w s); auto.
  intros image start W. exact (proj2 (gray_encode_when lib to_px quality image start W)).
Qed.
Print Assumptions C81_gray_round_trip.
(** four channels of 1 x 2 pixels, of which the last three are encoded *)
Definition arr4 : ndarray := ND (flat_map (le 4) [1; 2; 3; 4; 5; 6; 7; 8]%Z) 0 [4; 1; 2] [8; 8; 4]%Z 4 true true.
Example C81_case : lossless plain_jpeg 100 /\ c_contiguous arr4 4 1 2 /\
  py_encode of_le (fun data => rgb_encode plain_jpeg (fun z => z) 100 data 1) arr4 = Ok (Some [2; 1; 3; 3; 4; 5; 6; 7; 8]%Z) /\
  py_decode (fun data => rgb_decode plain_jpeg (fun z => z) data [] 0) [2; 1; 3; 3; 4; 5; 6; 7; 8]%Z
  = Ok (Some (Arr [3; 1; 2] [3; 4; 5; 6; 7; 8]%Z)).
Proof.
  split; [apply plain_lossless|]. split; [repeat split; cbn; lia|]. split; vm_compute; reflexivity.
Qed.

(** ** C82: an import into a WaveletImage raises exactly when it is not
    reported as kOk, and then the image is as before *)
Theorem C82_import_string (T : Type) (A : Arith T) (b b' : buffer T) data den cd start r :
  py_import_string b data den cd start = Ok (r, b') ->
  (r = true <-> import_string b data den cd start = Ok (kOk, b')) /\ (r = false -> b' = b).
Proof. exact (import_raises b b' data den cd start r). Qed.
Print Assumptions C82_import_string.
Theorem C82_import_file (T : Type) (A : Arith T) e f p (b b' : buffer T) den cd start r :
  py_import_file e f p b den cd start = Ok (r, b') ->
  (r = true -> can_open e = true /\ exists data, f p = Some data /\ import_string b data den cd start = Ok (kOk, b')) /\
  (r = false -> b' = b).
Proof. exact (import_file_raises e f p b b' den cd start r). Qed.
Print Assumptions C82_import_file.
(** a picture that fits is taken, without an exception *)
Theorem C82_import_ok (T : Type) (A : Arith T) p (b : buffer T) data den cd start im :
  accepted p -> reachable p b -> keeps_shape den -> is_1d p = false ->
  icdecode cd data = Ok (true, im) -> im <> [] -> Forall (shaped p) im ->
  (0 <= start)%Z -> (start + Z.of_nat (length im) <= signum p)%Z -> (signum p < 2 ^ 31)%Z ->
  exists b' bs bs', py_import_string b data den cd start = Ok (true, b') /\
    @new_buffer T (with_signum p (Z.of_nat (length im))) = Ok bs /\ decompose bs im den = Ok (true, bs') /\
    forall i, i < length im -> nth_error (bdec b') (Z.to_nat start + i) = nth_error (bdec bs') i.
Proof.
  intros H1 H2 H3 H4 H5 H6 H7 H8 H9 H10.
  destruct (C46_import_ok T A p b data den cd start im H1 H2 H3 H4 H5 H6 H7 H8 H9 H10) as (b' & bs & bs' & E & E1 & E2 & _ & _ & _ & G & _).
  exists b', bs, bs'. split; [|auto]. unfold py_import_string. rewrite E. reflexivity.
Qed.
Print Assumptions C82_import_ok.
(** export_to_string returns exactly what the codec makes of the composed
    channels *)
Theorem C82_export_string (T : Type) (A : Arith T) (b : buffer T) cd start bytes :
  py_export_string b cd start = Ok (Some bytes) <->
  exists image, view_compose (View (to_int32 start) (to_int32 (icchannels cd)) false) b 0 = Ok (true, Some image) /\
    icencode cd image = Ok (Some bytes).
Proof. exact (export_returns b cd start bytes). Qed.
Print Assumptions C82_export_string.
Example C82_case : exists b b', @new_buffer Z C46_p = Ok b /\
  py_import_string (A := Z_arith) b [2; 2; 3; 10; 20; 30; 40; 50; 60; 70; 80; 90; 100; 110; 120]%Z null_denoiser plain_rgb 1 = Ok (true, b') /\
  py_export_string (A := Z_arith) b' plain_rgb 1 = Ok (Some [2; 2; 3; 10; 20; 30; 40; 50; 60; 70; 80; 90; 100; 110; 120]%Z) /\
  py_import_string (A := Z_arith) b' [2; 2; 3; 10; 20; 30; 40; 50; 60; 70; 80; 90; 100; 110; 120]%Z null_denoiser plain_rgb 2 = Ok (false, b').
Proof. do 2 eexists. split; [vm_compute; reflexivity|]. split; [vm_compute; reflexivity|]. split; vm_compute; reflexivity. Qed.
(** files: an exception because the file cannot be opened leaves it alone;
    one because nothing could be exported has emptied it *)
Theorem C82_unopened (T : Type) (A : Arith T) cd e f p (b : buffer T) (b' : buffer word) icd start : can_open e = false ->
  py_export_file e f p b icd start = (Ok false, f) /\ py_save cd e f p b' = (Ok false, f).
Proof.
  intros He. unfold py_export_file, export_file, py_save, save_file, write_file. rewrite He. split; reflexivity.
Qed.
Print Assumptions C82_unopened.
Theorem C82_raised_keeps_file_refuted : exists (b : buffer Z) start e f p old,
  f p = Some old /\ old <> [] /\ fst (py_export_file (A := Z_arith) e f p b plain_rgb start) = Ok false /\
  snd (py_export_file (A := Z_arith) e f p b plain_rgb start) p = Some [].
Proof.
  exists (Buffer C46_p (repeat [mempty] 4)), 2%Z, (Env true 0), (fun _ => Some [1%Z]), [], [1%Z].
  split; [reflexivity|]. split; [discriminate|]. split; vm_compute; reflexivity.
Qed.
Print Assumptions C82_raised_keeps_file_refuted.
(** save, then load: the image comes back *)
Theorem C82_save_load cd legacy b e e' f p data :
  storable b -> can_open e = true -> can_open e' = true -> serialize cd b 0 = Ok (Some data) -> length data <= reaches e ->
  fst (py_save cd e f p b) = Ok true /\ load_file cd legacy e' (snd (py_save cd e f p b)) p = Ok (Some b).
Proof.
  intros H1 H2 H3 H4 H5. destruct (C47_save_load cd legacy b e e' f p data H1 H2 H3 H4 H5) as (E1 & E2).
  unfold py_save. cbn [fst snd]. rewrite E1. split; [reflexivity|exact E2].
Qed.
Print Assumptions C82_save_load.

(** ** C83: the distance of images.  For DB1 and sides divisible by 2^steps,
    images with samples in [0, 1] have a distance in [0, 1], as
    wavelet_image.h says ... *)
Open Scope R_scope.
Theorem C83_unit_db1 p b1 b2 d1 d2 b1' b2' : accepted p -> wtype p = 1%Z -> small_shape p ->
  level_rows p 0 = drows p -> level_cols p 0 = dcols p ->
  reachable (A := exactR) p b1 -> reachable (A := exactR) p b2 ->
  Z.of_nat (length d1) = signum p -> Z.of_nat (length d2) = signum p ->
  Forall (shaped p) d1 -> Forall (shaped p) d2 ->
  Forall (fun m => Forall (fun x => 0 <= x <= 1) (elts m)) d1 -> Forall (fun m => Forall (fun x => 0 <= x <= 1) (elts m)) d2 ->
  decompose (A := exactR) b1 d1 null_denoiser = Ok (true, b1') -> decompose (A := exactR) b2 d2 null_denoiser = Ok (true, b2') ->
  exists d, py_image_distance b1' b2' = Ok (Num d) /\ 0 <= d <= 1.
Proof.
  intros HA Hw HS Hr Hc R1 R2 L1 L2 F1 F2 U1 U2 E1 E2.
  eexists. split; [apply (mean_squared p HA b1 b2 d1 d2 b1' b2'); auto|].
  destruct (samples_length p d1 HS HA L1 F1) as (El & Hp).
  assert (X : forall d : list (mat R), Forall (fun m => Forall (fun x => 0 <= x <= 1) (elts m)) d -> Forall (fun x => 0 <= x <= 1) (concat (map (@elts R) d))).
  { induction d as [|m d IH]; intros H; cbn [map concat]; [constructor|]. inversion H; subst. apply Forall_app. auto. }
  pose proof (sum_sq_nonneg (concat (map (@elts R) d1)) (concat (map (@elts R) d2))) as Hn.
  pose proof (sum_sq_unit _ _ (X d1 U1) (X d2 U2)) as Hu. rewrite El in Hu. split.
  - apply Rmult_le_pos; [auto|]. left. apply Rinv_0_lt_compat. auto.
  - apply (Rmult_le_reg_r (IZR (samples p))); [auto|]. unfold Rdiv. rewrite Rmult_assoc, Rinv_l, Rmult_1_r by lra. lra.
Qed.
Print Assumptions C83_unit_db1.
(** ... the same image is at distance 0, not 1 as the Python docstring says *)
Theorem C83_same (b : buffer R) : small_shape (bpar b) -> Forall (Forall mwf) (bdec b) -> py_image_distance b b = Ok (Num 0).
Proof.
  intros HS HF. unfold py_image_distance. rewrite (distance_value b b (bpar b) eq_refl).
  - rewrite sum_sq_self. unfold Rdiv. rewrite Rmult_0_l. reflexivity.
  - repeat split.
  - auto.
  - unfold same_sizes. clear HS. induction HF as [|ch l Hc _ IH]; constructor; auto.
    clear IH. induction Hc; constructor; auto.
Qed.
Print Assumptions C83_same.
Theorem C83_docstring_refuted (b : buffer R) : small_shape (bpar b) -> Forall (Forall mwf) (bdec b) -> py_image_distance b b <> Ok (Num 1).
Proof. intros HS HF. rewrite (C83_same b HS HF). intros E. injection E. lra. Qed.
Print Assumptions C83_docstring_refuted.
Example C83_case : let p := Params [4; 2]%Z 3 1 1 in accepted p /\ small_shape p /\ level_rows p 0 = drows p /\ level_cols p 0 = dcols p.
Proof.
  split; [unfold accepted, params_rep, legal, u64, i32; cbn [shape signum steps wtype length]; repeat split; auto; try lia; repeat constructor; lia|].
  split; [repeat split; simpl; try lia; repeat constructor; lia|]. split; vm_compute; reflexivity.
Qed.
