(** * T_HslWave: property C107, colour pictures stored as hue, saturation and luminance *)
Require Import List Bool Arith ZArith Reals Lra Lia.
Require Import Flocq.Core.Core Flocq.IEEE754.BinarySingleNaN.
Require Import Verif.M_Base Verif.M_Params Verif.M_Buffer Verif.M_View Verif.M_Image Verif.M_Float Verif.M_Binary32 Verif.M_Denoise Verif.M_ColorF.
Require Import Verif.S_Params Verif.S_Padding Verif.S_Buffer Verif.S_Exact Verif.S_Round Verif.S_Stable Verif.S_Local Verif.S_Denoise Verif.S_Image Verif.S_HslWave.
Require Import Verif.P_Api Verif.P_HslWave3 Verif.T_Image.
Require Verif.P_ColorF Verif.P_ColorF4 Verif.P_HslWave2.
Import ListNotations.
Open Scope R_scope.

(** ** a small change of hue, saturation and luminance is a small change of the colour *)
Theorem C107_moved e r g b h' s' l' : is_finite r = true -> is_finite g = true -> is_finite b = true ->
  0 <= B2R r <= 1 -> 0 <= B2R g <= 1 -> 0 <= B2R b <= 1 ->
  is_finite h' = true -> is_finite s' = true -> is_finite l' = true -> 0 <= e <= 7 / 10 ^ 4 ->
  let '(h, s, l) := rgb_to_hsl32 r g b in
  Rabs (B2R h' - B2R h) <= e -> Rabs (B2R s' - B2R s) <= e -> Rabs (B2R l' - B2R l) <= e ->
  let '(r', g', b') := hsl_to_rgb32 h' s' l' in
  (is_finite r' = true /\ is_finite g' = true /\ is_finite b' = true) /\
  Rabs (B2R r' - B2R r) <= 9 * e + 102 / 10 ^ 5 /\ Rabs (B2R g' - B2R g) <= 9 * e + 102 / 10 ^ 5 /\
  Rabs (B2R b' - B2R b) <= 9 * e + 102 / 10 ^ 5.
Proof.
  intros Fr Fg Fb Hr Hg Hb Fh Fs Fl He.
  pose proof (P_HslWave2.colour_moved e r g b h' s' l' Fr Fg Fb Hr Hg Hb Fh Fs Fl He) as K.
  pose proof (P_ColorF4.colour_round_trip r g b Fr Fg Fb Hr Hg Hb) as L.
  destruct (rgb_to_hsl32 r g b) as ((h & s) & l). intros Nh Ns Nl.
  apply P_ColorF.near_abs in Nh, Ns, Nl. specialize (K Nh Ns Nl).
  destruct (hsl_to_rgb32 h s l) as ((r1 & g1) & b1). destruct (hsl_to_rgb32 h' s' l') as ((r2 & g2) & b2).
  destruct K as (K0 & K1 & K2 & K3). destruct L as (_ & _ & L1 & L2 & L3). pose proof P_ColorF.u32_range as U.
  split; [exact K0|]. unfold P_ColorF.near in *. apply Rabs_le_inv in L1, L2, L3.
  repeat split; apply Rabs_le; lra.
Qed.
Print Assumptions C107_moved.
Example C107_moved_case : let '(h, s, l) := rgb_to_hsl32 (of_pixel 10) (of_pixel 20) (of_pixel 30) in
  is_finite h = true /\ is_finite s = true /\ is_finite l = true /\ 0 <= 0 <= 7 / 10 ^ 4 /\
  Rabs (B2R h - B2R h) <= 0 /\ Rabs (B2R s - B2R s) <= 0 /\ Rabs (B2R l - B2R l) <= 0.
Proof.
  pose proof (P_HslWave2.level_colours 10 20 30 ltac:(lia) ltac:(lia) ltac:(lia)) as L.
  destruct (rgb_to_hsl32 _ _ _) as ((h & s) & l). destruct (hsl_to_rgb32 h s l) as ((? & ?) & ?). destruct L as ((L1 & L2 & L3 & _) & _).
  rewrite !Rminus_diag_eq by reflexivity. rewrite Rabs_R0. repeat split; auto; lra.
Qed.

(** ** an 8-bit colour picture imported with the HSL codec, without denoising,
    and exported with it: with few enough steps every level comes back or the
    one below it *)
Theorem C107_picture p (b : buffer f32) lib quality data start img :
  let cd := ImageCodec f32 (fun data => hsl_decode lib of_pixel rgb_to_hsl32 data [] 0)
                           (fun image => hsl_encode lib to_pixel quality hsl_to_rgb32 image 0) 3 in
  accepted p -> colours_kept p -> reachable p b ->
  shape p = [Z.of_nat (cwidth img); Z.of_nat (cheight img)] -> (signum p < 2 ^ 31)%Z ->
  data <> [] -> jload lib data = Some img -> cimg_wf img -> cspectrum img = 3%nat ->
  cwidth img <> 0%nat -> cheight img <> 0%nat ->
  Forall (fun z => 0 <= z <= 255)%Z (cpixels img) ->
  (0 <= start)%Z -> (start + 3 <= signum p)%Z ->
  exists b' img' size, import_string b data null_denoiser cd start = Ok (kOk, b') /\
    export_string b' cd start = (let* bytes := jsave lib img' size quality in Ok (kOk, Some bytes)) /\
    cwidth img' = cwidth img /\ cheight img' = cheight img /\ cspectrum img' = 3%nat /\ cimg_wf img' /\
    forall x y k z, (x < cwidth img)%nat -> (y < cheight img)%nat -> (k < 3)%nat -> pixel img x y k = Some z ->
      pixel img' x y k = Some z \/ pixel img' x y k = Some (z - 1)%Z.
Proof. exact (hsl_wavelet p b lib quality data start img). Qed.
Print Assumptions C107_picture.
(** which numbers of steps are few enough *)
Theorem C107_steps p : accepted p ->
  (wtype p = 1 /\ steps p <= 5 \/ (wtype p = 2 \/ wtype p = 3 \/ wtype p = 4 \/ wtype p = 5) /\ steps p <= 1)%Z ->
  colours_kept p.
Proof.
  intros HA H. unfold colours_kept, window, passes, nsteps. pose proof (P_Impl.acc_steps p HA) as S0.
  assert (D : exists t k, wtype p = t /\ Z.to_nat (steps p) = k /\
    (t = 1%Z /\ (k <= 5)%nat \/ (t = 2%Z \/ t = 3%Z \/ t = 4%Z \/ t = 5%Z) /\ (k <= 1)%nat)).
  { exists (wtype p), (Z.to_nat (steps p)). split; [reflexivity|]. split; [reflexivity|]. lia. }
  destruct D as (t & k & -> & -> & D).
  destruct D as [[-> Hk]|[[-> | [-> | [-> | ->]]] Hk]];
    do 6 (destruct k as [|k]; [try lia; destruct (is_1d p); apply Nat.leb_le; vm_compute; reflexivity|]); lia.
Qed.
Print Assumptions C107_steps.
(** 4 x 4 pixels of different colours, two steps of DB1 *)
Definition photo : cimg := CImg 4 4 3 (map (fun i => Z.of_nat (i * 5)) (seq 0 48)).
Definition photo_params : params := Params [4; 4]%Z 3 2 1.
Example C107_case : accepted photo_params /\ colours_kept photo_params /\
  (exists b : buffer f32, new_buffer photo_params = Ok b) /\
  shape photo_params = [Z.of_nat (cwidth photo); Z.of_nat (cheight photo)] /\
  jload plain_jpeg (4 :: 4 :: 3 :: map (fun i => Z.of_nat (i * 5)) (seq 0 48))%Z = Some photo /\
  cimg_wf photo /\ Forall (fun z => 0 <= z <= 255)%Z (cpixels photo).
Proof.
  assert (HA : accepted photo_params)
    by (unfold accepted, photo_params, params_rep, legal, u64, i32; cbn [shape signum steps wtype length]; repeat split; auto; repeat constructor; lia).
  split; [exact HA|]. split; [apply C107_steps; [exact HA|left; cbn; lia]|].
  split; [eexists; vm_compute; reflexivity|]. split; [reflexivity|]. split; [reflexivity|]. split; [reflexivity|].
  apply Forall_forall. intros z Hz. apply in_map_iff in Hz as (i & <- & Hi). apply in_seq in Hi. lia.
Qed.

(** ** composing such a picture at a reduced size averages hues, and hues are
    angles: a picture of four reds is reduced to a cyan *)
Definition reds : cimg := CImg 2 2 3 [255; 255; 255; 255; 0; 40; 40; 0; 40; 0; 0; 40]%Z.
Theorem C107_preview_refuted : exists data (b b' : buffer f32) image small bytes img',
  jload plain_jpeg data = Some reds /\
  new_buffer (Params [2; 2]%Z 3 1 1) = Ok b /\
  hsl_decode plain_jpeg of_pixel rgb_to_hsl32 data [] 0 = Ok (true, image) /\
  decompose b image null_denoiser = Ok (true, b') /\
  compose b' 1 = Ok (true, small) /\
  hsl_encode plain_jpeg to_pixel 100 hsl_to_rgb32 small 0 = Ok (Some bytes) /\
  jload plain_jpeg bytes = Some img' /\
  (forall x y, (x < 2)%nat -> (y < 2)%nat -> pixel reds x y 0 = Some 255%Z) /\
  pixel img' 0 0 0 = Some 0%Z /\ pixel img' 0 0 1 = Some 254%Z /\ pixel img' 0 0 2 = Some 254%Z.
Proof.
  set (data := [2; 2; 3; 255; 255; 255; 255; 0; 40; 40; 0; 40; 0; 0; 40]%Z).
  set (p := Params [2; 2]%Z 3 1 1).
  assert (EV : match new_buffer p, hsl_decode plain_jpeg of_pixel rgb_to_hsl32 data [] 0 with
     | Ok b, Ok (true, image) => match decompose b image null_denoiser with
       | Ok (true, b') => match @compose f32 binary32 b' 1 with
         | Ok (true, small) => match hsl_encode plain_jpeg to_pixel 100 hsl_to_rgb32 small 0 with
           | Ok (Some bytes) => bytes | _ => [] end | _ => [] end | _ => [] end | _, _ => [] end = [1; 1; 3; 0; 254; 254]%Z) by (vm_compute; reflexivity).
  destruct (new_buffer p) as [b| |] eqn:E1; try discriminate EV.
  destruct (hsl_decode plain_jpeg of_pixel rgb_to_hsl32 data [] 0) as [[[|] image]| |] eqn:E2; try discriminate EV.
  destruct (decompose b image null_denoiser) as [[[|] b']| |] eqn:E3; try discriminate EV.
  destruct (compose b' 1) as [[[|] small]| |] eqn:E4; try discriminate EV.
  destruct (hsl_encode plain_jpeg to_pixel 100 hsl_to_rgb32 small 0) as [[bytes|]| |] eqn:E5; try discriminate EV.
  subst bytes. exists data, b, b', image, small, [1; 1; 3; 0; 254; 254]%Z, (CImg 1 1 3 [0; 254; 254]%Z).
  split; [reflexivity|]. split; [reflexivity|]. split; [exact E2|]. split; [exact E3|]. split; [exact E4|]. split; [exact E5|]. split; [reflexivity|]. split; [|auto].
  intros x y Hx Hy. destruct x as [|[|x]]; destruct y as [|[|y]]; try lia; reflexivity.
Qed.
Print Assumptions C107_preview_refuted.
