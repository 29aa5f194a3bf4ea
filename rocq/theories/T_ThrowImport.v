(** * T_ThrowImport: property C130 for imports of a WaveletImage *)
Require Import List Bool Arith ZArith.
Require Import Verif.M_Base Verif.M_Params Verif.M_Buffer Verif.M_View Verif.M_Denoise Verif.M_Image Verif.M_Throw Verif.M_ThrowImport.
Require Import Verif.S_Params Verif.S_Buffer Verif.S_Throw.
Require Import Verif.P_Api2 Verif.P_Throw2 Verif.P_ThrowImport Verif.T_Image.
Import ListNotations.
Open Scope nat_scope.

(** ** A picture that fits: the channels of the picture as in C130_view *)
Theorem C130_import (T : Type) (A : Arith T) p (b b0 : buffer T) data im den mem cd start k :
  accepted p -> reachable p b ->
  icdecode cd data = Ok (true, im) -> im <> [] -> Forall (shaped p) im ->
  (0 <= start)%Z -> (start + Z.of_nat (length im) <= signum p)%Z -> (signum p < 2 ^ 31)%Z ->
  import_string b data null_denoiser cd start = Ok (kOk, b0) ->
  k <= length im * per_write p ->
  (forall j, j < k -> written_from p den mem b0 (Z.to_nat start) j <> None) ->
  (k < length im * per_write p -> written_from p den mem b0 (Z.to_nat start) k = None) ->
  exists b', import_string_e b data den mem cd start =
      Ok (if k <? length im * per_write p then Throws else Returns kOk, b') /\
    bpar b' = p /\ length (bdec b') = length (bdec b) /\
    (forall ch, In ch (bdec b') -> length ch = per_write p) /\
    (forall c, c < Z.to_nat start \/ Z.to_nat start + length im <= c -> nth_error (bdec b') c = nth_error (bdec b) c) /\
    forall c i, c < length im -> i < per_write p -> sub_at b' (Z.to_nat start + c) i =
      if c * per_write p + i <? k then written_from p den mem b0 (Z.to_nat start) (c * per_write p + i)
      else sub_at b (Z.to_nat start + c) i.
Proof. exact (import_throw p b b0 data im den mem cd start k). Qed.
Print Assumptions C130_import.

(** ** Every other outcome comes before anything is written *)
Theorem C130_import_refused (T : Type) (A : Arith T) (b b0 : buffer T) data den mem cd start st :
  import_string b data null_denoiser cd start = Ok (st, b0) -> st <> kOk ->
  import_string_e b data den mem cd start = Ok (Returns st, b) /\ b0 = b.
Proof. exact (import_no_write b b0 data den mem cd start st). Qed.
Print Assumptions C130_import_refused.
Theorem C130_import_codec_throws (T : Type) (A : Arith T) (b : buffer T) data den mem cd start :
  icdecode cd data = Throw -> import_string_e b data den mem cd start = Ok (Throws, b).
Proof. exact (import_codec_throws b data den mem cd start). Qed.
Print Assumptions C130_import_codec_throws.
(** ** From a file *)
Theorem C130_import_file (T : Type) (A : Arith T) e f q (b : buffer T) den mem cd start :
  (can_open e = false \/ f q = None -> import_file_e e f q b den mem cd start = Ok (Returns kIOError, b)) /\
  (forall data, can_open e = true -> f q = Some data ->
     import_file_e e f q b den mem cd start = import_string_e b data den mem cd start).
Proof.
  unfold import_file_e, fread. split.
  - intros [->|H]; [reflexivity|]. rewrite H. destruct (can_open e); reflexivity.
  - intros data -> ->. reflexivity.
Qed.
Print Assumptions C130_import_file.

(** A 2 x 2 picture of three channels, imported at channel 1 of four; memory
    runs out at its second channel: one channel is new *)
Local Existing Instance Z_arith.
Definition picture : list Z := [2; 2; 3; 10; 20; 30; 40; 50; 60; 70; 80; 90; 100; 110; 120]%Z.
Example C130_import_case :
  match @new_buffer Z C46_p with
  | Ok b =>
      match import_string b picture null_denoiser plain_rgb 1 with
      | Ok (kOk, b0) => map (map rows) (bdec b0)
      | _ => []
      end = [[0]; [2]; [2]; [2]] /\
      match import_string_e b picture (never_throws null_denoiser) (fun c => c <? 1) plain_rgb 1 with
      | Ok (Throws, b') => map (map rows) (bdec b')
      | _ => []
      end = [[0]; [2]; [0]; [0]]
  | _ => False
  end.
Proof. vm_compute. split; reflexivity. Qed.
