(** * T_Legacy: property C70, compressed version 2 blobs.
    [cd] is any pair of external codecs. *)
Require Import List ZArith Bool Lia ZifyBool.
Import ListNotations.
From Verif Require Import M_Base P_Base M_Params S_Params M_Buffer S_Buffer M_SfCodec S_SfCodec P_SfCases
  M_Archive M_Serializer S_Serializer P_Archive P_Serializer P_Blob M_Legacy S_Legacy P_Legacy.
Open Scope Z_scope.

(** Parse reads the streams the legacy compressor made of the subbands, each of
    at most 2^15 elements: shapes and zeros are kept, the other values rounded
    to the precision. *)
Theorem C70_round_trip cd b fl sf streams extra :
  storable b -> elements (bpar b) < 2 ^ 49 -> (7 <= fl <= 21 \/ fl = 23) -> 1 <= sf < 256 -> streams_for fl b streams ->
  parse cd parse_legacy (blob_v2_compressed (bpar b) sf streams ++ extra)
  = Ok (Some (map_buffer (fun x => if is_zero x then word_zero else kept fl x) b)).
Proof. exact (legacy_round_trip cd b fl sf streams extra). Qed.
Print Assumptions C70_round_trip.

Definition C70_buffer : buffer word := Buffer (Params [8] 1 1 1)
  [[mcolvec (map mkword [0; 1067030938; 2147483648; 3225000000]); mcolvec (map mkword [1065353216; 0; 0; 1072693248])]].
Definition C70_streams : list (list (list Z)) :=
  map (map (fun m => stream_of (M_SfCodec.compress 1000 (origin_of 12 m)))) (bdec C70_buffer).
Example C70_case : storable C70_buffer /\ elements (bpar C70_buffer) < 2 ^ 49 /\ streams_for 12 C70_buffer C70_streams.
Proof.
  split; [split; [apply ex_accepted; lia|split; [reflexivity|]]|split; [reflexivity|]].
  - intros ch [<-|[]]; (split; [reflexivity|]); unfold fits64, mwf; repeat constructor.
  - constructor; [|constructor]. cbn [streams_from]. unfold stream_for, mwf.
    split; [|split; [|exact I]]; (split; [vm_compute; lia|split; [vm_compute; discriminate|split; [reflexivity|
      split; [vm_compute; reflexivity|split; vm_compute; discriminate]]]]).
Qed.

(** A compressed version 2 blob that was cut is refused; cut inside the header
    uninitialised variables are used. *)
Theorem C70_truncated cd b fl sf streams pre suf :
  storable b -> elements (bpar b) < 2 ^ 49 -> (7 <= fl <= 21 \/ fl = 23) -> 1 <= sf < 256 -> streams_for fl b streams ->
  blob_v2_compressed (bpar b) sf streams = pre ++ suf -> suf <> [] ->
  ((header_length (bpar b) <= length pre)%nat -> parse cd parse_legacy pre = Ok None) /\
  ((length pre < header_length (bpar b))%nat -> parse cd parse_legacy pre = UB).
Proof. exact (legacy_truncated cd b fl sf streams pre suf). Qed.
Print Assumptions C70_truncated.

(** The reserved memory has room for the values of a decomposed channel *)
Theorem C70_values_fit {T} p (ch : list (mat T)) s m :
  accepted p -> has_layout p ch -> nth_error ch s = Some m -> Z.of_nat (rows m) * Z.of_nat (cols m) <= room p s.
Proof. exact (layout_room p ch s m). Qed.
Print Assumptions C70_values_fit.

(** A stream that starts with another version number than 0 is refused *)
Theorem C70_other_version cd p sf c bytes extra :
  accepted p -> elements p < 2 ^ 49 -> 1 <= signum p -> 1 <= sf < 256 ->
  64 <= c < 256 -> Forall is_byte bytes -> Z.of_nat (length (c :: bytes)) <= room p 0 -> room p 0 < 2 ^ 64 ->
  parse cd parse_legacy ([2] ++ put_params p ++ [sf] ++ put_bytes (c :: bytes) ++ extra) = Ok None.
Proof. exact (legacy_other_version cd p sf c bytes extra). Qed.
Print Assumptions C70_other_version.

(** The reserved memory does not always have room for the stream: a channel
    of two subbands of two values each, as Decompose makes it of three
    samples, compressed without loss. *)
Definition C70_small : buffer word := Buffer (Params [3] 1 1 1)
  [[mcolvec (map mkword [1067030938; 1072693248]); mcolvec (map mkword [1067030938; 1072693248])]].
Theorem C70_stream_fits_refuted cd : storable C70_small /\ Forall (has_layout (bpar C70_small)) (bdec C70_small) /\
  exists streams, Forall2 (Forall2 (fun m s => M_SfCodec.compress 1000 (origin_of 23 m) = Ok (Some s))) (bdec C70_small) streams /\
    parse cd parse_legacy (blob_v2_compressed (bpar C70_small) 1 streams) = UB.
Proof.
  split; [|split].
  - split; [|split; [reflexivity|]].
    + repeat split; cbn; auto; repeat constructor; unfold u64; lia.
    + intros ch [<-|[]]; (split; [reflexivity|]); unfold fits64, mwf; repeat constructor.
  - constructor; [|constructor]. split; [reflexivity|]. split.
    + intros [|[|s]] [|[|i]] m Hs Hi Hm; cbn in Hs, Hi; try lia. cbn in Hm. inversion Hm. repeat split.
    + intros m Hm. cbn in Hm. inversion Hm. repeat split.
  - exists (map (map (fun m => stream_of (M_SfCodec.compress 1000 (origin_of 23 m)))) (bdec C70_small)). split.
    + constructor; [|constructor]. constructor; [vm_compute; reflexivity|]. constructor; [vm_compute; reflexivity|constructor].
    + vm_compute. reflexivity.
Qed.
Print Assumptions C70_stream_fits_refuted.
