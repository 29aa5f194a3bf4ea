(** * T_Size: property C120 (how many bytes a compressed blob takes). *)
Require Import List Bool Arith ZArith Lia Reals Lra.
Require Import Flocq.Core.Core Flocq.IEEE754.BinarySingleNaN.
Require Import Verif.M_Base Verif.M_Params Verif.M_Buffer Verif.M_Float Verif.M_Binary32 Verif.M_Denoise Verif.M_Mag32
  Verif.M_Archive Verif.M_Serializer.
Require Import Verif.S_Params Verif.S_Buffer Verif.S_Exact Verif.S_Round Verif.S_Stable Verif.S_Denoise Verif.S_Serializer Verif.S_Lossy Verif.S_Size.
Require Import Verif.P_Archive Verif.P_Blob Verif.P_DenoiseF Verif.P_Size Verif.P_Size2.
Import ListNotations.
Open Scope Z_scope.

(** C120: the bytes of a compressed blob are the header and, for every
    subband, 80 bytes, those of the places of the values that are not zero,
    and those fpzip writes for these values. *)
Theorem C120_size cd b sf blob :
  storable b -> indexable b -> no_empty_subband b -> bdec b <> [] -> 1 <= sf -> padding_16 cd ->
  serialize cd b sf = Ok (Some blob) ->
  exists vs, Forall2 (fun m v => fpz_write cd (33 - Z.min 31 sf) (nonzero_values m) = Ok v) (concat (bdec b)) vs /\
    length blob = (header_length (bpar b)
      + list_sum (map (fun mv => subband_size (fst mv) (snd mv)) (combine (concat (bdec b)) vs)))%nat.
Proof. exact (blob_size cd b sf blob). Qed.
Print Assumptions C120_size.

(** the places of n values out of N: between 5/4 and 17/4 bytes for each (the
    latter is what CompressIndexes allocates), and hardly more than 5/4 for
    each if they are dense *)
Theorem C120_places (m : mat word) : mwf m ->
  let n := length (nonzero_values m) in
  ((n + 3) / 4 + n <= place_bytes m <= (n + 3) / 4 + 4 * n)%nat /\
  let N := Z.of_nat (rows m) * Z.of_nat (cols m) in
  Z.of_nat (place_bytes m) <= Z.of_nat ((n + 3) / 4) + Z.of_nat n + N / 256 + N / 65536 + N / 16777216.
Proof. exact (place_bound m). Qed.
Print Assumptions C120_places.

(** C120: so, fpzip staying in the buffer CompressValues gives it, a blob
    takes no more than [most_bytes] for each subband. *)
Theorem C120_most cd b sf blob :
  storable b -> indexable b -> no_empty_subband b -> bdec b <> [] -> 1 <= sf -> padding_16 cd ->
  in_its_buffer cd (33 - Z.min 31 sf) -> serialize cd b sf = Ok (Some blob) ->
  (length blob <= header_length (bpar b) + list_sum (map most_bytes (concat (bdec b))))%nat.
Proof. exact (blob_most cd b sf blob). Qed.
Print Assumptions C120_most.

(** C120: replacing values by zeros never takes more bytes for the places, and
    none at all if fpzip does not take more for fewer values. *)
Theorem C120_sparser_places (m' m : mat word) : zeroed m' m ->
  (place_bytes m' <= place_bytes m)%nat /\ part (nonzero_values m') (nonzero_values m).
Proof. exact (place_less m' m). Qed.
Print Assumptions C120_sparser_places.
Theorem C120_sparser cd b' b sf blob' blob : sparser b' b ->
  storable b -> indexable b -> no_empty_subband b -> bdec b <> [] -> 1 <= sf -> padding_16 cd ->
  no_more_for_less cd (33 - Z.min 31 sf) ->
  serialize cd b sf = Ok (Some blob) -> serialize cd b' sf = Ok (Some blob') ->
  (length blob' <= length blob)%nat.
Proof. exact (sparser_less cd b' b sf blob' blob). Qed.
Print Assumptions C120_sparser.

(** C120: denoising with either library denoiser (or any that keeps or zeroes)
    never makes the blob larger, *)
Theorem C120_denoised p (b : buffer f32) data den b0 b1 cd sf : accepted p ->
  keeps_shape den -> keeps_or_zeroes den -> reachable p b -> Forall (fun n => 1 <= n) (shape p) ->
  Z.of_nat (level_rows p 0) < 2 ^ 31 -> Z.of_nat (level_cols p 0) < 2 ^ 31 ->
  Z.of_nat (level_rows p 0) * Z.of_nat (level_cols p 0) < 2 ^ 32 ->
  1 <= signum p -> Z.of_nat (length data) = signum p -> Forall (shaped p) data ->
  Forall all_finite data -> Forall (fun m => padded_energy p (values m) <= 2 ^ 220)%R data ->
  1 <= sf -> padding_16 cd -> codec_total cd (33 - Z.min 31 sf) -> no_more_for_less cd (33 - Z.min 31 sf) ->
  decompose b data null_denoiser = Ok (true, b0) -> decompose b data den = Ok (true, b1) ->
  exists blob0 blob1, serialize cd (patterns b0) sf = Ok (Some blob0) /\ serialize cd (patterns b1) sf = Ok (Some blob1) /\
    (length blob1 <= length blob0)%nat.
Proof. exact (fun HA => denoising_less p HA b data den b0 b1 cd sf). Qed.
Print Assumptions C120_denoised.
(** a higher threshold leaves fewer values, *)
Theorem C120_threshold p (b : buffer f32) data (a1 c1 a2 c2 : f32) b1 b2 : accepted p -> reachable p b ->
  1 <= signum p -> Z.of_nat (length data) = signum p -> Forall (shaped p) data ->
  (forall s, (s < nsteps p)%nat -> is_finite (get_threshold a1 c1 s) = true /\ is_finite (get_threshold a2 c2 s) = true /\
     (B2R (get_threshold a1 c1 s) <= B2R (get_threshold a2 c2 s))%R) ->
  decompose b data (threshold_denoiser a1 c1) = Ok (true, b1) ->
  decompose b data (threshold_denoiser a2 c2) = Ok (true, b2) ->
  sparser (patterns b2) (patterns b1).
Proof. exact (fun HA => threshold_sparser p HA b data a1 c1 a2 c2 b1 b2). Qed.
Print Assumptions C120_threshold.
(** and compression level l leaves no more than about 1 - l of the values of
    every detail subband, but at least one. *)
Theorem C120_simple p (b : buffer f32) data ne1 ne2 (level : f32) b1 : accepted p ->
  nth_element_on (fun x : f32 => is_nan x = false) ne1 -> nth_element_on (fun x : f32 => is_nan x = false) ne2 ->
  is_finite level = true -> (0 <= B2R level <= 1)%R -> reachable p b ->
  Z.of_nat (level_rows p 0) * Z.of_nat (level_cols p 0) < 2 ^ 32 ->
  1 <= signum p -> Z.of_nat (length data) = signum p -> Forall (shaped p) data ->
  Forall all_finite data -> Forall (fun m => padded_energy p (values m) <= 2 ^ 220)%R data ->
  decompose b data (simple_denoiser ne1 ne2 level) = Ok (true, b1) ->
  forall c ch s i d, nth_error (bdec (patterns b1)) c = Some ch -> (s < nsteps p)%nat -> (i < bands p)%nat ->
    nth_error ch (s * bands p + i) = Some d ->
    let N := (rows d * cols d)%nat in
    exists drop, (Rabs (INR drop - INR N * B2R level) <= 1 + INR N * B2R level / 2 ^ 22 + / 2 ^ 148)%R /\
      (length (nonzero_values d) <= N - Nat.min drop (N - 1))%nat.
Proof. exact (fun HA => simple_counts p HA b data ne1 ne2 level b1). Qed.
Print Assumptions C120_simple.

(** C120: a compressed blob is not always smaller than an uncompressed one: of
    a buffer without zeros whose values fpzip cannot compress it is larger, by
    52 bytes or more for every subband. *)
Theorem C120_incompressible cd b sf blob0 blob :
  storable b -> indexable b -> no_empty_subband b -> bdec b <> [] -> 1 <= sf -> padding_16 cd ->
  Forall (fun m => Forall (fun x => is_zero x = false) (elts m)) (concat (bdec b)) ->
  Forall (fun m => forall v, fpz_write cd (33 - Z.min 31 sf) (nonzero_values m) = Ok v ->
     (4 * length (nonzero_values m) <= length v)%nat) (concat (bdec b)) ->
  serialize cd b 0 = Ok (Some blob0) -> serialize cd b sf = Ok (Some blob) ->
  (length blob0 + 52 * length (concat (bdec b)) <= length blob)%nat.
Proof. exact (blob_larger cd b sf blob0 blob). Qed.
Print Assumptions C120_incompressible.

(** *** cases: [plain_codec] meets every hypothesis on the codec *)
Lemma plain_written prec l v : fpz_write plain_codec prec l = Ok v -> length v = (4 * length l)%nat.
Proof.
  intros H. assert (E : v = concat (map (fun x => le 4 (wbits (clear_low prec x))) l))
    by (change (Ok (concat (map (fun x => le 4 (wbits (clear_low prec x))) l)) = Ok v) in H; congruence).
  rewrite E. clear. induction l as [|x l IH]; [reflexivity|]. cbn [map concat]. rewrite app_length, (le_length 4), IH. cbn [length]. lia.
Qed.
Example C120_codec prec : padding_16 plain_codec /\ in_its_buffer plain_codec prec /\ no_more_for_less plain_codec prec /\
  codec_total plain_codec prec.
Proof.
  split; [intros e; reflexivity|]. split; [|split].
  - intros l v H. rewrite (plain_written _ _ _ H). lia.
  - intros l l' v v' P H H'. rewrite (plain_written _ _ _ H), (plain_written _ _ _ H'). pose proof (part_length _ _ P). lia.
  - apply plain_total.
Qed.
(** two subbands of four values, two and one of them not zero: 38 bytes of
    header, 80 + 1 + 2 + 8 and 80 + 1 + 1 + 4 *)
Definition C120_buffer : buffer word := Buffer (Params [8] 1 1 1)
  [[mcolvec (map mkword [0; 2147483648; 5; 2139095041]); mcolvec (map mkword [0; 0; 0; 9])]].
Example C120_case : storable C120_buffer /\ indexable C120_buffer /\ no_empty_subband C120_buffer /\ bdec C120_buffer <> [] /\
  option_map (@length Z) (match serialize plain_codec C120_buffer 1 with Ok o => o | _ => None end) = Some (38 + 91 + 86)%nat.
Proof.
  split; [split; [apply ex_accepted; lia|split; [reflexivity|]]|split; [|split; [|split]]].
  - intros ch [<-|[]]; (split; [reflexivity|]); unfold fits64, mwf; repeat constructor.
  - intros ch m [<-|[]] [<-|[<-|[]]]; reflexivity.
  - intros ch m [<-|[]] [<-|[<-|[]]]; split; discriminate.
  - discriminate.
  - vm_compute. reflexivity.
Qed.
(** the same with one value less is shorter *)
Definition C120_less : buffer word := Buffer (Params [8] 1 1 1)
  [[mcolvec (map mkword [0; 2147483648; 0; 2139095041]); mcolvec (map mkword [0; 0; 0; 9])]].
Example C120_less_case : sparser C120_less C120_buffer /\
  option_map (@length Z) (match serialize plain_codec C120_less 1 with Ok o => o | _ => None end) = Some (38 + 86 + 86)%nat.
Proof.
  split; [|vm_compute; reflexivity]. split; [reflexivity|].
  repeat match goal with
  | |- Forall2 _ _ _ => constructor
  | |- zeroed _ _ => split; [reflexivity|split; [reflexivity|cbn]]
  | |- _ \/ _ => first [left; reflexivity | right; reflexivity]
  end.
Qed.
(** a full buffer that gets larger: 94 bytes uncompressed, 232 compressed *)
Definition C120_full : buffer word := Buffer (Params [8] 1 1 1)
  [[mcolvec (map mkword [1; 2; 5; 2139095041]); mcolvec (map mkword [4; 7; 3; 9])]].
Theorem C120_never_larger_refuted : storable C120_full /\ exists blob0 blob,
  serialize plain_codec C120_full 0 = Ok (Some blob0) /\ serialize plain_codec C120_full 1 = Ok (Some blob) /\
  (length blob0 < length blob)%nat.
Proof.
  split.
  - split; [apply ex_accepted; lia|split; [reflexivity|]].
    intros ch [<-|[]]; (split; [reflexivity|]); unfold fits64, mwf; repeat constructor.
  - eexists. eexists. split; [vm_compute; reflexivity|]. split; [vm_compute; reflexivity|]. vm_compute. lia.
Qed.
Print Assumptions C120_never_larger_refuted.
