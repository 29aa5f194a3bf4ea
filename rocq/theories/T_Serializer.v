(** * T_Serializer: properties C21-C27, C39, C58, C59.
    [cd] is any pair of external codecs, [legacy] any decoder of compressed
    version 2 blobs. *)
Require Import List Bool Arith ZArith Lia Sorting.Sorted.
Require Import Verif.M_Base Verif.M_Params Verif.M_Buffer Verif.M_View Verif.M_Denoise Verif.M_Archive Verif.M_Serializer
  Verif.S_Params Verif.S_Buffer Verif.S_Serializer Verif.P_Api Verif.P_Serializer Verif.P_Blob.
Import ListNotations.
Open Scope Z_scope.
Implicit Types (cd : codec) (legacy : buffer word -> list Z -> res (option (buffer word))).

(** C21: uncompressed blobs are read back bit for bit; bytes after them are
    ignored. *)
Theorem C21_round_trip cd legacy b : storable b ->
  exists blob, serialize cd b 0 = Ok (Some blob) /\
    forall extra, parse cd legacy (blob ++ extra) = Ok (Some b).
Proof. exact (uncompressed cd legacy b). Qed.
Print Assumptions C21_round_trip.

(** every reachable buffer (whatever the arithmetic) is storable *)
Theorem C21_reachable_storable (A : Arith word) p b :
  accepted p -> Forall (fun n => 1 <= n) (shape p) -> @reachable word A p b ->
  Z.of_nat (level_rows p 0) * Z.of_nat (level_cols p 0) < 2 ^ 64 -> storable b /\ bpar b = p.
Proof. exact (reachable_storable p b). Qed.
Print Assumptions C21_reachable_storable.
(** a NaN with a payload, -0 and an infinity in one channel, nothing in the other *)
Example C21_case : storable (Buffer ex_p
  [[mcolvec (map mkword [2143289345; 2147483648; 2139095040; 1]); mcolvec (map mkword [1; 2; 3; 4])]; [mempty; mempty]]).
Proof.
  split; [apply ex_accepted; lia|]. split; [reflexivity|].
  intros ch [<-|[<-|[]]]; (split; [reflexivity|]); unfold fits64, mwf; repeat constructor.
Qed.

(** C22: equal blobs (even if followed by other bytes) come from equal buffers *)
Theorem C22_injective cd b1 b2 blob1 blob2 more1 more2 :
  storable b1 -> storable b2 ->
  serialize cd b1 0 = Ok (Some blob1) -> serialize cd b2 0 = Ok (Some blob2) ->
  blob1 ++ more1 = blob2 ++ more2 -> b1 = b2.
Proof. exact (serialize_prefix_free cd (fun _ _ => UB) b1 b2 blob1 blob2 more1 more2). Qed.
Print Assumptions C22_injective.
Example C22_case : storable short_buffer /\ exists blob, serialize plain_codec short_buffer 0 = Ok (Some blob).
Proof. split; [exact short_storable|]. eexists. vm_compute. reflexivity. Qed.

(** C23: with sf_compression 1 and a float codec that is lossless at its full
    precision, everything but the sign of zeros is read back. *)
Theorem C23_lossless cd legacy b :
  storable b -> indexable b -> int_sides b -> no_empty_subband b ->
  codec_total cd 32 -> codec_faithful cd 32 (fun x => x) ->
  exists blob, serialize cd b 1 = Ok (Some blob) /\ Forall is_byte blob /\
    forall extra, parse cd legacy (blob ++ extra)
      = Ok (Some (map_buffer (fun x => if is_zero x then word_zero else x) b)).
Proof.
  intros H1 H2 H3 H4 H5 H6.
  destruct (compressed cd legacy b 1 (fun x => x) H1 ltac:(lia) H2 H4 H6) as [R E].
  destruct (E H3 H5) as (blob & E1). exists blob. split; [exact E1|]. exact (R blob E1).
Qed.
Print Assumptions C23_lossless.
(** such a codec exists *)
Example C23_codec : codec_total plain_codec 32 /\ codec_faithful plain_codec 32 (fun x => x).
Proof.
  split; [apply plain_total|]. destruct (plain_faithful 32 ltac:(lia)) as [H1 H2]. split; [|exact H2].
  intros l bytes Hl Hb. destruct (H1 l bytes Hl Hb) as (A & B & C). repeat split; auto.
  rewrite C. f_equal. apply map_ext. exact clear_low_32.
Qed.
Definition C23_buffer : buffer word := Buffer (Params [8] 1 1 1)
  [[mcolvec (map mkword [0; 2147483648; 5; 2139095041]); mcolvec (map mkword [0; 7; 0; 9])]].
Example C23_case : storable C23_buffer /\ indexable C23_buffer /\ int_sides C23_buffer /\ no_empty_subband C23_buffer.
Proof.
  split; [split; [apply ex_accepted; lia|split; [reflexivity|]]|split; [|split]].
  - intros ch [<-|[]]; (split; [reflexivity|]); unfold fits64, mwf; repeat constructor.
  - intros ch m [<-|[]] [<-|[<-|[]]]; reflexivity.
  - intros ch m [<-|[]] [<-|[<-|[]]]; split; reflexivity.
  - intros ch m [<-|[]] [<-|[<-|[]]]; split; discriminate.
Qed.

(** C24: with any sf_compression and a float codec that changes values by [q],
    shapes are kept, zeros stay zeros (with sign +) and other values become
    their image under [q]. *)
Theorem C24_lossy cd legacy b sf q :
  storable b -> 1 <= sf -> indexable b -> no_empty_subband b ->
  codec_faithful cd (33 - Z.min 31 sf) q ->
  (forall blob, serialize cd b sf = Ok (Some blob) ->
     Forall is_byte blob /\
     forall extra, parse cd legacy (blob ++ extra)
       = Ok (Some (map_buffer (fun x => if is_zero x then word_zero else q x) b))) /\
  (int_sides b -> codec_total cd (33 - Z.min 31 sf) -> exists blob, serialize cd b sf = Ok (Some blob)).
Proof. exact (compressed cd legacy b sf q). Qed.
Print Assumptions C24_lossy.
Example C24_codec : codec_faithful plain_codec (33 - Z.min 31 15) (clear_low 18).
Proof. apply plain_faithful. lia. Qed.

(** C25: Serialize with compression succeeds on a reachable buffer exactly if
    all its channels are decomposed or none is. *)
Theorem C25_when (A : Arith word) cd p b sf :
  accepted p -> Forall (fun n => 1 <= n) (shape p) -> @reachable word A p b ->
  Z.of_nat (level_rows p 0) < 2 ^ 31 -> Z.of_nat (level_cols p 0) < 2 ^ 31 ->
  1 <= sf -> codec_total cd (33 - Z.min 31 sf) ->
  (Forall (untouched p) (bdec b) \/ Forall (has_layout p) (bdec b) ->
     exists blob, serialize cd b sf = Ok (Some blob)) /\
  (~ (Forall (untouched p) (bdec b) \/ Forall (has_layout p) (bdec b)) -> serialize cd b sf = Ok None).
Proof. exact (serialize_reachable cd p b sf). Qed.
Print Assumptions C25_when.
(** a buffer with one of two channels decomposed through a view is refused *)
Theorem C25_always_succeeds_refuted : exists b, @reachable word word_arith (Params [8] 2 1 1) b /\
  forall cd sf, 1 <= sf -> codec_total cd (33 - Z.min 31 sf) -> serialize cd b sf = Ok None.
Proof. exact mixed_refused. Qed.
Print Assumptions C25_always_succeeds_refuted.

(** C26: the first non-blank byte decides; other versions than 2 and 3 give
    no buffer, version 3 is what Serialize writes, version 2 (uncompressed)
    is still read. *)
Theorem C26_other_versions cd legacy blanks v rest :
  Forall blank blanks -> ~ blank v -> v <> 2 -> v <> 3 ->
  parse cd legacy (blanks ++ v :: rest) = Ok None.
Proof. exact (parse_version cd legacy blanks v rest). Qed.
Print Assumptions C26_other_versions.
Example C26_case : Forall blank [32; 10] /\ ~ blank 4.
Proof. split; [repeat constructor; unfold blank; lia|unfold blank; lia]. Qed.
Theorem C26_version_written cd b sf blob : storable b -> serialize cd b sf = Ok (Some blob) ->
  exists rest, blob = 3 :: rest.
Proof.
  intros HS H. destruct (serialize_inv cd b sf blob HS H) as (subs & _ & ->). eexists. reflexivity.
Qed.
Print Assumptions C26_version_written.
Theorem C26_version_2 cd legacy b extra : storable b ->
  parse cd legacy (blob_v2 b ++ extra) = Ok (Some b).
Proof. exact (parse_v2_storable cd legacy b extra). Qed.
Print Assumptions C26_version_2.
(** no byte that is not blank: the version is read uninitialised *)
Theorem C26_no_version cd legacy blanks : Forall blank blanks -> parse cd legacy blanks = UB.
Proof. exact (parse_blank cd legacy blanks). Qed.
Print Assumptions C26_no_version.

(** C27: no proper prefix of a blob, compressed or not, yields a buffer: cut
    after the header it is refused, cut inside the header uninitialised
    variables are used. *)
Theorem C27_truncated cd legacy b sf q blob pre suf :
  storable b -> 0 <= sf ->
  (sf <> 0 -> indexable b /\ codec_faithful cd (33 - Z.min 31 sf) q) ->
  serialize cd b sf = Ok (Some blob) -> blob = pre ++ suf -> suf <> [] ->
  ((header_length (bpar b) <= length pre)%nat -> parse cd legacy pre = Ok None) /\
  ((length pre < header_length (bpar b))%nat -> parse cd legacy pre = UB).
Proof.
  intros HS Hsf HC. apply (parse_truncated cd legacy b sf q blob pre suf HS Hsf).
  - unfold body_sf. destruct (is_empty b); [congruence|]. intros Hn. apply HC. lia.
  - unfold body_sf. destruct (is_empty b); [congruence|]. intros Hn. apply HC. lia.
Qed.
Print Assumptions C27_truncated.
Example C27_case : exists blob pre suf, serialize plain_codec C23_buffer 1 = Ok (Some blob) /\
  blob = pre ++ suf /\ suf <> [] /\ (header_length (bpar C23_buffer) <= length pre)%nat.
Proof.
  eexists. exists (firstn 60 (match serialize plain_codec C23_buffer 1 with Ok (Some x) => x | _ => [] end)).
  exists (skipn 60 (match serialize plain_codec C23_buffer 1 with Ok (Some x) => x | _ => [] end)).
  split; [vm_compute; reflexivity|]. split; [vm_compute; reflexivity|].
  split; [vm_compute; discriminate|]. vm_compute. lia.
Qed.

(** C39: sparse form of a matrix of at most 2^32 elements *)
Theorem C39_csr m : mwf m -> (rows m <> 0 /\ cols m <> 0)%nat ->
  Z.of_nat (rows m) < 2 ^ 31 -> Z.of_nat (cols m) < 2 ^ 31 ->
  Z.of_nat (rows m) * Z.of_nat (cols m) <= 2 ^ 32 ->
  exists csr, convert_to_csr m = Ok csr /\ StronglySorted Z.lt (map fst csr) /\
    Forall (fun e => is_zero (snd e) = false) csr /\
    convert_from_csr (map fst csr) (map snd csr) (Z.of_nat (rows m)) (Z.of_nat (cols m))
    = Ok (map_mat (fun x => if is_zero x then word_zero else x) m).
Proof. exact (csr_round_trip m). Qed.
Print Assumptions C39_csr.
Example C39_case : let m := Mat 2 3 (map mkword [0; 1; 2; 2147483648; 0; 3]) in
  mwf m /\ (rows m <> 0 /\ cols m <> 0)%nat.
Proof. repeat split; discriminate. Qed.
(** a non-zero element at a position of 2^32 or more is lost *)
Theorem C39_beyond_32_bits m k x : mwf m -> Z.of_nat (rows m) < 2 ^ 31 -> Z.of_nat (cols m) < 2 ^ 31 ->
  2 ^ 32 <= Z.of_nat k -> nth_error (elts m) k = Some x -> is_zero x = false ->
  exists csr, convert_to_csr m = Ok csr /\
    convert_from_csr (map fst csr) (map snd csr) (Z.of_nat (rows m)) (Z.of_nat (cols m))
    <> Ok (map_mat (fun x => if is_zero x then word_zero else x) m).
Proof. exact (csr_wraps m k x). Qed.
Print Assumptions C39_beyond_32_bits.
Example C39_case_big : exists (m : mat word) k x, mwf m /\ Z.of_nat (rows m) < 2 ^ 31 /\ Z.of_nat (cols m) < 2 ^ 31 /\
  2 ^ 32 <= Z.of_nat k /\ nth_error (elts m) k = Some x /\ is_zero x = false.
Proof.
  assert (G : forall r c k : nat, Z.of_nat r < 2 ^ 31 -> Z.of_nat c < 2 ^ 31 -> 2 ^ 32 <= Z.of_nat k -> (k < r * c)%nat ->
    exists (m : mat word) k x, mwf m /\ Z.of_nat (rows m) < 2 ^ 31 /\ Z.of_nat (cols m) < 2 ^ 31 /\
      2 ^ 32 <= Z.of_nat k /\ nth_error (elts m) k = Some x /\ is_zero x = false).
  { intros r c k H1 H2 H3 H4. exists (Mat r c (repeat (mkword 1) (r * c))), k, (mkword 1).
    split; [apply repeat_length|]. repeat split; auto. cbn [elts].
    rewrite (nth_error_nth' _ (mkword 1)) by (rewrite repeat_length; auto). rewrite nth_repeat. reflexivity. }
  apply (G (Z.to_nat 65537) (Z.to_nat 65537) (Z.to_nat (2 ^ 32))).
  - rewrite Z2Nat.id; lia.
  - rewrite Z2Nat.id; lia.
  - rewrite Z2Nat.id; lia.
  - rewrite <- Z2Nat.inj_mul by lia. apply Z2Nat.inj_lt; lia.
Qed.

(** C58: a buffer Parse returns can be composed if its subbands have the
    sizes that belong to the parameters... *)
Theorem C58_layout_composable cd legacy (A : Arith word) rest b sf : Forall is_byte rest ->
  parse cd legacy (3 :: rest) = Ok (Some b) -> accepted (bpar b) ->
  Forall (has_layout (bpar b)) (bdec b) -> 0 <= sf <= steps (bpar b) ->
  exists out, compose b sf = Ok (true, out) /\ Z.of_nat (length out) = signum (bpar b).
Proof.
  intros HB H HA HL Hsf. destruct (parse_consistent cd legacy rest b HB H) as (_ & HN & _).
  rewrite Forall_forall in HL. eexists. split; [apply (compose_ok (bpar b)); auto|].
  rewrite map_length. exact HN.
Qed.
Print Assumptions C58_layout_composable.
(** ... which Parse does not check: some bytes it accepts make Compose access
    memory out of range. *)
Theorem C58_parsed_is_composable_refuted cd legacy (A : Arith word) :
  exists blob b, Forall is_byte blob /\ parse cd legacy blob = Ok (Some b) /\ compose b 0 = UB.
Proof.
  destruct (uncompressed cd legacy short_buffer short_storable) as (blob & E & H).
  exists blob, short_buffer. split; [|split].
  - eapply (blob_bytes cd short_buffer 0); [exact short_storable|lia| | |exact E]; intros K; exfalso; apply K; reflexivity.
  - rewrite <- (app_nil_r blob). apply H.
  - apply short_compose.
Qed.
Print Assumptions C58_parsed_is_composable_refuted.

(** C59: every buffer Parse makes of version 3 bytes has parameters the
    constructor accepts, the declared number of channels and subbands and
    well-formed subbands... *)
Theorem C59_parse_consistent cd legacy rest b : Forall is_byte rest ->
  parse cd legacy (3 :: rest) = Ok (Some b) ->
  (exists b0 : buffer word, new_buffer (bpar b) = Ok b0) /\
  Z.of_nat (length (bdec b)) = signum (bpar b) /\
  forall ch, In ch (bdec b) -> length ch = subband_count (bpar b) /\ Forall mwf ch.
Proof. exact (parse_consistent cd legacy rest b). Qed.
Print Assumptions C59_parse_consistent.
(** ... but not of version 2 bytes, where one channel is declared, none is
    present and Compose is out of range; *)
Theorem C59_version_2_consistent_refuted cd legacy (A : Arith word) :
  exists blob b, parse cd legacy blob = Ok (Some b) /\ signum (bpar b) = 1 /\ bdec b = [] /\ compose b 0 = UB.
Proof.
  exists (blob_v2 no_channel), no_channel. split; [apply no_channel_parsed|].
  split; [reflexivity|]. split; [reflexivity|]. apply no_channel_compose.
Qed.
Print Assumptions C59_version_2_consistent_refuted.
(** ... and Parse itself leaves defined behaviour on some byte strings with a
    complete header: a matrix whose number of elements overflows, fewer
    index bytes than announced. *)
Theorem C59_parse_safe_refuted cd legacy : exists p,
  (exists rest, Forall is_byte rest /\
     parse cd legacy ([3] ++ put_params p ++ [0] ++ rest) = UB) /\
  (exists rest, Forall is_byte rest /\
     parse cd legacy ([3] ++ put_params p ++ [1] ++ rest) = UB).
Proof.
  exists (Params [8] 1 1 1). split.
  - exists ([1; 1; 3; 4] ++ put_u64 (2 ^ 32) ++ put_u64 (2 ^ 32) ++ put_u64 0).
    split; [repeat constructor; unfold is_byte; vm_compute; intuition congruence|exact (evil_size_ub cd legacy)].
  - exists (put_u64 1 ++ put_u64 4 ++ put_u64 1 ++ put_bytes [] ++ put_bytes []).
    split; [repeat constructor; unfold is_byte; vm_compute; intuition congruence|exact (evil_index_ub cd legacy)].
Qed.
Print Assumptions C59_parse_safe_refuted.
