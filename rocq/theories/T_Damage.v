(** * T_Damage: property C100, blobs that Serialize did not write.
    [cd] is any pair of external codecs, [legacy] any decoder of compressed
    version 2 blobs. *)
Require Import List Bool Arith ZArith Lia.
Require Import Verif.M_Base Verif.M_Params Verif.M_Buffer Verif.M_Archive Verif.M_Serializer
  Verif.S_Params Verif.S_Buffer Verif.S_Serializer Verif.S_Damage Verif.P_Archive Verif.P_Serializer Verif.P_Blob Verif.P_Damage.
Import ListNotations.
Open Scope Z_scope.
Implicit Types (cd : codec) (legacy : buffer word -> list Z -> res (option (buffer word))).

(** C100: whatever bytes follow a complete version 3 header without
    compression, Parse returns a buffer or nullptr, unless a matrix in them
    claims more elements than 64 bits can count (C59_parse_safe_refuted). *)
Theorem C100_any_bytes cd legacy p bytes rest :
  Forall is_byte bytes -> Forall is_byte rest -> parameter_bytes p bytes ->
  0 <= wtype p < 2 ^ 30 -> ~ oversized rest ->
  exists r, parse cd legacy ([3] ++ bytes ++ [0] ++ rest) = Ok r.
Proof. exact (parse_safe cd legacy p bytes rest). Qed.
Print Assumptions C100_any_bytes.

(** parameters the constructor would refuse, and impossible numbers of sides,
    give nullptr *)
Theorem C100_bad_parameters cd legacy p bytes sf rest :
  Forall is_byte bytes -> is_byte sf -> parameter_bytes p bytes -> 0 <= wtype p < 2 ^ 30 -> ~ legal p ->
  parse cd legacy ([3] ++ bytes ++ [sf] ++ rest) = Ok None.
Proof. exact (illegal_refused cd legacy p bytes sf rest). Qed.
Print Assumptions C100_bad_parameters.
Theorem C100_too_many_sides cd legacy n rest :
  Forall is_byte n -> length n = 8%nat -> 2 ^ 60 <= number n -> parse cd legacy ([3] ++ n ++ rest) = Ok None.
Proof. exact (long_shape_refused cd legacy n rest). Qed.
Print Assumptions C100_too_many_sides.

(** the size of an uncompressed blob *)
Theorem C100_size cd b blob : storable b -> serialize cd b 0 = Ok (Some blob) ->
  length blob = (header_length (bpar b) + list_sum (map matrix_bytes (concat (bdec b))))%nat.
Proof. exact (blob_length cd b blob). Qed.
Print Assumptions C100_size.

(** damage to the tag of any subband is noticed *)
Theorem C100_damaged_tag cd legacy b before m after blob pre old new post :
  storable b -> splits b before m after -> serialize cd b 0 = Ok (Some blob) ->
  blob = pre ++ old ++ post -> length pre = offset (bpar b) before -> length old = 4%nat ->
  length new = 4%nat -> new <> old -> parse cd legacy (pre ++ new ++ post) = Ok None.
Proof. exact (tag_damaged cd legacy b before m after blob pre old new post). Qed.
Print Assumptions C100_damaged_tag.

(** ... and a number of elements that became larger *)
Theorem C100_damaged_count cd legacy b before m after blob pre old new post :
  storable b -> splits b before m after -> serialize cd b 0 = Ok (Some blob) ->
  blob = pre ++ old ++ post -> length pre = (offset (bpar b) before + 20)%nat -> length old = 8%nat ->
  length new = 8%nat -> number old < number new -> parse cd legacy (pre ++ new ++ post) = Ok None.
Proof. exact (count_damaged cd legacy b before m after blob pre old new post). Qed.
Print Assumptions C100_damaged_count.

(** damage to the bytes of one value changes this value and nothing else: its
    pattern is the new bytes *)
Theorem C100_damaged_value cd legacy b before m after blob pre old new post i :
  storable b -> splits b before m after -> serialize cd b 0 = Ok (Some blob) ->
  (i < rows m * cols m)%nat -> blob = pre ++ old ++ post ->
  length pre = (offset (bpar b) before + 28 + 4 * i)%nat -> length old = 4%nat ->
  length new = 4%nat -> Forall is_byte new ->
  exists b' m' x, parse cd legacy (pre ++ new ++ post) = Ok (Some b') /\
    replaced b b' before m' after /\ changed m m' i x /\ wbits x = number new.
Proof. exact (value_damaged cd legacy b before m after blob pre old new post i). Qed.
Print Assumptions C100_damaged_value.

(** compressed blobs, first subband: a wrong tag or count of the index bytes,
    or of the value bytes after well-formed index bytes *)
Theorem C100_compressed_tags cd legacy p bytes sf nz r c tag n k more :
  Forall is_byte bytes -> is_byte sf -> sf <> 0 -> parameter_bytes p bytes -> 0 <= wtype p < 2 ^ 30 ->
  1 <= signum p -> length nz = 8%nat -> length r = 8%nat -> length c = 8%nat ->
  length tag = 4%nat -> length n = 8%nat -> length k = 8%nat ->
  (tag <> [1; 0; 2; 1] \/ number n < number k) ->
  (parse cd legacy ([3] ++ bytes ++ [sf] ++ nz ++ r ++ c ++ tag ++ n ++ k ++ more) = Ok None) /\
  (forall indexes, Forall is_byte indexes -> Z.of_nat (length indexes) < 2 ^ 64 ->
   parse cd legacy ([3] ++ bytes ++ [sf] ++ nz ++ r ++ c ++ put_bytes indexes ++ tag ++ n ++ k ++ more) = Ok None).
Proof. exact (compressed_tags cd legacy p bytes sf nz r c tag n k more). Qed.
Print Assumptions C100_compressed_tags.

(** uncompressed version 2 blobs: a wrong tag or count of the channels *)
Theorem C100_version_2_tag cd legacy p bytes tag n k more :
  Forall is_byte bytes -> parameter_bytes p bytes -> 0 <= wtype p < 2 ^ 30 -> Z.of_nat (length (shape p)) < 2 ^ 60 ->
  length tag = 4%nat -> length n = 8%nat -> length k = 8%nat ->
  (tag <> [1; 0; 0; 24] \/ number n < number k) ->
  parse cd legacy ([2] ++ bytes ++ [0] ++ tag ++ n ++ k ++ more) = Ok None.
Proof. exact (version2_tag cd legacy p bytes tag n k more). Qed.
Print Assumptions C100_version_2_tag.

(** a buffer of two channels, the first without data; byte 138 begins the tag of
    the last subband, bytes 170 to 173 hold its second value *)
Definition dam_buffer : buffer word := Buffer ex_p
  [[mempty; mempty]; [mcolvec (map mkword [1; 2; 3; 4]); mcolvec (map mkword [5; 6; 7; 8])]].
Definition dam_m : mat word := mcolvec (map mkword [5; 6; 7; 8]).
Example dam_storable : storable dam_buffer.
Proof.
  split; [apply ex_accepted; lia|]. split; [reflexivity|].
  intros ch [<-|[<-|[]]]; (split; [reflexivity|]); unfold fits64, mwf; repeat constructor.
Qed.
Example dam_splits : splits dam_buffer [mempty; mempty; mcolvec (map mkword [1; 2; 3; 4])] dam_m [].
Proof. reflexivity. Qed.
Example dam_offset : offset ex_p [mempty; mempty; mcolvec (map mkword [1; 2; 3; 4])] = 138%nat.
Proof. reflexivity. Qed.
Example dam_tag : exists blob pre post,
  serialize plain_codec dam_buffer 0 = Ok (Some blob) /\ blob = pre ++ [1; 1; 3; 4] ++ post /\ length pre = 138%nat.
Proof.
  eexists. eexists. eexists. split; [vm_compute; reflexivity|]. split.
  - match goal with |- ?l = _ => transitivity (firstn 138 l ++ [1; 1; 3; 4] ++ skipn 142 l); [vm_compute; reflexivity|reflexivity] end.
  - reflexivity.
Qed.
Example dam_value : exists blob pre post,
  serialize plain_codec dam_buffer 0 = Ok (Some blob) /\ blob = pre ++ [6; 0; 0; 0] ++ post /\ length pre = 170%nat /\
  parse plain_codec (fun _ _ => Throw) (pre ++ [6; 1; 0; 0] ++ post) = Ok (Some (Buffer ex_p
    [[mempty; mempty]; [mcolvec (map mkword [1; 2; 3; 4]); mcolvec (map mkword [5; 262; 7; 8])]])).
Proof.
  eexists. eexists. eexists. split; [vm_compute; reflexivity|]. split; [|split].
  - match goal with |- ?l = _ => transitivity (firstn 170 l ++ [6; 0; 0; 0] ++ skipn 174 l); [vm_compute; reflexivity|reflexivity] end.
  - reflexivity.
  - vm_compute. reflexivity.
Qed.
(** the header of a 640 x 480 picture, legal or not; bytes that are not oversized *)
Example dam_parameters t : 0 <= t < 256 -> parameter_bytes (Params [640; 480] 3 4 t)
  ([2; 0; 0; 0; 0; 0; 0; 0] ++ [128; 2; 0; 0; 0; 0; 0; 0] ++ [224; 1; 0; 0; 0; 0; 0; 0] ++
   [3; 0; 0; 0; 0; 0; 0; 0] ++ [4; 0; 0; 0; 0; 0; 0; 0] ++ [t; 0; 0; 0]).
Proof.
  intros Ht. exists [2; 0; 0; 0; 0; 0; 0; 0], [[128; 2; 0; 0; 0; 0; 0; 0]; [224; 1; 0; 0; 0; 0; 0; 0]],
    [3; 0; 0; 0; 0; 0; 0; 0], [4; 0; 0; 0; 0; 0; 0; 0], [t; 0; 0; 0].
  cbn [shape signum steps wtype length number fold_right]. rewrite Z.mod_small by lia.
  repeat split; try lia. repeat constructor.
Qed.
Example dam_legal : legal (Params [640; 480] 3 4 3) /\ ~ legal (Params [640; 480] 3 4 200).
Proof.
  unfold legal; cbn [shape signum steps wtype length Z.eqb]. split.
  - split; [auto|]. split; repeat constructor; lia.
  - intros (_ & _ & H). inversion H. lia.
Qed.
Example dam_not_oversized : ~ oversized [1; 1; 3; 4; 0; 0; 0].
Proof.
  intros (pre & r & c & post & E & Hr & Hc & _). apply (f_equal (@length Z)) in E.
  rewrite !app_length in E. cbn [length] in E. lia.
Qed.
