(** * T_Canon: property C125, which bytes Parse takes without compression.
    [cd] is any pair of external codecs, [legacy] any decoder of compressed
    version 2 blobs. *)
Require Import List Bool Arith ZArith Lia.
Require Import Verif.M_Base Verif.M_Params Verif.M_Buffer Verif.M_Archive Verif.M_Serializer.
Require Import Verif.S_Params Verif.S_Buffer Verif.S_Serializer Verif.S_Damage Verif.S_Canon Verif.P_Blob Verif.P_Canon.
Import ListNotations.
Open Scope Z_scope.
Implicit Types (cd : codec) (legacy : buffer word -> list Z -> res (option (buffer word))).

(** After a version 3 header without compression Parse gives the buffer b for
    exactly the byte strings that hold the subbands of b one after the other,
    whatever follows. *)
Theorem C125_parse_exactly cd legacy p hd body b :
  accepted p -> Forall is_byte hd -> parameter_bytes p hd -> Forall is_byte body ->
  (parse cd legacy ([3] ++ hd ++ [0] ++ body) = Ok (Some b) <-> exists rest, holds stored_loose p b body rest).
Proof. exact (fun HA HB HP => parse_exactly cd legacy p HA hd HB HP body b). Qed.
Print Assumptions C125_parse_exactly.

(** Such a buffer can be stored again.  The new blob holds the subbands in
    their one exact form, is as long as what was read and is read as the same
    buffer. *)
Theorem C125_stored_again cd legacy p hd body b rest :
  accepted p -> Forall is_byte hd -> parameter_bytes p hd -> Forall is_byte body -> holds stored_loose p b body rest ->
  exists body', serialize cd b 0 = Ok (Some ([3] ++ hd ++ [0] ++ body')) /\ holds stored_exact p b body' [] /\
    parse cd legacy ([3] ++ hd ++ [0] ++ body') = Ok (Some b) /\ length body = length (body' ++ rest).
Proof. exact (fun HA HB HP => holds_resaved cd legacy p HA hd HB HP b body rest). Qed.
Print Assumptions C125_stored_again.

(** If every count is right, storing again gives the very bytes that were
    read: there is one blob for each buffer. *)
Theorem C125_one_blob cd p hd body b rest :
  accepted p -> Forall is_byte hd -> parameter_bytes p hd -> Forall is_byte body -> holds stored_exact p b body rest ->
  exists written, body = written ++ rest /\ serialize cd b 0 = Ok (Some ([3] ++ hd ++ [0] ++ written)).
Proof. exact (fun HA HB HP => canonical cd p hd b body rest HB HP HA). Qed.
Print Assumptions C125_one_blob.

(** 8 samples, 1 channel, one step *)
Definition m0 : mat word := mcolvec (map mkword [2143289345; 2147483648; 2139095040; 1]).
Definition m1 : mat word := mcolvec (map mkword [1; 2; 3; 4]).
Definition p8 : params := Params [8] 1 1 1.
Definition head8 : list Z := put_params p8.
Definition body8 (count : Z) : list Z :=
  put_mat m0 ++ [1; 1; 3; 4] ++ le 8 4 ++ le 8 1 ++ le 8 count ++ concat (map put_word (elts m1)).

Lemma body8_holds count : 0 <= count <= 4 -> holds (if count =? 4 then stored_exact else stored_loose) p8 (Buffer p8 [[m0; m1]]) (body8 count ++ [77]) [77].
Proof.
  intros H. split; [reflexivity|]. split; [reflexivity|]. split; [intros ch [<-|[]]; reflexivity|].
  exists [put_mat m0; [1; 1; 3; 4] ++ le 8 4 ++ le 8 1 ++ le 8 count ++ concat (map put_word (elts m1))].
  split; [unfold body8; cbn [concat]; rewrite app_nil_r; reflexivity|].
  assert (F0 : fits64 m0) by (unfold fits64, mwf; repeat split; reflexivity).
  assert (E1 : stored_with count m1 ([1; 1; 3; 4] ++ le 8 4 ++ le 8 1 ++ le 8 count ++ concat (map put_word (elts m1)))).
  { split; [reflexivity|]. split; [reflexivity|]. exists (le 8 4), (le 8 1), (le 8 count), (map put_word (elts m1)).
    split; [reflexivity|]. split; [reflexivity|]. split; [reflexivity|]. split; [reflexivity|]. split; [reflexivity|]. split; [reflexivity|].
    split.
    - assert (C : count = 0 \/ count = 1 \/ count = 2 \/ count = 3 \/ count = 4) by lia.
      destruct C as [->|[->|[->|[->| ->]]]]; reflexivity.
    - repeat constructor. }
  cbn [concat bdec app]. destruct (Z.eqb_spec count 4) as [->|N].
  - constructor; [apply exact_put; auto|]. constructor; [exact E1|constructor].
  - constructor; [apply exact_loose, exact_put; auto|]. constructor; [|constructor]. exists count. split; [cbn; lia|exact E1].
Qed.
Example C125_case : accepted p8 /\ Forall is_byte head8 /\ parameter_bytes p8 head8 /\ Forall is_byte (body8 2 ++ [77]) /\
  holds stored_loose p8 (Buffer p8 [[m0; m1]]) (body8 2 ++ [77]) [77] /\
  Forall is_byte (body8 4 ++ [77]) /\ holds stored_exact p8 (Buffer p8 [[m0; m1]]) (body8 4 ++ [77]) [77].
Proof.
  assert (A : accepted p8) by (apply ex_accepted; lia). destruct (put_params_bytes p8 (proj1 A)) as (P & B).
  split; [exact A|]. split; [exact B|]. split; [exact P|].
  split; [apply Forall_forall; intros z Hz; vm_compute in Hz; unfold is_byte; intuition lia|].
  split; [exact (body8_holds 2 ltac:(lia))|].
  split; [apply Forall_forall; intros z Hz; vm_compute in Hz; unfold is_byte; intuition lia|].
  exact (body8_holds 4 ltac:(lia)).
Qed.

(** It is not true that two different blobs give two different buffers: the
    number of elements a matrix announces is read and not used, as long as it
    is not larger than rows times columns. *)
Theorem C125_different_buffers_refuted cd legacy :
  exists blob1 blob2 b, blob1 <> blob2 /\ length blob1 = length blob2 /\
    parse cd legacy blob1 = Ok (Some b) /\ parse cd legacy blob2 = Ok (Some b).
Proof.
  destruct C125_case as (A & B & P & B2 & _ & B4 & _).
  exists ([3] ++ head8 ++ [0] ++ body8 2 ++ [77]), ([3] ++ head8 ++ [0] ++ body8 4 ++ [77]), (Buffer p8 [[m0; m1]]).
  split; [vm_compute; discriminate|]. split; [reflexivity|].
  split; (apply (C125_parse_exactly cd legacy p8 head8); [exact A|exact B|exact P|assumption|exists [77]]).
  - exact (body8_holds 2 ltac:(lia)).
  - destruct (body8_holds 4 ltac:(lia)) as (H1 & H2 & H3 & mats & H4 & H5). split; [auto|]. split; [auto|]. split; [auto|].
    exists mats. split; [auto|]. clear - H5. change (4 =? 4) with true in H5. cbv iota in H5.
    induction H5; constructor; auto. apply exact_loose; auto.
Qed.
Print Assumptions C125_different_buffers_refuted.

(** The version is the first byte that is no blank, the header begins with
    the second byte all the same.  Blanks before a 3: never a buffer. *)
Theorem C125_blank_before_3 cd legacy x blanks rest b :
  blank x -> Forall blank blanks -> Forall is_byte rest -> parse cd legacy ((x :: blanks) ++ 3 :: rest) <> Ok (Some b).
Proof. exact (fun H1 H2 H3 => blank_then3 cd legacy x blanks rest H1 H2 H3 b). Qed.
Print Assumptions C125_blank_before_3.
(** But a version 2 blob of a picture whose version byte was overwritten with
    a blank is still read, so it is not true that the version must be 2 or 3. *)
Theorem C125_version_overwritten cd legacy b x t extra :
  storable b -> length (shape (bpar b)) = 2%nat -> blank x -> blob_v2 b = 2 :: t ->
  parse cd legacy ((x :: t) ++ extra) = Ok (Some b).
Proof. exact (blank_version2 cd legacy b x t extra). Qed.
Print Assumptions C125_version_overwritten.
Theorem C125_version_byte_refuted cd legacy :
  exists blob b, hd 0 blob <> 2 /\ hd 0 blob <> 3 /\ parse cd legacy blob = Ok (Some b).
Proof.
  pose (b := Buffer (Params [2; 2] 1 1 1) [[Mat 1 1 [mkword 1]; Mat 1 1 [mkword 2]; Mat 1 1 [mkword 3]; Mat 1 1 [mkword 4]]]).
  assert (S : storable b).
  { split; [|split; [reflexivity|]].
    2: { cbn [b bdec bpar]. intros ch [<-|[]]. split; [reflexivity|]. unfold fits64, mwf. repeat constructor. }
    unfold b, accepted, params_rep, legal, u64, i32; cbn [bpar shape signum steps wtype length].
    repeat split; auto; repeat constructor; lia. }
  exists (32 :: tl (blob_v2 b)), b. split; [discriminate|]. split; [discriminate|].
  rewrite <- (app_nil_r (32 :: tl (blob_v2 b))). apply C125_version_overwritten; [exact S|reflexivity|unfold blank; lia|reflexivity].
Qed.
Print Assumptions C125_version_byte_refuted.
