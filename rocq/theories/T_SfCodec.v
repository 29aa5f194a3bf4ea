(** * T_SfCodec: the legacy compressor (sf_compressor.cc) as a whole *)
Require Import List ZArith Bool Reals Lia ZifyBool.
Import ListNotations.
From Verif Require Import M_Base P_Base M_Archive P_Archive M_Sf M_SfCodec S_SfCodec S_SfWide P_SfCodec P_SfRound P_SfSmall P_SfValue P_SfCases P_SfWide.
Open Scope Z_scope.

(** ** C65 The round trip of matrices of at most 2^15 elements *)
Theorem C65_round_trip cap cap' o :
  sparse o -> o_rows o * o_cols o <= 2 ^ 15 -> (4 * (74 + 3 * length (o_values o)) <= cap)%nat ->
  exists blob, compress cap o = Ok (Some blob) /\ (length blob <= 4 * (74 + 3 * length (o_values o)))%nat /\
    Forall is_byte blob /\
    ((length blob <= cap')%nat -> (length (o_values o) <= cap')%nat ->
     exists im, decompress (new_impl cap') blob = Ok (Some (read_back o), im)).
Proof. exact (small_round_trip cap cap' o). Qed.

Definition ex_origin : origin :=
  Origin 7 true 4 4 [1; 3; 7; 8] (map mkword [1067030938; 1065353216; 3225000000; 1072693248]).
Example C65_applies : sparse ex_origin /\ o_rows ex_origin * o_cols ex_origin <= 2 ^ 15.
Proof.
  split; [|cbn; lia]. constructor; cbn; auto; try lia; try discriminate.
Qed.
Example C65_value : exists blob im, compress 400 ex_origin = Ok (Some blob) /\ length blob = 11%nat /\
  decompress (new_impl 11) blob = Ok (Some (read_back ex_origin), im).
Proof.
  destruct (C65_round_trip 400 11 ex_origin) as (blob & E & _ & _ & D); try apply C65_applies; [cbn; lia|].
  assert (L : length blob = 11%nat).
  { assert (X : match compress 400 ex_origin with Ok (Some b) => length b | _ => O end = 11%nat) by (vm_compute; reflexivity).
    rewrite E in X. exact X. }
  destruct (D ltac:(lia) ltac:(cbn; lia)) as (im & D'). eauto.
Qed.
Print Assumptions C65_round_trip.

(** ** C66 Which value is read for a value *)
Theorem C66_relative_error fl w : 7 <= fl <= 23 -> normal w -> normal (kept fl w) ->
  (Rabs (float_value (kept fl w) - float_value w) <= Rabs (float_value w) / 2 ^ Z.to_nat (fl + 1))%R.
Proof. exact (kept_close fl w). Qed.
Theorem C66_full_precision w : normal w -> kept 23 w = w.
Proof. exact (kept_exact w). Qed.

(** overflow: only from the largest finite numbers *)
Theorem C66_stays_normal fl w : 7 <= fl <= 23 -> normal w -> wbits w mod 2 ^ 31 < 255 * 2 ^ 23 - 2 ^ 15 -> normal (kept fl w).
Proof. exact (kept_normal fl w). Qed.

Example C66_applies : normal (mkword 1067030938) /\ normal (kept 7 (mkword 1067030938)) /\
  wbits (kept 7 (mkword 1067030938)) = 1067057152.
Proof. unfold normal. vm_compute. repeat split; discriminate. Qed.
Print Assumptions C66_relative_error.
Print Assumptions C66_full_precision.
Print Assumptions C66_stays_normal.

(** numbers below the smallest normal number are not kept, at any precision *)
Theorem C66_subnormal_refuted : exists w, is_zero w = false /\
  forall cap cap', (400 <= cap)%nat -> (400 <= cap')%nat ->
  exists blob im, compress cap (Origin 23 true 1 2 [1] [w]) = Ok (Some blob) /\
    decompress (new_impl cap') blob = Ok (Some (Origin 23 true 1 2 [1] [word_zero]), im).
Proof.
  exists (mkword 8388607). split; [reflexivity|]. intros cap cap' H1 H2.
  set (o := Origin 23 true 1 2 [1] [mkword 8388607]).
  assert (Hs : sparse o) by (constructor; cbn; auto; try lia; try discriminate; repeat (split || constructor); auto; try lia).
  destruct (C65_round_trip cap cap' o Hs ltac:(cbn; lia) ltac:(cbn; lia)) as (blob & E & L & _ & D).
  cbn [o o_values length Nat.mul Nat.add] in L.
  destruct (D ltac:(lia) ltac:(cbn; lia)) as (im & D'). exists blob, im. split; [exact E|exact D'].
Qed.
Print Assumptions C66_subnormal_refuted.

(** ** C67 Matrices of any size *)

(** The round trip holds whenever the two choices of code lengths use up all
    codes, which the program means to ensure.  What is missing for every size
    is false, see the two refutations. *)
Theorem C67_round_trip_partial cap cap' o tl used :
  sparse o -> (4 * (74 + 3 * length (o_values o)) <= cap)%nat -> (length (o_values o) <= cap')%nat ->
  timeline (o_frag o) None 127 0 (o_indexes o) (o_values o) = Ok (tl, used) ->
  usable code_lens last0 (map e_exp tl) -> usable code_lens last1 (map e_zeros tl) ->
  exists blob, compress cap o = Ok (Some blob) /\
    ((length blob <= cap')%nat -> exists im, decompress (new_impl cap') blob = Ok (Some (read_back o), im)).
Proof.
  intros Hs Hc Hc' E U0 U1.
  destruct (codec_ok code_lens cap cap' o tl used Hs ltac:(lia) Hc' Hc E U0 U1) as (blob & C1 & _ & _ & C4).
  exists blob. split; [exact C1|]. intros H. destruct (C4 H) as (im & D). exists im. rewrite D.
  unfold read_back. rewrite (decoded_kept o Hs). reflexivity.
Qed.
Print Assumptions C67_round_trip_partial.

(** Any number of elements: runs of at most R zeros, with (R + 1) times the
    number of elements up to 2^30, and exponents that differ by at most J from
    one value to the next (from 127, the exponent of 1.0, to the first), with
    (J + 2)^2 times the number of values up to 2^28.  Missing: other matrices
    of more than 2^15 elements; the next two theorems show two that fail. *)
Theorem C67_wide_partial cap cap' o R J :
  sparse o -> 0 <= R -> 0 <= J ->
  runs_up_to R (-1) (o_indexes o) -> (R + 1) * (o_rows o * o_cols o) <= 2 ^ 30 ->
  jumps_up_to J 127 (map exponent (o_values o)) -> Z.of_nat (length (o_values o)) * (J + 2) ^ 2 <= 2 ^ 28 ->
  (4 * (74 + 3 * length (o_values o)) <= cap)%nat ->
  exists blob, compress cap o = Ok (Some blob) /\ (length blob <= 4 * (74 + 3 * length (o_values o)))%nat /\
    Forall is_byte blob /\
    ((length blob <= cap')%nat -> (length (o_values o) <= cap')%nat ->
     exists im, decompress (new_impl cap') blob = Ok (Some (read_back o), im)).
Proof. exact (wide_round_trip cap cap' o R J). Qed.
Print Assumptions C67_wide_partial.
(** 512 x 512 elements, 4095 zeros between one value and the next *)
Definition far_rows : origin :=
  Origin 23 true 512 512 (map (fun k => 4096 * Z.of_nat k + 4095) (seq 0 64)) (map (fun k => mkword (1065353216 + Z.of_nat k mod 7 * 2 ^ 23)) (seq 0 64)).
Example C67_wide_case : sparse far_rows /\ o_rows far_rows * o_cols far_rows = 2 ^ 18 /\
  runs_up_to 4095 (-1) (o_indexes far_rows) /\ (4095 + 1) * (o_rows far_rows * o_cols far_rows) <= 2 ^ 30 /\
  jumps_up_to 6 127 (map exponent (o_values far_rows)) /\ Z.of_nat (length (o_values far_rows)) * (6 + 2) ^ 2 <= 2 ^ 28.
Proof.
  split.
  { constructor; try (cbn [o_rows o_cols o_frag far_rows]; lia).
    - discriminate.
    - vm_compute. reflexivity.
    - apply risingb_ok. vm_compute. reflexivity.
    - apply Forall_forall. intros v Hv. cbn [far_rows o_values] in Hv. apply in_map_iff in Hv as (k & <- & _).
      unfold is_zero. cbn [mkword wbits]. pose proof (Z.mod_pos_bound (Z.of_nat k) 7 ltac:(lia)).
      rewrite (Z.mod_small (1065353216 + _)) by lia. lia. }
  split; [reflexivity|]. split; [apply runsb_ok; vm_compute; reflexivity|]. split; [cbn [o_rows o_cols far_rows]; lia|].
  split; [apply jumpsb_ok; vm_compute; reflexivity|]. vm_compute. discriminate.
Qed.

(** Compress returns true and the stream cannot be read: the code lengths
    claim more codes than there are. *)
Definition far_apart : origin :=
  Origin 23 true 1 (2 ^ 31 - 1) [402653185; 805306371; 1879048197] (map mkword [1065353216; 1065353216; 1065353216]).
Theorem C67_unreadable_refuted : sparse far_apart /\
  exists blob, compress 1000 far_apart = Ok (Some blob) /\ decompress (new_impl 1000) blob = UB.
Proof.
  split.
  { constructor; cbn; auto; try lia; try discriminate; repeat (split || constructor); auto; try lia. }
  exists [63; 0; 0; 0; 3; 255; 255; 255; 253; 0; 0; 0; 7; 227; 222; 236; 0; 0; 0; 128; 0; 0; 96; 0; 0; 4; 0; 0; 6; 0; 0; 0; 32; 0; 0; 0].
  split; vm_compute; reflexivity.
Qed.
Print Assumptions C67_unreadable_refuted.

(** A code of 32 bits: an access outside the table of powers. *)
Definition two_ends : origin :=
  Origin 23 true 1 (2 ^ 31 - 1) [0; 2147483646] (map mkword [1065353216; 1065353216]).
Theorem C67_overrun_refuted : sparse two_ends /\ compress 1000 two_ends = UB.
Proof.
  split.
  { constructor; cbn; auto; try lia; try discriminate; repeat (split || constructor); auto; try lia. }
  vm_compute. reflexivity.
Qed.
Print Assumptions C67_overrun_refuted.

(** ** C68 What Compress needs of its input *)

(** refused: a precision that is not offered, more values than elements,
    values and positions of different number *)
Theorem C68_refused cap o :
  (o_frag o < 7 \/ 23 < o_frag o \/ o_frag o = 22) \/
  (o_cols o * o_rows o < Z.of_nat (length (o_values o)) /\ 0 <= o_cols o * o_rows o) \/
  length (o_values o) <> length (o_indexes o) ->
  compress cap o = Ok None.
Proof. exact (compress_refused cap o). Qed.
Example C68_applies : compress 10 (Origin 22 true 1 1 [0] [mkword 1065353216]) = Ok None /\
  compress 10 (Origin 23 true 1 1 [0; 1] [mkword 1065353216; mkword 1065353216]) = Ok None.
Proof. split; vm_compute; reflexivity. Qed.
Print Assumptions C68_refused.

(** A matrix without a value other than zero is not refused and not
    compressed: the program reads Last[-1]. *)
Theorem C68_no_values_refuted cap : compress cap (Origin 23 true 2 2 [] []) = UB.
Proof. destruct cap; vm_compute; reflexivity. Qed.
(** A zero among the values: its sign is read uninitialised. *)
Theorem C68_zero_value_refuted cap : (1 <= cap)%nat -> compress cap (Origin 23 true 2 2 [0] [word_zero]) = UB.
Proof. intros H. destruct cap; [lia|]. vm_compute. reflexivity. Qed.
Print Assumptions C68_no_values_refuted.
Print Assumptions C68_zero_value_refuted.

(** ** C69 One object, two streams *)

(** The second call answers from the tables of the first: [first_matrix] and
    [second_matrix] (P_SfCases) are two small matrices that a new object reads
    back. *)
Theorem C69_reuse_refuted : sparse first_matrix /\ sparse second_matrix /\
  exists blob1 blob2 im r o, compress 1000 first_matrix = Ok (Some blob1) /\ compress 1000 second_matrix = Ok (Some blob2) /\
    decompress (new_impl 100) blob1 = Ok (Some r, im) /\
    (exists im', decompress (new_impl 100) blob2 = Ok (Some second_matrix, im')) /\
    (exists im', decompress im blob2 = Ok (Some o, im')) /\ o_indexes o = [2; 3].
Proof.
  split; [|split; [|exact reuse_wrong]];
    constructor; cbn; auto; try lia; try discriminate; repeat (split || constructor); auto; try lia.
Qed.
Print Assumptions C69_reuse_refuted.
